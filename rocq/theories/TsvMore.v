(** Reading rule files with comments, blank lines and escapes, C16. *)
From Verif Require Import Base RuleModel DataModel DataSpec DataProofs TsvProofs.

Definition nonblank (s : str) : bool := existsb (fun c => negb (c =? SPACE)%N) s.

Lemma parse_escaped s fields cur blank rest : no_line_end s ->
  parse_tsv (InLine fields cur blank) (escape_field s ++ rest) =
  parse_tsv (InLine fields (rev s ++ cur) (blank && negb (nonblank s))) rest.
Proof.
  revert cur blank; induction s as [|c s IH]; intros cur blank [H1 H2].
  - simpl. rewrite andb_true_r. reflexivity.
  - assert (no_line_end s) as Hs by (split; intros K; [apply H1|apply H2]; right; exact K).
    assert (c <> LF) as Hl by (intros ->; apply H1; left; reflexivity).
    assert (c <> CR) as Hr by (intros ->; apply H2; left; reflexivity).
    unfold escape_field. cbn [flat_map]. fold (escape_field s). rewrite <- app_assoc.
    destruct (existsb (N.eqb c) [9; 34; 35; 92]%N) eqn:E.
    + change ([92; c]%N ++ escape_field s ++ rest) with (92%N :: c :: escape_field s ++ rest).
      cbn [parse_tsv]. change (92 =? CR)%N with false. change (92 =? QUOTE)%N with false. change (92 =? LF)%N with false.
      change (92 =? HASH)%N with false. change (92 =? TAB)%N with false. change (92 =? BACKSLASH)%N with true. cbn [orb].
      rewrite IH by exact Hs. cbn [rev]. rewrite <- app_assoc. cbn [app andb nonblank existsb].
      assert ((c =? SPACE)%N = false) as ->; [|cbn [negb orb]; rewrite andb_false_r; reflexivity].
      apply N.eqb_neq. intros ->. discriminate E.
    + cbn [existsb] in E. repeat (apply orb_false_iff in E; destruct E as [? E]).
      cbn [app parse_tsv].
      rewrite (proj2 (N.eqb_neq c CR)), (proj2 (N.eqb_neq c LF)) by assumption.
      change QUOTE with 34%N. change HASH with 35%N. change TAB with 9%N. change BACKSLASH with 92%N.
      repeat match goal with K : (c =? _)%N = false |- _ => rewrite K; clear K end. cbn [orb].
      rewrite IH by exact Hs. cbn [rev nonblank existsb]. rewrite <- app_assoc. cbn [app]. f_equal. f_equal.
      destruct (c =? SPACE)%N, blank; reflexivity.
Qed.

Lemma parse_escaped_first s rest : no_line_end s -> s <> [] ->
  parse_tsv Start (escape_field s ++ rest) = parse_tsv (InLine [] (rev s) (negb (nonblank s))) rest.
Proof.
  intros H Hne. pose proof (parse_escaped s [] [] true rest H) as P. rewrite app_nil_r in P. cbn [andb] in P. rewrite <- P.
  destruct s as [|c s]; [contradiction|]. unfold escape_field. cbn [flat_map].
  destruct H as [H1 H2].
  assert (c <> LF) as Hl by (intros ->; apply H1; left; reflexivity).
  assert (c <> CR) as Hr by (intros ->; apply H2; left; reflexivity).
  destruct (existsb (N.eqb c) [9; 34; 35; 92]%N) eqn:E; [reflexivity|].
  cbn [existsb] in E. repeat (apply orb_false_iff in E; destruct E as [? E]).
  cbn [app parse_tsv].
  rewrite (proj2 (N.eqb_neq c CR)), (proj2 (N.eqb_neq c LF)) by assumption.
  change QUOTE with 34%N. change HASH with 35%N. change TAB with 9%N. change BACKSLASH with 92%N.
  repeat match goal with K : (c =? _)%N = false |- _ => rewrite K; clear K end. reflexivity.
Qed.

Lemma nonblank_spec s : (exists c, In c s /\ c <> 32%N) -> nonblank s = true.
Proof.
  intros (c & Hc & Hn). apply existsb_exists. exists c. split; [exact Hc|]. apply negb_true_iff, N.eqb_neq. exact Hn.
Qed.

Lemma parse_blanks n b rest : exists cur, parse_tsv (InLine [] b true) (repeat 32%N n ++ rest) = parse_tsv (InLine [] cur true) rest.
Proof. revert b; induction n as [|n IH]; intros b; [exists b; reflexivity|]. apply (IH (32%N :: b)). Qed.

(** What a line leaves to be done at its end *)
Definition at_end (l : file_line) (rest : str) : out (list (str * str)) :=
  bind (parse_tsv Start rest) (fun r => Ok (line_rows l ++ r)).

Lemma end_of_line l rest : readable_line l -> parse_tsv Start (line_body l ++ 10%N :: rest) = at_end l rest.
Proof.
  assert (parse_tsv Start rest = bind (parse_tsv Start rest) (fun r => Ok ([] ++ r))) as E0.
  { destruct (parse_tsv Start rest); reflexivity. }
  destruct l as [n|t|s d n]; intros H.
  - unfold at_end. cbn [line_rows line_body]. rewrite <- E0. destruct n as [|n]; [reflexivity|].
    destruct (parse_blanks n [32%N] (10%N :: rest)) as (cur & E). etransitivity; [exact E|]. reflexivity.
  - unfold at_end. cbn [line_rows line_body]. rewrite <- E0.
    change ((35%N :: t) ++ 10%N :: rest) with (HASH :: t ++ LF :: rest). apply parse_header. exact H.
  - cbn [readable_line] in H. destruct H as (Hs & Hd & Hn). cbn [line_body]. rewrite <- !app_assoc.
    unfold at_end. cbn [line_rows].
    assert (forall st fields cur b, st = InLine fields cur b -> (n = None -> b = false) ->
              parse_tsv st ((match n with Some t => 35%N :: t | None => [] end) ++ 10%N :: rest) =
              match end_line (rev cur :: fields) with
              | Some row => bind (parse_tsv Start rest) (fun r => Ok (row ++ r))
              | None => Other
              end) as Hend.
    { intros st fields cur b -> Hb. destruct n as [t|].
      - change ((35%N :: t) ++ 10%N :: rest) with (35%N :: t ++ 10%N :: rest). cbn [parse_tsv].
        change (35 =? CR)%N with false. change (35 =? QUOTE)%N with false. change (35 =? LF)%N with false.
        change (35 =? HASH)%N with true. cbn [orb]. rewrite parse_comment by exact Hn. reflexivity.
      - rewrite (Hb eq_refl). reflexivity. }
    destruct d as [t|].
    + assert (parse_tsv Start (escape_field s ++ 9%N :: escape_field t ++
                match n with Some t => 35%N :: t | None => [] end ++ 10%N :: rest) =
              parse_tsv (InLine [s] [] false) (escape_field t ++ match n with Some t => 35%N :: t | None => [] end ++ 10%N :: rest)) as E.
      { destruct s as [|c s]; [reflexivity|]. rewrite parse_escaped_first by (auto; discriminate).
        change 9%N with TAB. rewrite parse_tab, rev_involutive. reflexivity. }
      change ((9%N :: escape_field t) ++ match n with Some t => 35%N :: t | None => [] end ++ 10%N :: rest)
        with (9%N :: escape_field t ++ match n with Some t => 35%N :: t | None => [] end ++ 10%N :: rest).
      rewrite E, parse_escaped by exact Hd. rewrite app_nil_r. cbn [andb].
      rewrite (Hend _ _ _ _ eq_refl) by auto. rewrite rev_involutive. reflexivity.
    + rewrite parse_escaped_first by auto. cbn [app].
      rewrite (Hend _ _ _ _ eq_refl).
      * rewrite rev_involutive. reflexivity.
      * intros ->. rewrite nonblank_spec by auto. reflexivity.
Qed.

(** At the end of the file a line feed makes no difference. *)
Lemma last_line l : readable_line l -> parse_tsv Start (line_body l) = Ok (line_rows l).
Proof.
  destruct l as [n|t|s d n]; intros H.
  - cbn [line_rows line_body]. destruct n as [|n]; [reflexivity|].
    destruct (parse_blanks n [32%N] []) as (cur & E). rewrite app_nil_r in E. etransitivity; [exact E|]. reflexivity.
  - cbn [line_rows line_body]. change (35%N :: t) with (HASH :: t). cbn [parse_tsv].
    change (HASH =? CR)%N with false. change (HASH =? QUOTE)%N with false.
    change (HASH =? LF)%N with false. change (HASH =? HASH)%N with true. cbn [orb].
    rewrite <- (app_nil_r t), parse_comment by exact H. reflexivity.
  - cbn [readable_line] in H. destruct H as (Hs & Hd & Hn). cbn [line_body line_rows].
    assert (forall st fields cur b, st = InLine fields cur b -> (n = None -> b = false) ->
              parse_tsv st (match n with Some t => 35%N :: t | None => [] end) =
              match end_line (rev cur :: fields) with
              | Some row => Ok (row ++ [])
              | None => Other
              end) as Hend.
    { intros st fields cur b -> Hb. destruct n as [t|].
      - cbn [parse_tsv].
        change (35 =? CR)%N with false. change (35 =? QUOTE)%N with false. change (35 =? LF)%N with false.
        change (35 =? HASH)%N with true. cbn [orb]. rewrite <- (app_nil_r t), parse_comment by exact Hn. reflexivity.
      - rewrite (Hb eq_refl). reflexivity. }
    destruct d as [t|].
    + assert (parse_tsv Start (escape_field s ++ 9%N :: escape_field t ++
                match n with Some t => 35%N :: t | None => [] end) =
              parse_tsv (InLine [s] [] false) (escape_field t ++ match n with Some t => 35%N :: t | None => [] end)) as E.
      { destruct s as [|c s]; [reflexivity|]. rewrite parse_escaped_first by (auto; discriminate).
        change 9%N with TAB. rewrite parse_tab, rev_involutive. reflexivity. }
      change ((9%N :: escape_field t) ++ match n with Some t => 35%N :: t | None => [] end)
        with (9%N :: escape_field t ++ match n with Some t => 35%N :: t | None => [] end).
      rewrite E, parse_escaped by exact Hd. rewrite app_nil_r. cbn [andb].
      rewrite (Hend _ _ _ _ eq_refl) by auto. rewrite rev_involutive. reflexivity.
    + rewrite parse_escaped_first by auto. cbn [app].
      rewrite (Hend _ _ _ _ eq_refl).
      * rewrite rev_involutive. reflexivity.
      * intros ->. rewrite nonblank_spec by auto. reflexivity.
Qed.

Lemma parse_file ls last : Forall readable_line (file_lines ls last) ->
  parse_tsv Start (file_text ls last) = Ok (flat_map line_rows (file_lines ls last)).
Proof.
  unfold file_lines, file_text. induction ls as [|l ls IH]; cbn [app flat_map]; intros H.
  - destruct last as [l|]; [|reflexivity]. cbn [flat_map]. rewrite app_nil_r. inversion H; subst. apply last_line. assumption.
  - inversion H; subst. rewrite <- !app_assoc. cbn [app]. rewrite end_of_line by assumption. unfold at_end.
    rewrite IH by assumption. reflexivity.
Qed.

Lemma rules_of_file numeric ls last : Forall readable_line (file_lines ls last) ->
  let rows := flat_map line_rows (file_lines ls last) in
  numeric (map fst rows) = false -> numeric (map snd rows) = false ->
  (Forall (fun r : str * str => fst r <> []) rows ->
     rules_from_tsv numeric (file_text ls last) = Ok (map (fun r => Rule (fst r) (snd r)) rows)) /\
  (~ Forall (fun r : str * str => fst r <> []) rows -> rules_from_tsv numeric (file_text ls last) = ValueError).
Proof.
  intros H rows N1 N2. unfold rules_from_tsv. rewrite parse_file by exact H. cbn [bind]. fold rows. rewrite N1, N2. cbn [orb].
  destruct (existsb (fun r => is_empty (fst r)) rows) eqn:E; split; intros K; try reflexivity.
  - apply existsb_exists in E as (r & Hr & Er). rewrite Forall_forall in K. apply K in Hr. destruct r as [[|a u] v]; [exfalso; apply Hr; reflexivity|discriminate].
  - exfalso. apply K. apply Forall_forall. intros r Hr Er.
    assert (existsb (fun r => is_empty (fst r)) rows = true) as T; [|congruence].
    apply existsb_exists. exists r. split; [exact Hr|]. destruct r as [u v]. cbn [fst] in Er |- *. subst u. reflexivity.
Qed.
