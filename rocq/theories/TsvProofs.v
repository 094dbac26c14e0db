(** TSV writing and reading, C16. *)
From Verif Require Import Base RuleModel DataModel DataSpec DataProofs.

Ltac neqs := repeat match goal with
  | |- context [(?c =? ?d)%N] => rewrite (proj2 (N.eqb_neq c d)) by assumption
  end.

Lemma plain_char s c : plain_field s -> In c s ->
  c <> TAB /\ c <> LF /\ c <> CR /\ c <> QUOTE /\ c <> HASH /\ c <> BACKSLASH.
Proof. intros H Hc. apply H in Hc. repeat split; intros ->; apply Hc; simpl; auto 10. Qed.

Lemma plain_tail c s : plain_field (c :: s) -> plain_field s.
Proof. intros H d Hd. apply H. right. exact Hd. Qed.

(** Only blanks. *)
Definition blank_text (s : str) : bool := forallb (fun c => (c =? SPACE)%N) s.

Lemma parse_field s fields cur blank rest : plain_field s ->
  parse_tsv (InLine fields cur blank) (s ++ rest) =
  parse_tsv (InLine fields (rev s ++ cur) (blank && blank_text s)) rest.
Proof.
  revert cur blank; induction s as [|c s IH]; intros cur blank H.
  - simpl. rewrite andb_true_r. reflexivity.
  - destruct (plain_char _ c H (or_introl eq_refl)) as (H1 & H2 & H3 & H4 & H5 & H6).
    cbn [app parse_tsv]. neqs. cbn [orb]. rewrite IH by (eapply plain_tail; eauto).
    cbn [rev blank_text forallb]. rewrite <- app_assoc, andb_assoc. reflexivity.
Qed.

Lemma parse_first s rest : plain_field s -> s <> [] ->
  parse_tsv Start (s ++ rest) = parse_tsv (InLine [] (rev s) (blank_text s)) rest.
Proof.
  destruct s as [|c s]; [contradiction|]. intros H _.
  destruct (plain_char _ c H (or_introl eq_refl)) as (H1 & H2 & H3 & H4 & H5 & H6).
  cbn [app parse_tsv]. neqs. cbn [orb]. rewrite parse_field by (eapply plain_tail; eauto).
  cbn [rev blank_text forallb andb]. reflexivity.
Qed.

Lemma parse_tab fields cur blank rest :
  parse_tsv (InLine fields cur blank) (TAB :: rest) = parse_tsv (InLine (rev cur :: fields) [] false) rest.
Proof. reflexivity. Qed.

Lemma parse_lf fields cur rest : parse_tsv (InLine fields cur false) (LF :: rest) =
  match end_line (rev cur :: fields) with
  | Some row => bind (parse_tsv Start rest) (fun l => Ok (row ++ l))
  | None => Other
  end.
Proof. reflexivity. Qed.

Definition dest_text (d : option str) : str := match d with Some t => t | None => [] end.

(** An item that the readers take literally. *)
Definition plain_item (p : str * option str) : Prop :=
  fst p <> [] /\ plain_field (fst p) /\ plain_field (dest_text (snd p)) /\
  (dest_text (snd p) = [] -> blank_text (fst p) = false).

Lemma parse_line p rest : plain_item p ->
  parse_tsv Start (tsv_line p ++ rest) =
  bind (parse_tsv Start rest) (fun l => Ok ((fst p, dest_text (snd p)) :: l)).
Proof.
  destruct p as [s d]. intros (H1 & H2 & H3 & H4). cbn [fst snd] in *.
  assert (forall b, b = false -> parse_tsv (InLine [] (rev s) b) ([LF] ++ rest) =
          bind (parse_tsv Start rest) (fun l => Ok ((s, []) :: l))) as Hshort.
  { intros b ->. cbn [app parse_tsv]. change (LF =? CR)%N with false. change (LF =? QUOTE)%N with false.
    change (LF =? LF)%N with true. cbn [orb]. rewrite rev_involutive. reflexivity. }
  unfold tsv_line. cbn [fst snd].
  destruct d as [[|c d]|]; cbn [dest_text] in *.
  - rewrite <- app_assoc, parse_first by auto. apply Hshort. auto.
  - rewrite <- app_assoc, parse_first by auto.
    replace ((TAB :: (c :: d) ++ [LF]) ++ rest) with (TAB :: (c :: d) ++ LF :: rest)
      by (simpl; rewrite <- app_assoc; reflexivity).
    rewrite parse_tab, parse_field, parse_lf by exact H3. rewrite app_nil_r, !rev_involutive. reflexivity.
  - rewrite <- app_assoc, parse_first by auto. apply Hshort. auto.
Qed.

Lemma parse_comment f s rest : ~ In LF s -> parse_tsv (Comment f) (s ++ rest) = parse_tsv (Comment f) rest.
Proof.
  induction s as [|c s IH]; intros H; auto. cbn [app parse_tsv].
  assert (c <> LF) as Hc by (intros ->; apply H; left; reflexivity).
  neqs. destruct f; apply IH; intros Hin; apply H; right; exact Hin.
Qed.

Lemma parse_header h rest : ~ In LF h ->
  parse_tsv Start (HASH :: h ++ LF :: rest) = parse_tsv Start rest.
Proof.
  intros H. cbn [parse_tsv]. change (HASH =? CR)%N with false. change (HASH =? QUOTE)%N with false.
  change (HASH =? LF)%N with false. change (HASH =? HASH)%N with true. cbn [orb].
  rewrite parse_comment by exact H. reflexivity.
Qed.

Definition written (p : str * option str) : rule := Rule (fst p) (dest_text (snd p)).

Lemma parse_items l : Forall plain_item l ->
  parse_tsv Start (flat_map tsv_line l) = Ok (map (fun p => (fst p, dest_text (snd p))) l).
Proof.
  induction 1 as [|p l Hp _ IH]; [reflexivity|]. cbn [flat_map map].
  rewrite parse_line by exact Hp. rewrite IH. reflexivity.
Qed.

Lemma rules_read_back numeric h l : ~ In LF h -> Forall plain_item l ->
  numeric (map fst l) = false -> numeric (map (fun p => dest_text (snd p)) l) = false ->
  rules_from_tsv numeric (HASH :: h ++ LF :: flat_map tsv_line l) = Ok (map written l).
Proof.
  intros Hh Hl N1 N2. unfold rules_from_tsv. rewrite parse_header, parse_items by auto. cbn [bind].
  rewrite !map_map. cbn [fst snd].
  match goal with |- context [numeric ?a || numeric ?b] =>
    change (numeric a) with (numeric (map fst l));
    change (numeric b) with (numeric (map (fun p => dest_text (snd p)) l)) end.
  rewrite N1, N2. cbn [orb].
  assert (existsb (fun r => is_empty (fst r)) (map (fun p => (fst p, dest_text (snd p))) l) = false) as ->.
  { apply existsb_false. intros r Hr. apply in_map_iff in Hr as (p & <- & Hp). rewrite Forall_forall in Hl.
    apply Hl in Hp as (Hne & _). apply is_empty_false. exact Hne. }
  reflexivity.
Qed.

(** ** The alphabet *)
Lemma lines_of_line s rest cur : ~ In LF s ->
  lines_of cur (s ++ LF :: rest) = (rev cur ++ s) :: lines_of [] rest.
Proof.
  revert cur; induction s as [|c s IH]; intros cur H; cbn [app lines_of].
  - rewrite N.eqb_refl, app_nil_r. reflexivity.
  - assert (c <> LF) as Hc by (intros ->; apply H; left; reflexivity). neqs.
    rewrite IH by (intros Hin; apply H; right; exact Hin). cbn [rev]. rewrite <- app_assoc. reflexivity.
Qed.

Lemma split_tab_plain s cur : ~ In TAB s -> split_tab cur s = [rev cur ++ s].
Proof.
  revert cur; induction s as [|c s IH]; intros cur H; cbn [split_tab].
  - rewrite app_nil_r. reflexivity.
  - assert (c <> TAB) as Hc by (intros ->; apply H; left; reflexivity). neqs.
    rewrite IH by (intros Hin; apply H; right; exact Hin). cbn [rev]. rewrite <- app_assoc. reflexivity.
Qed.

Lemma split_tab_two s t cur : ~ In TAB s -> split_tab cur (s ++ TAB :: t) = (rev cur ++ s) :: split_tab [] t.
Proof.
  revert cur; induction s as [|c s IH]; intros cur H; cbn [app split_tab].
  - rewrite N.eqb_refl, app_nil_r. reflexivity.
  - assert (c <> TAB) as Hc by (intros ->; apply H; left; reflexivity). neqs.
    rewrite IH by (intros Hin; apply H; right; exact Hin). cbn [rev]. rewrite <- app_assoc. reflexivity.
Qed.

(** No white space at either end. *)
Definition trimmed (s : str) : Prop :=
  (forall c t, s = c :: t -> py_space c = false) /\ (forall c t, s = t ++ [c] -> py_space c = false).

Lemma lstrip_id s : (forall c t, s = c :: t -> py_space c = false) -> lstrip s = s.
Proof. destruct s as [|c s]; intros H; [reflexivity|]. simpl. rewrite (H c s); auto. Qed.

Lemma strip_id s : trimmed s -> strip s = s.
Proof.
  intros [H1 H2]. unfold strip. rewrite (lstrip_id s H1), lstrip_id.
  - apply rev_involutive.
  - intros c t E. apply (H2 c (rev t)). rewrite <- (rev_involutive s), E. reflexivity.
Qed.

Definition line_text (p : str * option str) : str :=
  match dest_text (snd p) with [] => fst p | d => fst p ++ TAB :: d end.

Lemma tsv_line_text p : tsv_line p = line_text p ++ [LF].
Proof.
  destruct p as [s [[|c d]|]]; unfold tsv_line, line_text; cbn [fst snd dest_text]; auto.
  rewrite <- app_assoc. reflexivity.
Qed.

Lemma file_chars_nil n h : ~ In LF h -> file_chars n (HASH :: h ++ [LF]) = [].
Proof.
  intros H. unfold file_chars. change (HASH :: h ++ [LF]) with ((HASH :: h) ++ LF :: []).
  rewrite lines_of_line.
  - reflexivity.
  - intros [E|Hin]; [discriminate|auto].
Qed.

Lemma no_lf_line p : plain_item p -> ~ In LF (line_text p).
Proof.
  destruct p as [s d]. intros (_ & H2 & H3 & _). cbn [fst snd] in *. unfold line_text. cbn [fst snd].
  intros Hin. destruct (dest_text d) as [|c t] eqn:E.
  - apply (H2 LF Hin). simpl. auto.
  - apply in_app_or in Hin as [Hin|[Hin|Hin]].
    + apply (H2 LF Hin). simpl. auto.
    + discriminate.
    + apply (H3 LF Hin). simpl. auto.
Qed.

Lemma line_fields n p : plain_item p -> trimmed (line_text p) -> 0 < n ->
  match line_text p with
  | c :: _ => if (c =? HASH)%N then [] else concat (firstn n (split_tab [] (strip (line_text p))))
  | [] => []
  end = fst p ++ (if n =? 1 then [] else dest_text (snd p)).
Proof.
  destruct p as [s d]. intros (H1 & H2 & H3 & _) Ht Hn. cbn [fst snd] in *.
  rewrite strip_id by exact Ht.
  assert (exists c t, line_text (s, d) = c :: t /\ (c =? HASH)%N = false) as (c & t & E & Hc).
  { destruct s as [|c s]; [contradiction|].
    assert ((c =? HASH)%N = false) as Hc.
    { apply N.eqb_neq. intros ->. apply (H2 HASH); simpl; auto 10. }
    unfold line_text. cbn [fst snd]. destruct (dest_text d); cbn [app]; eauto. }
  rewrite E, Hc, <- E. unfold line_text. cbn [fst snd].
  assert (forall x, plain_field x -> ~ In TAB x) as HT.
  { intros x Hx Hin. apply (Hx TAB Hin). simpl. auto. }
  destruct n as [|n]; [lia|].
  destruct (dest_text d) as [|e u] eqn:Ed.
  - rewrite split_tab_plain by auto. cbn [rev app firstn]. rewrite firstn_nil. cbn [concat].
    destruct (S n =? 1); reflexivity.
  - rewrite split_tab_two, split_tab_plain by auto. cbn [rev firstn concat].
    change ([] ++ s) with s. change ([] ++ e :: u) with (e :: u).
    destruct n as [|n]; [reflexivity|]. cbn [firstn]. rewrite firstn_nil. cbn [concat].
    rewrite app_nil_r. reflexivity.
Qed.

Lemma file_chars_items n l : 0 < n -> Forall (fun p => plain_item p /\ trimmed (line_text p)) l ->
  file_chars n (flat_map tsv_line l) = flat_map (fun p => fst p ++ if n =? 1 then [] else dest_text (snd p)) l.
Proof.
  intros Hn. unfold file_chars. induction 1 as [|p l [Hp Ht] _ IH]; [reflexivity|].
  cbn [flat_map]. rewrite tsv_line_text, <- app_assoc. cbn [app].
  rewrite lines_of_line by (apply no_lf_line; exact Hp). cbn [rev app flat_map].
  rewrite IH. f_equal. apply line_fields; auto.
Qed.

Lemma file_chars_header n h s : ~ In LF h -> file_chars n (HASH :: h ++ LF :: s) = file_chars n s.
Proof.
  intros H. unfold file_chars. change (HASH :: h ++ LF :: s) with ((HASH :: h) ++ LF :: s).
  rewrite lines_of_line.
  - reflexivity.
  - intros [E|Hin]; [discriminate|auto].
Qed.

Lemma chars_exact h l : ~ In LF h -> Forall (fun p => plain_item p /\ trimmed (line_text p)) l ->
  forall c,
  (In c (file_chars 2 (HASH :: h ++ LF :: flat_map tsv_line l)) <->
     exists p, In p l /\ (In c (fst p) \/ exists d, snd p = Some d /\ In c d)) /\
  (In c (file_chars 1 (HASH :: h ++ LF :: flat_map tsv_line l)) <-> exists p, In p l /\ In c (fst p)).
Proof.
  intros Hh Hl c. rewrite !file_chars_header by exact Hh.
  rewrite !file_chars_items by (auto; lia). rewrite !in_flat_map. cbn [Nat.eqb]. split; split.
  - intros (p & Hp & Hc). exists p. split; [exact Hp|]. apply in_app_or in Hc as [Hc|Hc].
    + left. exact Hc.
    + right. destruct p as [s [d|]]; cbn [fst snd dest_text] in *; [exists d; auto|contradiction].
  - intros (p & Hp & [Hc|(d & E & Hc)]); exists p; (split; [exact Hp|]); apply in_or_app.
    + left. exact Hc.
    + right. destruct p as [s o]. cbn [fst snd] in *. subst o. exact Hc.
  - intros (p & Hp & Hc). exists p. rewrite app_nil_r in Hc. auto.
  - intros (p & Hp & Hc). exists p. rewrite app_nil_r. auto.
Qed.

(** ** From protos to rules *)
Lemma proto_round_trip lookup is_cc has_name set_list numeric h ps qs its file :
  ~ In LF h ->
  proto_to_tsv lookup is_cc has_name set_list (HASH :: h ++ [LF]) ps qs its = Ok file ->
  exists l, convert_items lookup is_cc has_name set_list ps qs its = Ok l /\ length l = length its /\
    (Forall plain_item l -> numeric (map fst l) = false ->
     numeric (map (fun p => dest_text (snd p)) l) = false ->
     rules_from_tsv numeric file = Ok (map written l)).
Proof.
  intros Hh H. unfold proto_to_tsv in H. apply bind_ok in H as (l & H1 & H2). injection H2 as <-.
  exists l. split; [exact H1|]. split.
  - clear - H1. revert l H1. induction its as [|it its IH]; simpl; intros l H.
    + injection H as <-. reflexivity.
    + apply bind_ok in H as (p & _ & H). apply bind_ok in H as (l' & H & E). injection E as <-.
      simpl. f_equal. apply IH. exact H.
  - intros Hl N1 N2.
    change ((HASH :: h ++ [LF]) ++ flat_map tsv_line l) with (HASH :: (h ++ [LF]) ++ flat_map tsv_line l).
    rewrite <- app_assoc. apply rules_read_back; auto.
Qed.

(** ** Statements in elementary terms *)
Definition plain_entry (p : str * option str) : Prop :=
  fst p <> [] /\ plain_field (fst p) /\ plain_field (dest_text (snd p)) /\
  (dest_text (snd p) = [] -> exists c, In c (fst p) /\ c <> 32%N).

Lemma plain_entry_item p : plain_entry p -> plain_item p.
Proof.
  intros (H1 & H2 & H3 & H4). repeat split; auto. intros E. destruct (H4 E) as (c & Hc & N).
  destruct (blank_text (fst p)) eqn:B; auto. unfold blank_text in B. rewrite forallb_forall in B.
  apply B, N.eqb_eq in Hc. contradiction.
Qed.

Lemma rules_read_back_spec numeric h l : ~ In 10%N h -> Forall plain_entry l ->
  numeric (map fst l) = false -> numeric (map (fun p => dest_text (snd p)) l) = false ->
  rules_from_tsv numeric (35%N :: h ++ 10%N :: flat_map tsv_line l)
    = Ok (map (fun p => Rule (fst p) (dest_text (snd p))) l).
Proof.
  intros H1 H2 H3 H4. apply (rules_read_back numeric h l); auto.
  eapply Forall_impl; [|exact H2]. apply plain_entry_item.
Qed.

Lemma convert_items_each lookup is_cc has_name f ps qs its l :
  convert_items lookup is_cc has_name f ps qs its = Ok l ->
  Forall2 (fun it p => convert_item lookup is_cc has_name f ps qs it = Ok p) its l.
Proof.
  revert l. induction its as [|it its IH]; simpl; intros l H.
  - injection H as <-. constructor.
  - apply bind_ok in H as (p & H1 & H). apply bind_ok in H as (l' & H2 & E). injection E as <-.
    constructor; auto.
Qed.

Lemma proto_round_trip_spec lookup is_cc has_name set_list numeric h ps qs its file :
  ~ In 10%N h ->
  proto_to_tsv lookup is_cc has_name set_list (35%N :: h ++ [10%N]) ps qs its = Ok file ->
  exists l, convert_items lookup is_cc has_name set_list ps qs its = Ok l /\
    Forall2 (fun it p => convert_item lookup is_cc has_name set_list ps qs it = Ok p) its l /\
    (Forall plain_entry l -> numeric (map fst l) = false ->
     numeric (map (fun p => dest_text (snd p)) l) = false ->
     rules_from_tsv numeric file = Ok (map (fun p => Rule (fst p) (dest_text (snd p))) l)).
Proof.
  intros Hh H.
  destruct (proto_round_trip lookup is_cc has_name set_list numeric h ps qs its file Hh H) as (l & H1 & _ & H2).
  exists l. split; [exact H1|]. split; [apply convert_items_each; exact H1|].
  intros Hl N1 N2. apply H2; auto. eapply Forall_impl; [|exact Hl]. apply plain_entry_item.
Qed.

Lemma chars_exact_spec h l : ~ In 10%N h -> Forall (fun p => plain_entry p /\ trimmed (line_text p)) l ->
  forall c,
  (In c (file_chars 2 (35%N :: h ++ 10%N :: flat_map tsv_line l)) <->
     exists p, In p l /\ (In c (fst p) \/ exists d, snd p = Some d /\ In c d)) /\
  (In c (file_chars 1 (35%N :: h ++ 10%N :: flat_map tsv_line l)) <-> exists p, In p l /\ In c (fst p)).
Proof.
  intros Hh Hl. apply chars_exact; [exact Hh|]. eapply Forall_impl; [|exact Hl].
  intros p [H1 H2]. split; [apply plain_entry_item; exact H1|exact H2].
Qed.

Lemma blank_lost : exists s d,
  plain_field s /\ plain_field d /\
  rules_from_tsv (fun _ => false) (tsv_line (s, Some d)) = Ok [Rule s d] /\
  exists c, In c d /\ ~ In c (file_chars 2 (tsv_line (s, Some d))).
Proof.
  exists [97%N], [32%N]. split; [|split; [|split]].
  - intros c [<-|[]] H. simpl in H. repeat destruct H as [H|H]; try discriminate; contradiction.
  - intros c [<-|[]] H. simpl in H. repeat destruct H as [H|H]; try discriminate; contradiction.
  - reflexivity.
  - exists 32%N. split; [left; reflexivity|]. vm_compute. intros [H|[]]. discriminate.
Qed.

Lemma hash_lost : exists s d, s <> [] /\ d <> [] /\
  rules_from_tsv (fun _ => false) (tsv_line (s, Some d)) = Ok [Rule s []].
Proof. exists [97%N], [35; 98]%N. split; [discriminate|]. split; [discriminate|]. reflexivity. Qed.
