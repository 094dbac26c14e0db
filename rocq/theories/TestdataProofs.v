From Coq Require Import String Ascii.
From Verif Require Import Base KbestModel FileModel FileSpec FileProofs TestdataModel TestdataSpec.
Local Open Scope list_scope.

Lemma header_text body : kOutputFileHeader ++ body = headed body.
Proof. reflexivity. Qed.
Lemma headed_parse {message} (parse : str -> bool * message) body : ignores_comments parse -> parse (headed body) = parse body.
Proof.
  intro I. unfold headed, heading, text_of. cbn [map concat]. rewrite app_nil_r, <- !app_assoc. cbn [app].
  change (ascii_text "# proto-file: third_party/nisaba/interim/testing/testdata.proto")
    with (35%N :: ascii_text " proto-file: third_party/nisaba/interim/testing/testdata.proto").
  change (ascii_text "# proto-message: Rewrites") with (35%N :: ascii_text " proto-message: Rewrites").
  assert (O1 : one_line (ascii_text " proto-file: third_party/nisaba/interim/testing/testdata.proto")).
  { unfold one_line. cbn. intro H. repeat (destruct H as [H|H]; [discriminate|]). exact H. }
  assert (O2 : one_line (ascii_text " proto-message: Rewrites")).
  { unfold one_line. cbn. intro H. repeat (destruct H as [H|H]; [discriminate|]). exact H. }
  generalize dependent (ascii_text " proto-file: third_party/nisaba/interim/testing/testdata.proto"). intros c1 O1.
  generalize dependent (ascii_text " proto-message: Rewrites"). intros c2 O2.
  cbn [app]. rewrite (I c1 _ O1). apply (I c2 _ O2).
Qed.

Section Stream.
Variables (takes : str -> str -> nat) (closes : str -> bool) (block_size : nat).

(** A stream whose bytes so far are [p]: without a failure they are in the file or the
    buffer; after one the file has a beginning of them *)
Definition holds (p : str) (s : stream) : Prop :=
  open s = true /\ on_delete s = false /\
  if failed s then is_prefix (data s) p /\ buffer s = [] else data s ++ buffer s = p.

Lemma firstn_prefix {A} n (a b : list A) : exists t, a ++ b = (a ++ firstn n b) ++ t.
Proof. exists (skipn n b). now rewrite <- app_assoc, firstn_skipn. Qed.
Lemma prefix_more p q r : is_prefix p q -> is_prefix p (q ++ r).
Proof. intros [t ->]. exists (t ++ r). now rewrite app_assoc. Qed.
Lemma write_buffer p s : holds p s -> exists ok s', WriteBuffer takes s = Fine (ok, s') /\ holds p s' /\ buffer s' = [] /\
  failed s' = negb ok /\ (failed s = false -> takes_all takes -> ok = true).
Proof.
  intros [O [D H]]. unfold WriteBuffer. destruct (failed s) eqn:F.
  - exists false, s. split; [reflexivity|]. split; [|split; [apply H|split; [auto|discriminate]]]. split; [auto|split;[auto|]]. now rewrite F.
  - destruct (buffer s) as [|c b] eqn:B.
    + exists true, s. split; [reflexivity|]. split; [|split; [auto|split; [auto|auto]]]. split; [auto|split; [auto|]]. rewrite F, B. exact H.
    + rewrite O. unfold WriteString, Write. rewrite Z.eqb_refl.
      remember (Nat.min (takes (data s) (c :: b)) (List.length (c :: b))) as n eqn:N.
      destruct (Nat.eqb_spec n (List.length (c :: b))) as [E|E]; cbn [is_ok].
      * exists true. eexists. split; [reflexivity|]. split; [|split; [auto|split; [auto|auto]]].
        split; [reflexivity|split; [exact D|]]. cbn [failed data buffer]. rewrite app_nil_r, E, firstn_all. exact H.
      * exists false. eexists. split; [reflexivity|]. split; [|split; [auto|split; [auto|]]].
        -- split; [reflexivity|split; [exact D|]]. cbn [failed data buffer]. split; [|reflexivity]. rewrite <- H. apply firstn_prefix.
        -- intros _ T. specialize (T (data s) (c :: b)). exfalso. apply E. rewrite N. now apply Nat.min_r.
Qed.
Lemma put_holds p s c : holds p s -> failed s = false -> exists ok s', put takes block_size s c = Fine (ok, s') /\ holds (p ++ [c]) s' /\
  failed s' = negb ok /\ (takes_all takes -> ok = true) /\
  (List.length (buffer s) < block_size -> ok = true /\ List.length (buffer s') = S (List.length (buffer s))).
Proof.
  intros H FS. unfold put. destruct (Nat.eqb_spec (List.length (buffer s)) block_size) as [E|E].
  - destruct (write_buffer p s H) as [ok [s1 [W [H1 [B [F T]]]]]]. rewrite W. cbn [bind]. destruct ok.
    + exists true. eexists. split; [reflexivity|]. destruct H1 as [O [D Q]]. cbn [negb] in F. rewrite F in Q.
      split; [|split; [exact F|split; [auto|intro; lia]]]. split; [exact O|split; [exact D|]]. cbn [failed data buffer]. rewrite F.
      now rewrite app_assoc, Q.
    + exists false, s1. split; [reflexivity|]. destruct H1 as [O [D Q]]. split; [|split; [exact F|split; [auto|intro; lia]]].
      split; [exact O|split; [exact D|]]. cbn [negb] in F. rewrite F in *. destruct Q as [Q1 Q2]. split; [now apply prefix_more|exact Q2].
  - cbn [bind]. exists true. eexists. split; [reflexivity|]. destruct H as [O [D Q]]. rewrite FS in Q.
    split; [|split; [exact FS|split; [auto|]]].
    + split; [exact O|split; [exact D|]]. cbn [failed data buffer]. rewrite FS. now rewrite app_assoc, Q.
    + intros _. cbn [buffer]. rewrite app_length. cbn. split; [reflexivity|lia].
Qed.
Lemma write_bytes_holds bs : forall p s, holds p s -> failed s = false ->
  exists ok s', write_bytes takes block_size s bs = Fine (ok, s') /\ holds (p ++ bs) s' /\ failed s' = negb ok /\
    (takes_all takes -> ok = true) /\
    (List.length (buffer s) + List.length bs <= block_size -> ok = true /\ List.length (buffer s') = List.length (buffer s) + List.length bs).
Proof.
  induction bs as [|c bs IH]; intros p s H F.
  - exists true, s. rewrite app_nil_r. cbn. repeat split; auto; apply H.
  - cbn [write_bytes]. destruct (put_holds p s c H F) as [ok [s1 [P [H1 [F1 [T1 L1]]]]]]. rewrite P. cbn [bind]. destruct ok.
    + destruct (IH _ _ H1 F1) as [ok2 [s2 [W [H2 [F2 [T2 L2]]]]]]. exists ok2, s2. split; [exact W|].
      rewrite <- app_assoc in H2. split; [exact H2|]. split; [exact F2|]. split; [exact T2|].
      intro L. cbn [List.length] in L. destruct L1 as [_ L1]; [lia|]. destruct L2 as [L2 L3]; [lia|]. split; [exact L2|]. cbn [List.length]. lia.
    + exists false, s1. split; [reflexivity|]. split.
      * destruct H1 as [O [D Q]]. split; [exact O|split; [exact D|]]. cbn [negb] in F1. rewrite F1 in *. destruct Q as [Q1 Q2].
        split; [|exact Q2]. change (p ++ c :: bs) with (p ++ [c] ++ bs). rewrite app_assoc. now apply prefix_more.
      * split; [exact F1|]. split; [intro T; specialize (T1 T); discriminate|].
        intro L. cbn [List.length] in L. destruct L1 as [L1 _]; [lia|discriminate].
Qed.
Lemma close_holds p s : holds p s -> exists ok s', close takes closes block_size s = Fine (ok, s') /\
  is_prefix (data s') p /\ (ok = true -> failed s = false -> data s' = p /\ closes p = true) /\ delete_stream takes closes s' = Fine s' /\
  (failed s = false -> takes_all takes -> ok = closes p) /\ (failed s = true -> ok = false).
Proof.
  intro H. unfold close. cbn [apply_call]. destruct (write_buffer p s H) as [ok [s1 [W [[O [D Q]] [B [F T]]]]]].
  rewrite W. cbn [bind]. unfold close_file. rewrite O. cbn [bind fst snd].
  assert (FS : failed s = true -> ok = false). { intro FS. unfold WriteBuffer in W. rewrite FS in W. injection W as <- _. reflexivity. }
  eexists _, _. split; [reflexivity|]. cbn [data]. split; [|split; [|split; [|split]]].
  - destruct (failed s1); [apply Q|]. rewrite B, app_nil_r in Q. rewrite Q. now exists []; rewrite app_nil_r.
  - intro K. apply andb_true_iff in K as [K1 K2]. rewrite K2 in *. cbn [negb] in F. rewrite F, B, app_nil_r in Q.
    intros _. split; [exact Q|]. now rewrite <- Q.
  - unfold delete_stream, WriteBuffer. cbn [failed buffer open on_delete]. rewrite F, B, D.
    destruct ok; cbn [negb bind snd failed buffer]; rewrite ?B; reflexivity.
  - intros N TA. rewrite (T N TA) in *. cbn [negb] in F. rewrite F, B, app_nil_r in Q. rewrite Q. apply andb_true_r.
  - intro N. rewrite (FS N). apply andb_false_r.
Qed.
Lemma new_holds : holds [] (new_stream []).
Proof. repeat split. Qed.
End Stream.

Section Set_.
Variables (message : Type) (default : message) (text_parse binary_parse : str -> bool * message) (print : message -> str).
Variables (takes : str -> str -> nat) (closes : str -> bool) (block_size : nat).
Notation Set_ := (SetRewritesTextProto message print takes closes block_size).
Notation Get_ := (GetRewritesTextProto message default text_parse binary_parse).

Lemma set_total d f r : may_write d f = true -> exists st contents, Set_ d f r = Fine (st, set_file d f contents) /\
  is_prefix contents (headed (print r)) /\ (st = SetOk -> contents = headed (print r) /\ closes contents = true) /\
  (takes_all takes -> st = (if closes (headed (print r)) then SetOk else ClosingFailed) /\ contents = headed (print r)) /\
  (List.length kOutputFileHeader <= block_size -> st <> HeaderFailed) /\
  (List.length (headed (print r)) <= block_size -> st = SetOk \/ st = ClosingFailed).
Proof.
  intro M. unfold SetRewritesTextProto. rewrite M.
  rewrite <- header_text.
  destruct (write_bytes_holds takes block_size kOutputFileHeader [] (new_stream []) new_holds eq_refl) as [ok [s1 [W [H [F [T L]]]]]].
  rewrite W. cbn [bind]. cbn [app] in H. cbn [new_stream buffer List.length plus] in L. destruct ok; cbn [negb].
  - cbn [negb] in F. destruct (write_bytes_holds takes block_size (print r) _ s1 H F) as [ok2 [s2 [W2 [H2 [F2 [T2 L2]]]]]].
    rewrite W2. cbn [bind]. destruct (close_holds takes closes block_size _ _ H2) as [ok3 [s3 [C [P [K [D [TA CF]]]]]]].
    destruct ok2; cbn [negb] in *; rewrite C; cbn [bind fst snd].
    + destruct ok3; cbn [negb]; unfold finish; rewrite D; cbn [bind].
      * exists SetOk, (data s3). destruct (K eq_refl F2) as [K1 K2]. split; [reflexivity|]. split; [exact P|].
        split; [intros _; now rewrite K1|]. split; [|split; [discriminate|auto]].
        intro TT. rewrite K2. auto.
      * exists ClosingFailed, (data s3). split; [reflexivity|]. split; [exact P|]. split; [discriminate|].
        split; [|split; [discriminate|auto]]. intro TT. rewrite <- (TA F2 TT). split; [reflexivity|].
        revert C. unfold close. cbn [apply_call]. destruct (write_buffer takes _ s2 H2) as [okb [sb [Wb [[Ob [Db Qb]] [Bb [Fb Tb]]]]]].
        rewrite Wb. cbn [bind]. unfold close_file. rewrite Ob. cbn [bind fst snd]. intro C. injection C as _ <-. cbn [data].
        rewrite (Tb F2 TT) in *. cbn [negb] in Fb. rewrite Fb, Bb, app_nil_r in Qb. exact Qb.
    + unfold finish; rewrite D; cbn [bind]. exists ProtoFailed, (data s3). split; [reflexivity|]. split; [exact P|]. split; [discriminate|].
      split; [intro TT; specialize (T2 TT); discriminate|]. split; [discriminate|].
      intro LL. rewrite app_length in LL. destruct L as [_ L]; [lia|]. destruct L2 as [L2 _]; [lia|discriminate].
  - destruct (close_holds takes closes block_size _ _ H) as [ok3 [s3 [C [P [K [D [TA CF]]]]]]]. rewrite C. cbn [bind fst snd].
    unfold finish; rewrite D; cbn [bind]. exists HeaderFailed, (data s3). split; [reflexivity|]. split; [now apply prefix_more|].
    split; [discriminate|]. split; [intro TT; specialize (T TT); discriminate|]. split.
    + intro LL. destruct L as [L _]; [lia|discriminate].
    + intro LL. rewrite app_length in LL. destruct L as [L _]; [lia|discriminate].
Qed.
Lemma set_ok d f r d' : Set_ d f r = Fine (SetOk, d') ->
  file_at d' f = Some (headed (print r)) /\ closes (headed (print r)) = true /\ forall g, g <> f -> file_at d' g = file_at d g.
Proof.
  intro H. destruct (may_write d f) eqn:M.
  - destruct (set_total d f r M) as [st [c [E [_ [K _]]]]]. rewrite E in H. injection H as -> <-.
    destruct (K eq_refl) as [K1 K2]. rewrite K1 in *. cbn [set_file file_at]. rewrite str_eqb_refl. repeat split; auto.
    intros g G. apply str_eqb_neq in G. now rewrite G.
  - unfold SetRewritesTextProto in H. rewrite M in H. discriminate.
Qed.
Lemma set_any d f r : may_write d f = true -> exists st d' contents, Set_ d f r = Fine (st, d') /\
  file_at d' f = Some contents /\ is_prefix contents (headed (print r)) /\ forall g, g <> f -> file_at d' g = file_at d g.
Proof.
  intro M. destruct (set_total d f r M) as [st [c [E [P _]]]]. exists st, (set_file d f c), c. cbn [set_file file_at]. rewrite str_eqb_refl.
  repeat split; auto. intros g G. apply str_eqb_neq in G. now rewrite G.
Qed.
Lemma set_dies d f r : may_write d f = false -> Set_ d f r = Check.
Proof. intro M. unfold SetRewritesTextProto. now rewrite M. Qed.
Lemma set_works d f r : may_write d f = true -> takes_all takes ->
  exists d', Set_ d f r = Fine (if closes (headed (print r)) then SetOk else ClosingFailed, d') /\ file_at d' f = Some (headed (print r)).
Proof.
  intros M T. destruct (set_total d f r M) as [st [c [E [_ [_ [K _]]]]]]. destruct (K T) as [K1 K2]. exists (set_file d f c).
  rewrite E, <- K1. split; [reflexivity|]. cbn [set_file file_at]. now rewrite str_eqb_refl, K2.
Qed.
Lemma set_errors d f r st d' : Set_ d f r = Fine (st, d') ->
  (List.length (headed []) <= block_size -> st <> HeaderFailed) /\
  (List.length (headed (print r)) <= block_size -> st = SetOk \/ st = ClosingFailed).
Proof.
  intro H. destruct (may_write d f) eqn:M.
  - destruct (set_total d f r M) as [st' [c [E [_ [_ [_ [K1 K2]]]]]]]. rewrite E in H. injection H as -> _. split; [|exact K2].
    rewrite <- header_text, app_nil_r. exact K1.
  - unfold SetRewritesTextProto in H. rewrite M in H. discriminate.
Qed.

Lemma get_spec d f m : Get_ d f = Ok m <-> exists c, file_at d f = Some c /\ c <> [] /\
  (text_parse c = (true, m) \/ fst (text_parse c) = false /\ binary_parse c = (true, m)).
Proof.
  unfold GetRewritesTextProto, GetTextProto. rewrite Z.eqb_refl. unfold ReadFileToProto, ReadTextFile.
  destruct (file_at d f) as [c|].
  - destruct c as [|x c].
    + cbn [return_if_error]. split; [discriminate|]. intros [c [E [N _]]]. injection E as <-. now destruct N.
    + destruct (text_parse (x :: c)) as [ok1 m1] eqn:T. destruct ok1.
      * cbn [return_if_error]. split.
        -- intro H. injection H as <-. exists (x :: c). repeat split; auto. discriminate.
        -- intros [c' [E [_ [H|[H _]]]]]; injection E as <-; rewrite T in H; [injection H as <-; reflexivity|discriminate].
      * destruct (binary_parse (x :: c)) as [ok2 m2] eqn:B. destruct ok2.
        -- cbn [return_if_error]. split.
           ++ intro H. injection H as <-. exists (x :: c). repeat split; [discriminate|]. right. rewrite T, B. auto.
           ++ intros [c' [E [_ [H|[_ H]]]]]; injection E as <-; [rewrite T in H; discriminate|rewrite B in H; injection H as <-; reflexivity].
        -- cbn [return_if_error]. split; [discriminate|].
           intros [c' [E [_ [H|[_ H]]]]]; injection E as <-; [rewrite T in H|rewrite B in H]; discriminate.
  - cbn [return_if_error]. split; [discriminate|]. intros [c [E _]]. discriminate.
Qed.
Lemma get_error d f : (exists m, Get_ d f = Ok m) \/ Get_ d f = InvalidArgument.
Proof.
  unfold GetRewritesTextProto, GetTextProto. rewrite Z.eqb_refl.
  destruct (ReadFileToProto message text_parse binary_parse d f default) as [[|] m]; cbn [return_if_error]; eauto.
Qed.
Lemma set_get d f r d' : ignores_comments text_parse -> text_parse (print r) = (true, r) ->
  Set_ d f r = Fine (SetOk, d') -> Get_ d' f = Ok r.
Proof.
  intros I P H. apply set_ok in H as [H _]. apply get_spec. exists (headed (print r)). split; [exact H|]. split.
  - rewrite <- header_text. discriminate.
  - left. rewrite (headed_parse text_parse (print r) I). exact P.
Qed.
End Set_.
Lemma old_lost : exists takes closes d d',
  SetRewritesTextProto str (fun m => m) takes closes 200 d [102%N] [97%N] = Fine (ClosingFailed, d') /\
  file_at d [102%N] = Some [98%N] /\ file_at d' [102%N] = Some [].
Proof.
  exists (fun _ _ => 0), (fun _ => true), (Disk (fun _ => Some [98%N]) (fun _ => true) 9),
    (set_file (Disk (fun _ => Some [98%N]) (fun _ => true) 9) [102%N] []).
  split; [vm_compute; reflexivity|]. split; reflexivity.
Qed.
