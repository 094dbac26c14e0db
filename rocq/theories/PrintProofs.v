From Verif Require Import Base Utf8Spec DelimSpec KbestModel KbestSpec KbestProofs RejoinProofs ExtractProofs
  LatticeModel LatticeSpec DecoderSpec.

(** ** Keys *)
Definition next_key (a b : Z * Z) : Prop :=
  (fst b = fst a /\ snd b = (snd a + 1)%Z) \/ ((fst a < fst b)%Z /\ snd b = 0%Z).
Fixpoint chain (k : Z * Z) (l : list (Z * Z)) : Prop :=
  match l with [] => True | k' :: l' => next_key k k' /\ chain k' l' end.
Definition good_keys (l : list (Z * Z)) : Prop := match l with [] => True | k :: l' => snd k = 0%Z /\ chain k l' end.
Lemma chain_ok l : forall k, chain k l -> keys_ok k l.
Proof.
  induction l as [|k' l IH]; intros k H; simpl in *; auto. destruct H as [H1 H2]. split; auto. unfold follows, next_key in *.
  destruct H1 as [H|[H1 H3]]; [tauto|]. right. right. split; auto. lia.
Qed.
Lemma chain_differ l : forall k, chain k l -> neighbours_differ (k :: l).
Proof.
  induction l as [|k' l IH]; intros k H; simpl in *; [apply neighbours_one|]. destruct H as [H1 H2]. apply neighbours_cons. split; auto.
  intros ->. unfold next_key in H1. lia.
Qed.
Lemma chain_run i n rest : forall j, good_keys rest -> Forall (fun k => (i < fst k)%Z) rest ->
  chain (i, Z.of_nat j) (map (fun p => (i, Z.of_nat p)) (seq (S j) n) ++ rest).
Proof.
  induction n as [|n IH]; intros j G F.
  - simpl. destruct rest as [|k rest]; simpl in *; auto. inversion F; subst. destruct G as [G1 G2]. split; auto. right. simpl. auto.
  - cbn [seq map app chain]. split; auto. left. cbn [fst snd]. split; auto. lia.
Qed.
Lemma fst_positioned {A} i (l : list A) : map fst (positioned i l) = map (fun p => (i, Z.of_nat p)) (seq 0 (length l)).
Proof.
  unfold positioned. generalize 0. induction l as [|a l IH]; intros k; auto. cbn [length seq map combine fst]. f_equal. auto.
Qed.
Lemma placed_keys {A} (ll : list (list A)) : forall k,
  let keys := map fst (placed (map Z.of_nat (seq k (length ll))) ll) in
  good_keys keys /\ Forall (fun x => (Z.of_nat k <= fst x)%Z) keys.
Proof.
  induction ll as [|l ll IH]; intros k; cbn zeta; [split; simpl; auto|]. cbn [length seq map]. unfold placed. cbn [combine flat_map fst snd].
  rewrite map_app, fst_positioned. destruct (IH (S k)) as [G F]. unfold placed in *.
  assert (Forall (fun x => (Z.of_nat k < fst x)%Z) (map fst (flat_map (fun g => positioned (fst g) (snd g)) (combine (map Z.of_nat (seq (S k) (length ll))) ll)))) as F'.
  { eapply Forall_impl; [|exact F]. intros x; cbv beta; lia. }
  set (rest := map fst _) in *. split.
  - destruct l as [|a l]; [exact G|]. cbn [length seq map app]. split; auto. apply (chain_run (Z.of_nat k) (length l) rest 0); auto.
  - apply Forall_app. split.
    + rewrite Forall_map. apply Forall_forall. intros p _. simpl. lia.
    + eapply Forall_impl; [|exact F']. intros x; cbv beta; lia.
Qed.
(** Repeating keys keeps them in order. *)
Lemma spread_keys_ok {V} (segs : list ((Z * Z) * list V)) : forall k, Forall (fun s => snd s <> []) segs -> keys_ok k (map fst segs) ->
  keys_ok k (map fst (spread segs)).
Proof.
  induction segs as [|[k' vs] segs IH]; intros k F H; auto. inversion F as [|? ? Hv F']; subst. cbn [map fst] in H. destruct H as [H1 H2].
  unfold spread. cbn [flat_map fst snd]. rewrite map_app. destruct vs as [|v vs]; [contradiction|]. cbn [map app fst keys_ok]. split; auto.
  clear v Hv F. induction vs as [|v vs IHv]; [apply IH; auto|]. cbn [map app fst keys_ok]. split; auto. left. auto.
Qed.
Lemma spread_keys_good {V} (segs : list ((Z * Z) * list V)) : Forall (fun s => snd s <> []) segs -> good_keys (map fst segs) ->
  keys_good (map fst (spread segs)).
Proof.
  intros F G. destruct segs as [|[k vs] segs]; [exact I|]. inversion F as [|? ? Hv F']; subst. cbn [map fst good_keys] in G. destruct G as [G1 G2].
  unfold spread. cbn [flat_map fst snd]. rewrite map_app. destruct vs as [|v vs]; [contradiction|]. cbn [map app fst keys_good]. split; auto.
  apply chain_ok in G2. clear v Hv F. induction vs as [|v vs IHv]; [apply spread_keys_ok; auto|]. cbn [map app fst keys_ok]. split; auto. left. auto.
Qed.
Lemma good_differ l : good_keys l -> neighbours_differ l.
Proof. destruct l as [|k l]; [intros _ [|? ?] ? ? ? H; discriminate|]. intros [_ H]. apply chain_differ. auto. Qed.

(** ** Printing *)
Section Print.
  Variable show_int : nat -> str.
  Variable show_weight : Z -> str.
  Variable stoi stod : str -> option Z.
  Hypothesis ints : forall n, field (show_int n) /\ stoi (show_int n) = Some (Z.of_nat n).
  Hypothesis weights : forall w, field (show_weight w) /\ stod (show_weight w) = Some w.

  Lemma join_tab_with ps : join_with 9%N ps = join_tab ps.
  Proof. induction ps as [|p ps IH]; auto. destruct ps; auto. cbn [join_with join_tab] in *. rewrite IH. auto. Qed.
  Lemma fields_kept ps : Forall field ps -> filter non_empty ps = ps.
  Proof. induction 1 as [|p ps (H & _) F IH]; auto. simpl. destruct p; [contradiction|]. simpl. rewrite IH. auto. Qed.
  Lemma has_fields_join ps : ps <> [] -> Forall field ps -> has_fields (join_tab ps) ps.
  Proof.
    intros N F. exists ps. split; auto. split; auto. split; [|symmetry; apply fields_kept; auto].
    eapply Forall_impl; [|exact F]. intros s (_ & H & _). auto.
  Qed.
  Lemma join_tab_no_newline ps : Forall field ps -> ~ In 10%N (join_tab ps).
  Proof.
    induction 1 as [|p ps (_ & _ & H) F IH]; [intros []|]. destruct ps as [|q ps]; auto.
    change (join_tab (p :: q :: ps)) with (p ++ 9%N :: join_tab (q :: ps)). intros I. apply in_app_iff in I. destruct I as [I|[I|I]]; auto. discriminate.
  Qed.


  Lemma print_arc_fields i in_syms out_syms p a : print_arc show_int show_weight (show_int i) in_syms out_syms p a =
    join_tab [show_int i; show_int p; symbol_text in_syms (ilabel a); symbol_text out_syms (olabel a); show_weight (weight a)].
  Proof.
    unfold print_arc. destruct (ints i) as [(N & _) _]. destruct (show_int i) eqn:E; [contradiction|]. rewrite <- E.
    unfold common_columns. rewrite !join_tab_with. reflexivity.
  Qed.
  Lemma print_entry i in_syms out_syms p a : field (symbol_text in_syms (ilabel a)) -> field (symbol_text out_syms (olabel a)) ->
    line_entry_of stod stoi (print_arc show_int show_weight (show_int i) in_syms out_syms p a)
      ((Z.of_nat i, Z.of_nat p), entry in_syms out_syms a) /\
    ~ In 10%N (print_arc show_int show_weight (show_int i) in_syms out_syms p a).
  Proof.
    intros Fi Fo. rewrite print_arc_fields.
    assert (Forall field [show_int i; show_int p; symbol_text in_syms (ilabel a); symbol_text out_syms (olabel a); show_weight (weight a)]) as F.
    { repeat constructor; try apply ints; try apply weights; auto; apply Fi || apply Fo. }
    split.
    - exists (show_int i), (show_int p), (show_weight (weight a)). split; [apply has_fields_join; [discriminate|exact F]|].
      cbn [fst snd entry]. split; [apply ints|]. split; [apply ints|apply weights].
    - apply join_tab_no_newline. auto.
  Qed.

  Lemma join_lines ls : join_with 10%N (ls ++ [[]]) = unlines ls.
  Proof.
    induction ls as [|l ls IH]; auto. unfold unlines in *. cbn [map concat app]. rewrite <- IH.
    destruct ls; cbn [app join_with]; rewrite <- app_assoc; auto.
  Qed.
  Definition printed_lines (i : nat) (in_syms out_syms : list str) (l : sausage) : list str :=
    flat_map (fun p => map (print_arc show_int show_weight (show_int i) in_syms out_syms (fst p)) (snd p)) (combine (seq 0 (length l)) l).
  Lemma print_spec i in_syms out_syms l :
    PrintTransliterations show_int show_weight (show_int i) in_syms out_syms (Some l) true = Fine (unlines (printed_lines i in_syms out_syms l)).
  Proof. unfold PrintTransliterations. rewrite join_lines. reflexivity. Qed.
  Lemma printed_entries i in_syms out_syms l : printable in_syms out_syms l ->
    Forall2 (line_entry_of stod stoi) (printed_lines i in_syms out_syms l)
      (spread (positioned (Z.of_nat i) (map (map (entry in_syms out_syms)) l))) /\
    Forall (fun s => ~ In 10%N s) (printed_lines i in_syms out_syms l).
  Proof.
    unfold printed_lines, positioned, spread. rewrite map_length. intros P. generalize 0.
    induction P as [|p l [_ F] P IH]; intros k; [simpl; auto|]. cbn [length seq map combine flat_map fst snd].
    destruct (IH (S k)) as [I1 I2]. rewrite map_map. split.
    - apply Forall2_app; auto. clear - F ints weights. induction F as [|a p [Fi Fo] F IHF]; cbn [map]; constructor; auto.
      apply (print_entry i in_syms out_syms k a Fi Fo).
    - apply Forall_app. split; auto. rewrite Forall_map. eapply Forall_impl; [|exact F]. intros a [Fi Fo]. apply print_entry; auto.
  Qed.

  Definition print_example (i : nat) (e : example) : run str :=
    PrintTransliterations show_int show_weight (show_int i) (fst (fst e)) (snd (fst e)) (Some (snd e)) true.

  Lemma unlines_app a b : unlines (a ++ b) = unlines a ++ unlines b.
  Proof. unfold unlines. rewrite map_app, concat_app. auto. Qed.
  Lemma spread_app {K V} (a b : list (K * list V)) : spread (a ++ b) = spread a ++ spread b.
  Proof. unfold spread. apply flat_map_app. Qed.

  Lemma round_trip examples : Forall (fun e => printable (fst (fst e)) (snd (fst e)) (snd e)) examples ->
    exists outs lines r,
      Forall2 (fun p out => print_example (fst p) (snd p) = Fine out) (combine (seq 0 (length examples)) examples) outs /\
      concat outs = unlines lines /\ Forall (fun s => ~ In 10%N s) lines /\
      runs (spread (segments examples)) (segments examples) /\
      InitializeKbestExtractor stod stoi lines = Fine r /\ extract_result (spread (segments examples)) r.
  Proof.
    intros P.
    assert (exists outs lines, Forall2 (fun p out => print_example (fst p) (snd p) = Fine out) (combine (seq 0 (length examples)) examples) outs /\
      concat outs = unlines lines /\ Forall (fun s => ~ In 10%N s) lines /\ Forall2 (line_entry_of stod stoi) lines (spread (segments examples))) as (outs & lines & H1 & H2 & H3 & H4).
    { unfold segments. generalize 0. induction P as [|e examples Pe P IH]; intros k.
      - exists [], []. simpl. auto.
      - destruct (IH (S k)) as (outs & lines & I1 & I2 & I3 & I4). destruct (printed_entries k _ _ _ Pe) as [E1 E2].
        exists (unlines (printed_lines k (fst (fst e)) (snd (fst e)) (snd e)) :: outs), (printed_lines k (fst (fst e)) (snd (fst e)) (snd e) ++ lines).
        cbn [length seq combine map]. split; [constructor; auto; apply print_spec|]. split; [cbn [concat]; rewrite I2, unlines_app; auto|].
        split; [apply Forall_app; auto|]. unfold placed in *. cbn [combine flat_map fst snd]. rewrite spread_app. apply Forall2_app; auto. }
    assert (Forall (fun s => snd s <> []) (segments examples)) as N.
    { unfold segments. clear - P. generalize 0. induction P as [|e examples Pe P IH]; intros k; [constructor|]. cbn [length seq map]. unfold placed in *. cbn [combine flat_map fst snd].
      apply Forall_app. split; auto. unfold positioned, texts. rewrite map_length. generalize 0. induction Pe as [|p l [Np _] Pe IHe]; intros j; [constructor|].
      cbn [length seq map combine]. constructor; auto. simpl. destruct p; [contradiction|discriminate]. }
    pose proof (placed_keys (map texts examples) 0) as [G F]. rewrite map_length in G, F. fold (segments examples) in G, F.
    assert (Forall (fun e => (0 <= fst (fst e))%Z) (spread (segments examples))) as Pos.
    { clear - F. unfold spread. induction (segments examples) as [|s segs IH]; simpl; auto. inversion F as [|? ? H F']; subst. apply Forall_app. split; auto.
      rewrite Forall_map. apply Forall_forall. intros v _. exact H. }
    destruct (extract_spec stod stoi lines _ H4 Pos) as [(K & r & E & R)|(K & _)].
    - exists outs, lines, r. repeat (split; auto). apply good_differ. auto.
    - exfalso. apply K. apply spread_keys_good; auto.
  Qed.
End Print.
