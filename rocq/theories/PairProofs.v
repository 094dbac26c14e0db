From Verif Require Import Base KbestModel KbestSpec KbestProofs RejoinProofs PairlmProofs LatticeModel DecoderSpec.

Lemma split_none d s : ~ In d s -> split_char d s = (s, []).
Proof.
  induction s as [|c s IH]; simpl; auto. intros H. rewrite IH by tauto. destruct (N.eqb_spec c d) as [->|]; [tauto|auto].
Qed.
Lemma split_one d a b : ~ In d a -> ~ In d b -> split_char d (a ++ d :: b) = (a, [b]).
Proof.
  induction a as [|c a IH]; simpl; intros Ha Hb.
  - rewrite (split_none d b Hb), N.eqb_refl. auto.
  - rewrite IH by tauto. destruct (N.eqb_spec c d) as [->|]; [tauto|auto].
Qed.
Lemma semi_pair a b : a <> [] -> b <> [] -> ~ In 59%N a -> ~ In 59%N b -> semi_fields (a ++ 59%N :: b) = [a; b].
Proof.
  intros Na Nb Ha Hb. unfold semi_fields. rewrite split_one by auto. destruct a; [contradiction|]. destruct b; [contradiction|]. reflexivity.
Qed.
Lemma semi_plain s : ~ In 59%N s -> semi_fields s = [] \/ semi_fields s = [s].
Proof. intros H. unfold semi_fields. rewrite split_none by auto. destruct s; auto. Qed.

Section Pairs.
  Variable atoi : str -> option Z.
  Definition arc_for (inv flip : bool) (label : Z) (xy : Z * Z) : Z * Z :=
    let n := if inv then snd xy else fst xy in if flip then (label, n) else (n, label).
  Lemma pair_arc_spec inv i s : (exists x y, pair_symbol atoi s x y) \/ ~ In 59%N s -> exists l, pair_arc atoi inv (S i) s = Fine l /\
    forall a, In a l <-> exists xy, pair_symbol atoi s (fst xy) (snd xy) /\ a = arc_for inv false (Z.of_nat (S i)) xy.
  Proof.
    intros H. unfold pair_arc. cbn [Nat.eqb]. destruct H as [(x & y & a & b & -> & Na & Nb & Ha & Hb & Ex & Ey)|N].
    - rewrite semi_pair by auto.
      replace (atoi (if inv then b else a)) with (Some (if inv then y else x)) by (destruct inv; auto). eexists. split; [reflexivity|].
      intros e. cbn [In]. split.
      + intros [<-|[]]. exists (x, y). cbn [fst snd]. split; [exists a, b; repeat split; auto|]. destruct inv; reflexivity.
      + intros ([x' y'] & (a' & b' & E & Na' & Nb' & Ha' & Hb' & Ex' & Ey') & ->). left. cbn [fst snd] in *.
        assert (a' = a /\ b' = b) as [-> ->].
        { pose proof (semi_pair _ _ Na Nb Ha Hb) as S1. rewrite E, semi_pair in S1 by auto. injection S1 as -> ->. auto. }
        rewrite Ex in Ex'. rewrite Ey in Ey'. injection Ex' as <-. injection Ey' as <-. destruct inv; reflexivity.
    - exists []. split; [destruct (semi_plain s N) as [-> | ->]; auto|]. intros a. split; [intros []|].
      intros (xy & (a' & b' & -> & _) & _). apply N. apply in_app_iff. simpl. auto.
  Qed.
  Lemma map_run_fine {A B} (f : A -> run B) l : (forall a, In a l -> exists b, f a = Fine b) -> exists bs, map_run f l = Fine bs.
  Proof.
    induction l as [|a l IH]; intros H; cbn [map_run]; [eauto|]. destruct (H a (or_introl eq_refl)) as (b & ->). cbn [bind].
    destruct IH as (bs & ->); [intros x I; apply H; right; auto|]. cbn [bind]. eauto.
  Qed.
  Lemma build_unflipped syms inv : pair_table atoi syms -> exists ll,
    map_run (fun p => pair_arc atoi inv (fst p) (snd p)) (combine (seq 0 (length syms)) syms) = Fine ll /\
    forall a, In a (concat ll) <-> exists label xy, pair_of atoi syms label xy /\ a = arc_for inv false label xy.
  Proof.
    intros T. assert (forall i s, nth_error syms i = Some s -> exists l, pair_arc atoi inv i s = Fine l) as Ok.
    { intros [|i] s E; [cbn; eauto|]. destruct (pair_arc_spec inv i s (T i s E)) as (l & -> & _). eauto. }
    destruct (map_run_fine (fun p => pair_arc atoi inv (fst p) (snd p)) (combine (seq 0 (length syms)) syms)) as (ll & E).
    { intros [i s] I. apply combine_seq_in in I. destruct I as [_ I]. rewrite Nat.sub_0_r in I. apply Ok; auto. }
    exists ll. split; auto. intros a. apply map_run_inv in E. split.
    - intros I. apply in_concat in I. destruct I as (l & Il & Ia).
      assert (exists p, In p (combine (seq 0 (length syms)) syms) /\ pair_arc atoi inv (fst p) (snd p) = Fine l) as ([i s] & Ip & Ep).
      { clear - E Il. induction E as [|p b ps bs H E IH]; [contradiction|]. destruct Il as [<-|Il]; [exists p; simpl; auto|].
        destruct (IH Il) as (q & Iq & Eq). exists q. simpl. auto. }
      apply combine_seq_in in Ip. destruct Ip as [_ Ip]. rewrite Nat.sub_0_r in Ip. cbn [fst snd] in Ep. destruct i as [|i].
      + cbn in Ep. injection Ep as <-. contradiction.
      + destruct (pair_arc_spec inv i s (T i s Ip)) as (l' & E' & Hl). assert (l' = l) by congruence. subst l'.
        apply Hl in Ia. destruct Ia as (xy & P & ->). exists (Z.of_nat (S i)), xy. split; auto. exists i, s. auto.
    - intros (label & xy & (i & s & -> & En & P) & ->). destruct (pair_arc_spec inv i s (T i s En)) as (l & E' & Hl).
      apply in_concat. exists l. split; [|apply Hl; eauto].
      assert (In (S i, s) (combine (seq 0 (length syms)) syms)) as Ip by (apply combine_seq_in; split; [lia|rewrite Nat.sub_0_r; auto]).
      clear - E E' Ip. induction E as [|p b ps bs H E IH]; [contradiction|]. destruct Ip as [->|Ip]; [left|right; auto].
      cbn [fst snd] in H. congruence.
  Qed.
  Lemma build_pairs syms inv flip : pair_table atoi syms -> exists arcs, BuildUnicodeToPairTransducer atoi syms inv flip = Fine arcs /\
    forall a, In a arcs <-> exists label xy, pair_of atoi syms label xy /\ a = arc_for inv flip label xy.
  Proof.
    intros T. destruct (build_unflipped syms inv T) as (ll & E & H). unfold BuildUnicodeToPairTransducer. rewrite E. cbn [bind]. eexists.
    split; [reflexivity|]. intros a. destruct flip; [|apply H]. rewrite in_map_iff. split.
    - intros (b & <- & I). apply H in I. destruct I as (label & xy & P & ->). exists label, xy. split; auto.
    - intros (label & xy & P & ->). exists (arc_for inv false label xy). split; auto. apply H. eauto.
  Qed.
  Lemma nonzero_labels syms labels xys : Forall2 (pair_of atoi syms) labels xys -> nonzero labels = labels.
  Proof.
    induction 1 as [|l xy ls xys (i & s & -> & _) F IH]; auto. unfold nonzero in *. cbn [filter].
    replace (Z.of_nat (S i) =? 0)%Z with false by (symmetry; apply Z.eqb_neq; lia). cbn [negb]. rewrite IH. auto.
  Qed.
  Lemma arcs_path syms inv flip p : (forall a, In a p -> exists label xy, pair_of atoi syms label xy /\ a = arc_for inv flip label xy) ->
    exists labels xys, Forall2 (pair_of atoi syms) labels xys /\ p = map (fun q => arc_for inv flip (fst q) (snd q)) (combine labels xys).
  Proof.
    induction p as [|a p IH]; intros H; [exists [], []; split; [constructor|reflexivity]|].
    destruct (H a (or_introl eq_refl)) as (label & xy & P & ->). destruct IH as (ls & xys & F & ->); [intros b I; apply H; right; auto|].
    exists (label :: ls), (xy :: xys). split; auto.
  Qed.
  Lemma combine_sides syms labels xys : Forall2 (pair_of atoi syms) labels xys ->
    map fst (combine labels xys) = labels /\ map snd (combine labels xys) = xys.
  Proof. induction 1 as [|l xy ls xys H F [A B]]; cbn [combine map fst snd]; [auto|]. rewrite A, B. auto. Qed.
  Lemma path_in syms labels xys : Forall2 (pair_of atoi syms) labels xys -> forall q, In q (combine labels xys) -> pair_of atoi syms (fst q) (snd q).
  Proof. induction 1 as [|l xy ls xys H F IH]; intros q I; [contradiction|]. destruct I as [<-|I]; auto. Qed.
  Lemma relates_in syms inv : pair_table atoi syms -> exists arcs, BuildUnicodeToPairTransducer atoi syms inv false = Fine arcs /\
    forall ins labels, relates arcs ins labels <->
      exists xys, Forall2 (pair_of atoi syms) labels xys /\ ins = nonzero (map (if inv then snd else fst) xys).
  Proof.
    intros T. destruct (build_pairs syms inv false T) as (arcs & E & H). exists arcs. split; auto. intros ins labels. split.
    - intros (p & I & <- & <-). destruct (arcs_path syms inv false p) as (ls & xys & F & ->); [intros a Ia; apply H; auto|].
      destruct (combine_sides _ _ _ F) as [A B]. exists xys. rewrite !map_map. cbn [arc_for fst snd].
      rewrite (map_ext _ fst) by auto. rewrite A, (nonzero_labels _ _ _ F). split; auto.
      f_equal. rewrite <- B at 2. rewrite map_map. destruct inv; auto.
    - intros (xys & F & ->). exists (map (fun q => arc_for inv false (fst q) (snd q)) (combine labels xys)). split.
      + intros a Ia. apply in_map_iff in Ia. destruct Ia as (q & <- & Iq). apply H. exists (fst q), (snd q). split; auto. eapply path_in; eauto.
      + destruct (combine_sides _ _ _ F) as [A B]. rewrite !map_map. cbn [arc_for fst snd]. split.
        * f_equal. rewrite <- B at 2. rewrite map_map. destruct inv; auto.
        * rewrite (map_ext _ fst) by auto. rewrite A. apply (nonzero_labels _ _ _ F).
  Qed.
  Lemma relates_out syms inv : pair_table atoi syms -> exists arcs, BuildUnicodeToPairTransducer atoi syms inv true = Fine arcs /\
    forall labels outs, relates arcs labels outs <->
      exists xys, Forall2 (pair_of atoi syms) labels xys /\ outs = nonzero (map (if inv then snd else fst) xys).
  Proof.
    intros T. destruct (build_pairs syms inv true T) as (arcs & E & H). exists arcs. split; auto. intros labels outs. split.
    - intros (p & I & <- & <-). destruct (arcs_path syms inv true p) as (ls & xys & F & ->); [intros a Ia; apply H; auto|].
      destruct (combine_sides _ _ _ F) as [A B]. exists xys. rewrite !map_map. cbn [arc_for fst snd].
      rewrite (map_ext _ fst) by auto. rewrite A, (nonzero_labels _ _ _ F). split; auto.
      f_equal. rewrite <- B at 2. rewrite map_map. destruct inv; auto.
    - intros (xys & F & ->). exists (map (fun q => arc_for inv true (fst q) (snd q)) (combine labels xys)). split.
      + intros a Ia. apply in_map_iff in Ia. destruct Ia as (q & <- & Iq). apply H. exists (fst q), (snd q). split; auto. eapply path_in; eauto.
      + destruct (combine_sides _ _ _ F) as [A B]. rewrite !map_map. cbn [arc_for fst snd]. split.
        * rewrite (map_ext _ fst) by auto. rewrite A. apply (nonzero_labels _ _ _ F).
        * f_equal. rewrite <- B at 2. rewrite map_map. destruct inv; auto.
  Qed.
  Lemma pair_unique syms label a b : pair_of atoi syms label a -> pair_of atoi syms label b -> a = b.
  Proof.
    intros (i & s & -> & E & P) (j & t & Ej & E' & Q). assert (i = j) by lia. subst j. assert (t = s) by congruence. subst t.
    destruct P as (a1 & b1 & -> & N1 & N2 & H1 & H2 & X1 & Y1), Q as (a2 & b2 & Es & M1 & M2 & G1 & G2 & X2 & Y2).
    pose proof (semi_pair _ _ N1 N2 H1 H2) as S1. rewrite Es, semi_pair in S1 by auto. injection S1 as -> ->.
    destruct a, b. cbn [fst snd] in *. congruence.
  Qed.
  Lemma pairs_unique syms labels xys : Forall2 (pair_of atoi syms) labels xys -> forall zs, Forall2 (pair_of atoi syms) labels zs -> xys = zs.
  Proof.
    induction 1 as [|l xy ls xys H F IH]; intros zs G; inversion G; subst; auto. f_equal; [eapply pair_unique; eauto|auto].
  Qed.
  (** A pair with something else than a number. *)
  Lemma bad_pair (syms : list str) (inv flip : bool) i a b : nth_error syms (S i) = Some (a ++ 59%N :: b) -> a <> [] -> b <> [] -> ~ In 59%N a -> ~ In 59%N b ->
    atoi (if inv then b else a) = None -> BuildUnicodeToPairTransducer atoi syms inv flip = Check.
  Proof.
    intros E Na Nb Ha Hb H. unfold BuildUnicodeToPairTransducer.
    enough (map_run (fun p => pair_arc atoi inv (fst p) (snd p)) (combine (seq 0 (length syms)) syms) = Check) as -> by reflexivity.
    assert (In (S i, a ++ 59%N :: b) (combine (seq 0 (length syms)) syms)) as I by (apply combine_seq_in; split; [lia|rewrite Nat.sub_0_r; auto]).
    revert I. generalize (combine (seq 0 (length syms)) syms). intros l. induction l as [|[j s] l IH]; intros I; [contradiction|].
    cbn [map_run fst snd]. destruct I as [Ei|I].
    - injection Ei as -> ->. unfold pair_arc. cbn [Nat.eqb]. rewrite semi_pair by auto. rewrite H. reflexivity.
    - assert ((exists x, pair_arc atoi inv j s = Fine x) \/ pair_arc atoi inv j s = Check) as [(x & ->)| ->]; [|cbn [bind]; rewrite IH by auto; auto|auto].
      unfold pair_arc. destruct (j =? 0); eauto. destruct (semi_fields s) as [|p [|q [|r t]]]; eauto. destruct (atoi (if inv then q else p)); eauto.
  Qed.
End Pairs.
