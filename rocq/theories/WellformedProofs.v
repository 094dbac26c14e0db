From Verif Require Import Base RuleModel VisualModel ScriptData RegexModel RegexProofs
  WellformedModel WellformedSpec ScriptTables.

Lemma inputs_listed f s : In s (inputs f) <-> listed f s.
Proof.
  unfold inputs, listed. rewrite in_map_iff. split.
  - intros ([a t] & <- & H). eauto.
  - intros [t H]. exists (s, t). auto.
Qed.

Lemma maybe_spec f s : matches (ques_safe (input_string_file f)) s <-> maybe f s.
Proof.
  rewrite ques_safe_spec. unfold input_string_file. rewrite strs_inv, inputs_listed. reflexivity.
Qed.

Lemma listed_spec f s : matches (input_string_file f) s <-> listed f s.
Proof. unfold input_string_file. rewrite strs_inv. apply inputs_listed. Qed.

Section Script.
  Variable d : script_data.
  Let consonant := Cat (input_string_file (sd_consonant d)) (ques_safe (input_string_file (sd_subjoined_consonant d))).
  Let linker := Alt (input_string_file (sd_virama d)) (Strs (map pseq (sd_preserve d))).
  Let clus := Cat (star_safe (Cat consonant linker)) consonant.

  Lemma consonant_spec s : matches consonant s <-> consonant_group d s.
  Proof.
    unfold consonant. rewrite cat_inv. unfold consonant_group. split.
    - intros (x & y & -> & H1 & H2). apply listed_spec in H1. apply maybe_spec in H2. eauto.
    - intros (x & y & H1 & H2 & ->). exists x, y. rewrite listed_spec, maybe_spec. auto.
  Qed.

  Lemma link_spec s : matches linker s <-> link d s.
  Proof.
    unfold linker. rewrite alt_inv, listed_spec, strs_inv, in_map_iff. unfold link.
    split; intros [H|(p & H1 & H2)]; eauto.
  Qed.

  Lemma cluster_spec s : matches clus s <-> cluster d s.
  Proof.
    unfold clus. rewrite cat_inv. split.
    - intros (x & y & -> & Hx & Hy). apply star_safe_spec in Hx as (l & Hl & ->).
      apply consonant_spec in Hy. induction Hl as [|z l Hz Hl IH].
      + apply cl_one; auto.
      + apply cat_inv in Hz as (a & b & -> & Ha & Hb). simpl. rewrite <- !app_assoc.
        apply cl_more; auto. apply consonant_spec; auto. apply link_spec; auto.
    - induction 1 as [c Hc|c v k Hc Hv Hk IH].
      + exists [], c. split; auto. split; [|apply consonant_spec; auto].
        apply star_safe_spec. exists []. auto.
      + destruct IH as (x & y & -> & Hx & Hy). exists ((c ++ v) ++ x), y.
        rewrite <- !app_assoc. split; auto. split; auto.
        apply star_safe_spec in Hx as (l & Hl & ->). apply star_safe_spec.
        exists ((c ++ v) :: l). split; [constructor; auto|rewrite app_assoc; reflexivity].
        apply cat_inv. exists c, v. split; auto. split; [apply consonant_spec|apply link_spec]; auto.
  Qed.

  Hypothesis Hvs : sd_no_inherent_vowel d = true \/ sd_vowel_sign d <> [].

  Lemma vowel_part_spec s :
    matches (Alt (input_string_file (sd_vowel d))
                 (if sd_no_inherent_vowel d then Cat clus (input_string_file (sd_vowel_sign d))
                  else Cat clus (ques (input_string_file (sd_vowel_sign d))))) s
    <-> vowel_or_cluster d s.
  Proof.
    rewrite alt_inv, listed_spec. unfold vowel_or_cluster.
    assert (E : matches (if sd_no_inherent_vowel d then Cat clus (input_string_file (sd_vowel_sign d))
                  else Cat clus (ques (input_string_file (sd_vowel_sign d)))) s <->
            exists k m, cluster d k /\ s = k ++ m /\
             (listed (sd_vowel_sign d) m \/ (sd_no_inherent_vowel d = false /\ m = []))).
    { destruct (sd_no_inherent_vowel d) eqn:En; rewrite cat_inv.
      - split.
        + intros (x & y & -> & Hx & Hy). apply cluster_spec in Hx. apply listed_spec in Hy. eauto 6.
        + intros (k & m & Hk & -> & [Hm|[Hm _]]); [|discriminate]. exists k, m.
          rewrite cluster_spec, listed_spec. auto.
      - destruct Hvs as [Hv|Hv]; [discriminate|].
        assert (Eq : ques (input_string_file (sd_vowel_sign d)) = Ques (input_string_file (sd_vowel_sign d))).
        { unfold ques, input_string_file. destruct (sd_vowel_sign d); [congruence|reflexivity]. }
        rewrite Eq. split.
        + intros (x & y & -> & Hx & Hy). apply cluster_spec in Hx. apply ques_inv in Hy as [->|Hy].
          * exists x, []. auto.
          * apply listed_spec in Hy. exists x, y. auto.
        + intros (k & m & Hk & -> & Hm). exists k, m. rewrite cluster_spec, ques_inv, listed_spec.
          split; auto. split; auto. destruct Hm as [Hm|[_ ->]]; auto. }
    rewrite E. tauto.
  Qed.

  Lemma unit_spec s :
    matches (Alt (Alt (Alt
      (Cat (Alt (input_string_file (sd_vowel d))
                 (if sd_no_inherent_vowel d then Cat clus (input_string_file (sd_vowel_sign d))
                  else Cat clus (ques (input_string_file (sd_vowel_sign d)))))
           (Cat (Cat (ques_safe (input_string_file (sd_vowel_length_sign d)))
                     (ques_safe (input_string_file (sd_coda d))))
                (ques_safe (input_string_file (sd_dead_consonant d)))))
      (Cat (Cat clus (input_string_file (sd_virama d))) (ques_safe (input_string_file (sd_dead_consonant d)))))
      (input_string_file (sd_standalone d))) (input_string_file (sd_accept d))) s <-> unit d s.
  Proof.
    rewrite !alt_inv, !listed_spec, (cat_inv (Alt _ _)), (cat_inv (Cat clus _)). split.
    - intros [[[(x & y & -> & Hx & Hy)|(x & y & -> & Hx & Hy)]|H]|H].
      + apply vowel_part_spec in Hx. apply cat_inv in Hy as (z & w & -> & Hz & Hw).
        apply cat_inv in Hz as (u & v & -> & Hu & Hv). rewrite <- app_assoc.
        apply u_vowel; auto; apply maybe_spec; auto.
      + apply cat_inv in Hx as (k & v & -> & Hk & Hv). rewrite <- app_assoc.
        apply cluster_spec in Hk. apply listed_spec in Hv. apply maybe_spec in Hy.
        apply u_virama; auto.
      + apply u_standalone; auto.
      + apply u_accept; auto.
    - destruct 1 as [v l c e Hv Hl Hc He|k v e Hk Hv He|s H|s H]; auto.
      + left; left; left. exists v, (l ++ c ++ e). split; auto. split; [apply vowel_part_spec; auto|].
        apply cat_inv. exists (l ++ c), e. rewrite app_assoc. split; auto.
        split; [|apply maybe_spec; auto]. apply cat_inv. exists l, c.
        split; auto. split; apply maybe_spec; auto.
      + left; left; right. exists (k ++ v), e. rewrite app_assoc. split; auto.
        split; [|apply maybe_spec; auto]. apply cat_inv. exists k, v. split; auto.
        split; [apply cluster_spec; auto|apply listed_spec; auto].
  Qed.

  Lemma well_formed_spec s : well_formed d s = true <-> unit_sequence d s.
  Proof.
    unfold well_formed. rewrite accepts_spec. unfold accept_well_formed. cbv zeta.
    rewrite star_safe_spec. unfold unit_sequence.
    split; intros (l & Hl & ->); exists l; (split; [|auto]);
      (eapply Forall_impl; [|exact Hl]); intros t Ht; apply unit_spec; exact Ht.
  Qed.
End Script.

Lemma well_formed_empty d : well_formed d [] = true.
Proof.
  unfold well_formed. apply accepts_spec. unfold accept_well_formed. cbv zeta.
  apply star_safe_spec. exists []. auto.
Qed.

Lemma well_formed_app d s t : well_formed d s = true -> well_formed d t = true ->
  well_formed d (s ++ t) = true.
Proof.
  unfold well_formed. rewrite !accepts_spec. unfold accept_well_formed. cbv zeta.
  rewrite !star_safe_spec. intros (l & Hl & ->) (m & Hm & ->). exists (l ++ m).
  rewrite concat_app. split; auto. apply Forall_app; auto.
Qed.

Lemma listed_incl f g s : incl f g -> listed f s -> listed g s.
Proof. intros H [t Ht]. exists t. auto. Qed.
Lemma maybe_incl f g s : incl f g -> maybe f s -> maybe g s.
Proof. intros H [E|E]; [left|right; eapply listed_incl]; eauto. Qed.

Lemma unit_mono d e s : tables_included d e -> unit d s -> unit e s.
Proof.
  intros (I1 & I2 & I3 & I4 & I5 & I6 & I7 & I8 & I9 & I10 & I11 & I12).
  assert (HC : forall c, consonant_group d c -> consonant_group e c).
  { intros c (x & y & H1 & H2 & ->). exists x, y. split; [eapply listed_incl; eauto|].
    split; auto. eapply maybe_incl; eauto. }
  assert (HL : forall v, link d v -> link e v).
  { intros v [H|(p & H & <-)]; [left; eapply listed_incl; eauto|right; eauto]. }
  assert (HK : forall k, cluster d k -> cluster e k).
  { induction 1; [apply cl_one; auto|apply cl_more; auto]. }
  destruct 1 as [v l c x Hv Hl Hc Hx|k v x Hk Hv Hx|s H|s H].
  - apply u_vowel; try (eapply maybe_incl; eauto; fail).
    destruct Hv as [Hv|(k & m & Hk & -> & Hm)]; [left; eapply listed_incl; eauto|right].
    exists k, m. split; auto. split; auto.
    destruct Hm as [Hm|[Hm1 Hm2]]; [left; eapply listed_incl; eauto|right; auto].
  - apply u_virama; auto; [eapply listed_incl|eapply maybe_incl]; eauto.
  - apply u_standalone. eapply listed_incl; eauto.
  - apply u_accept. eapply listed_incl; eauto.
Qed.

Lemma well_formed_mono d e s :
  sd_no_inherent_vowel d = true \/ sd_vowel_sign d <> [] ->
  sd_no_inherent_vowel e = true \/ sd_vowel_sign e <> [] ->
  tables_included d e -> well_formed d s = true -> well_formed e s = true.
Proof.
  intros H1 H2 HI. rewrite !well_formed_spec by auto. intros (us & Hus & ->).
  exists us. split; auto. eapply Forall_impl; [|exact Hus]. intros u. apply unit_mono; auto.
Qed.

(** ** First and last characters *)

Lemma cluster_start d k : cluster d k -> exists c t, listed (sd_consonant d) c /\ k = c ++ t.
Proof.
  destruct 1 as [c (a & j & Ha & _ & ->)|c v k (a & j & Ha & _ & ->) _ _].
  - eauto.
  - exists a, (j ++ v ++ k). rewrite <- app_assoc. eauto.
Qed.

Lemma unit_start d u : no_empty_entry d -> unit d u -> exists x t, starter d x /\ u = x ++ t.
Proof.
  intros Hne Hu. unfold starter.
  assert (NE : forall f x, In f [sd_accept d; sd_coda d; sd_consonant d; sd_dead_consonant d;
     sd_standalone d; sd_subjoined_consonant d; sd_virama d; sd_vowel d; sd_vowel_length_sign d;
                  sd_vowel_sign d] -> listed f x -> x <> []).
  { intros f x Hf Hx ->. apply (Hne f Hf Hx). }
  destruct Hu as [v l c e [Hv|(k & m & Hk & -> & _)] _ _ _|k v e Hk _ _|s H|s H].
  - exists v, (l ++ c ++ e). split; auto. split; auto. apply (NE (sd_vowel d)); simpl; tauto.
  - apply cluster_start in Hk as (c0 & t & Hc & ->). exists c0, (t ++ m ++ l ++ c ++ e).
    rewrite <- !app_assoc. split; auto. split; auto. apply (NE (sd_consonant d)); simpl; tauto.
  - apply cluster_start in Hk as (c0 & t & Hc & ->). exists c0, (t ++ v ++ e).
    rewrite <- !app_assoc. split; auto. split; auto. apply (NE (sd_consonant d)); simpl; tauto.
  - exists s, []. rewrite app_nil_r. split; auto. split; auto. apply (NE (sd_standalone d)); simpl; tauto.
  - exists s, []. rewrite app_nil_r. split; auto. split; auto. apply (NE (sd_accept d)); simpl; tauto.
Qed.

Lemma well_formed_start d s : sd_no_inherent_vowel d = true \/ sd_vowel_sign d <> [] ->
  no_empty_entry d -> s <> [] -> well_formed d s = true ->
  exists x t, starter d x /\ s = x ++ t.
Proof.
  intros Hv Hne Hs H. apply well_formed_spec in H as (us & Hus & ->); auto.
  destruct Hus as [|u us Hu Hus]; [simpl in Hs; congruence|].
  apply unit_start in Hu as (x & t & Hx & ->); auto.
  exists x, (t ++ concat us). simpl. rewrite <- app_assoc. auto.
Qed.

(** What a unit can end in. *)
Definition ender (d : script_data) (s : str) : Prop :=
  s <> [] /\ exists f, In f [sd_vowel d; sd_vowel_sign d; sd_vowel_length_sign d; sd_coda d;
    sd_dead_consonant d; sd_virama d; sd_standalone d; sd_accept d] /\ listed f s.

Lemma unit_end d u : no_empty_entry d -> sd_no_inherent_vowel d = true -> unit d u ->
  exists x t, ender d x /\ u = t ++ x.
Proof.
  intros Hne Hinh Hu. unfold ender.
  assert (NE : forall f x, In f [sd_vowel d; sd_vowel_sign d; sd_vowel_length_sign d; sd_coda d;
    sd_dead_consonant d; sd_virama d; sd_standalone d; sd_accept d] -> listed f x ->
    x <> [] /\ exists f, In f [sd_vowel d; sd_vowel_sign d; sd_vowel_length_sign d; sd_coda d;
    sd_dead_consonant d; sd_virama d; sd_standalone d; sd_accept d] /\ listed f x).
  { intros f x Hf Hx. split; [|eauto]. intros ->. apply (Hne f); auto.
    simpl in *; intuition. }
  destruct Hu as [v l c e Hv Hl Hc He|k v e _ Hv He|s H|s H].
  - destruct He as [->|He].
    + destruct Hc as [->|Hc].
      * destruct Hl as [->|Hl].
        -- simpl. rewrite app_nil_r. destruct Hv as [Hv|(k & m & Hk & -> & [Hm|[Hm _]])].
           ++ exists v, []. split; auto. apply (NE (sd_vowel d)); simpl; tauto.
           ++ exists m, k. split; auto. apply (NE (sd_vowel_sign d)); simpl; tauto.
           ++ congruence.
        -- exists l, v. simpl. rewrite app_nil_r. split; auto.
           apply (NE (sd_vowel_length_sign d)); simpl; tauto.
      * exists c, (v ++ l). rewrite app_nil_r, app_assoc. split; auto. apply (NE (sd_coda d)); simpl; tauto.
    + exists e, (v ++ l ++ c). rewrite <- !app_assoc. split; auto.
      apply (NE (sd_dead_consonant d)); simpl; tauto.
  - destruct He as [->|He].
    + exists v, k. rewrite app_nil_r. split; auto. apply (NE (sd_virama d)); simpl; tauto.
    + exists e, (k ++ v). rewrite app_assoc. split; auto. apply (NE (sd_dead_consonant d)); simpl; tauto.
  - exists s, []. split; auto. apply (NE (sd_standalone d)); simpl; tauto.
  - exists s, []. split; auto. apply (NE (sd_accept d)); simpl; tauto.
Qed.

Lemma well_formed_end d s : no_empty_entry d -> sd_no_inherent_vowel d = true ->
  s <> [] -> well_formed d s = true -> exists x t, ender d x /\ s = t ++ x.
Proof.
  intros Hne Hinh Hs H. apply well_formed_spec in H as (us & Hus & ->); auto.
  destruct us as [|u us] using rev_ind; [simpl in Hs; congruence|]. clear IHus.
  apply Forall_app in Hus as [_ Hu]. inversion Hu as [|? ? H1 _]; subst.
  apply unit_end in H1 as (x & t & Hx & ->); auto.
  exists x, (concat us ++ t). rewrite concat_app. simpl. rewrite app_nil_r, app_assoc. auto.
Qed.

(** ** Shipped tables *)

Definition all_files (d : script_data) : list string_file :=
  [sd_accept d; sd_coda d; sd_consonant d; sd_dead_consonant d; sd_standalone d;
   sd_subjoined_consonant d; sd_virama d; sd_vowel d; sd_vowel_length_sign d; sd_vowel_sign d].

Definition is_nil {A} (l : list A) : bool := match l with [] => true | _ => false end.

Definition tables_ok (d : script_data) : bool :=
  forallb (fun f => forallb (fun p => negb (is_nil (fst p))) f) (all_files d) &&
  (sd_no_inherent_vowel d || negb (is_nil (sd_vowel_sign d))).

Lemma all_tables_ok : forallb tables_ok all_scripts = true.
Proof. vm_compute. reflexivity. Qed.

Lemma shipped_tables d : In d all_scripts ->
  no_empty_entry d /\ (sd_no_inherent_vowel d = true \/ sd_vowel_sign d <> []).
Proof.
  intros Hd. pose proof all_tables_ok as H. rewrite forallb_forall in H. specialize (H d Hd).
  apply andb_true_iff in H as [H1 H2]. split.
  - intros f Hf [t Ht]. rewrite forallb_forall in H1. specialize (H1 f Hf).
    rewrite forallb_forall in H1. specialize (H1 _ Ht). discriminate.
  - apply orb_true_iff in H2 as [H2|H2]; auto. right. destruct (sd_vowel_sign d); discriminate.
Qed.

Definition starters (d : script_data) : list str :=
  concat (map inputs [sd_consonant d; sd_vowel d; sd_standalone d; sd_accept d]).
Definition dependents (d : script_data) : list str :=
  concat (map inputs [sd_vowel_sign d; sd_coda d; sd_virama d; sd_vowel_length_sign d;
                      sd_dead_consonant d; sd_subjoined_consonant d]) ++ [[ZWNJ]; [ZWJ]; [ZWS]].

Definition dependents_ok (d : script_data) : bool :=
  forallb (fun x => existsb (str_eqb x) also_starters ||
                    negb (existsb (fun y => prefixb x y || prefixb y x) (starters d)))
          (dependents d).

Lemma all_dependents_ok : forallb dependents_ok all_scripts = true.
Proof. vm_compute. reflexivity. Qed.

Lemma listed_in f l x : In f l -> listed f x -> In x (concat (map inputs l)).
Proof.
  intros Hf Hx. apply in_concat. exists (inputs f). split; [apply in_map; auto|].
  apply inputs_listed; auto.
Qed.

Lemma shipped_dependent_start d x t : In d all_scripts -> dependent d x -> ~ In x also_starters ->
  well_formed d (x ++ t) = false.
Proof.
  intros Hd Hx Hno. destruct (well_formed d (x ++ t)) eqn:E; auto. exfalso.
  destruct (shipped_tables d Hd) as [Hne Hv].
  pose proof all_dependents_ok as H. rewrite forallb_forall in H. specialize (H d Hd).
  unfold dependents_ok in H. rewrite forallb_forall in H.
  assert (Hin : In x (dependents d)).
  { unfold dependents. apply in_or_app.
    destruct Hx as [H1|[H1|[H1|[H1|[H1|[H1|H1]]]]]]; auto; left;
      (eapply listed_in; [|exact H1]); simpl; tauto. }
  specialize (H x Hin). apply orb_true_iff in H as [H|H].
  - apply existsb_exists in H as (y & Hy & Ey). apply str_eqb_eq in Ey. subst y. auto.
  - assert (Hs : x ++ t <> []).
    { intros En. apply app_eq_nil in En as [-> ->].
      destruct Hx as [H1|[H1|[H1|[H1|[H1|[H1|H1]]]]]];
        try (eapply Hne; [|exact H1]; simpl; tauto).
      simpl in H1. intuition discriminate. }
    destruct (well_formed_start d (x ++ t) Hv Hne Hs E) as (y & u & [Hy Hl] & Eu).
    assert (Hyin : In y (starters d)).
    { unfold starters. destruct Hl as [H1|[H1|[H1|H1]]]; (eapply listed_in; [|exact H1]); simpl; tauto. }
    rewrite negb_true_iff in H.
    assert (Hc : existsb (fun y => prefixb x y || prefixb y x) (starters d) = true).
    { apply existsb_exists. exists y. split; auto. apply orb_true_iff.
      destruct (prefix_comparable x y (x ++ t)) as [P|P].
      - exists t; auto.
      - exists u; auto.
      - left. apply prefixb_spec; auto.
      - right. apply prefixb_spec; auto. }
    congruence.
Qed.

Definition enders (d : script_data) : list str :=
  concat (map inputs [sd_vowel d; sd_vowel_sign d; sd_vowel_length_sign d; sd_coda d;
    sd_dead_consonant d; sd_virama d; sd_standalone d; sd_accept d]).

Definition enders_ok (d : script_data) : bool :=
  negb (sd_no_inherent_vowel d) ||
  forallb (fun c => negb (existsb (fun x => prefixb (rev x) (rev c) || prefixb (rev c) (rev x)) (enders d)))
          (inputs (sd_consonant d)).

Lemma all_enders_ok : forallb enders_ok all_scripts = true.
Proof. vm_compute. reflexivity. Qed.

Lemma shipped_no_bare_consonant d t c : In d all_scripts -> sd_no_inherent_vowel d = true ->
  listed (sd_consonant d) c -> well_formed d (t ++ c) = false.
Proof.
  intros Hd Hinh Hc. destruct (well_formed d (t ++ c)) eqn:E; auto. exfalso.
  destruct (shipped_tables d Hd) as [Hne Hv].
  pose proof all_enders_ok as H. rewrite forallb_forall in H. specialize (H d Hd).
  unfold enders_ok in H. rewrite Hinh in H. simpl in H. rewrite forallb_forall in H.
  assert (Hci : In c (inputs (sd_consonant d))) by (apply inputs_listed; auto).
  specialize (H c Hci). apply negb_true_iff in H.
  assert (Hs : t ++ c <> []).
  { intros En. apply app_eq_nil in En as [_ ->]. apply (Hne (sd_consonant d)); auto. simpl; tauto. }
  destruct (well_formed_end d (t ++ c) Hne Hinh Hs E) as (x & u & [Hx (f & Hf & Hl)] & Eu).
  assert (Hin : In x (enders d)) by (unfold enders; eapply listed_in; eauto).
  assert (Hcc : existsb (fun x => prefixb (rev x) (rev c) || prefixb (rev c) (rev x)) (enders d) = true).
  { apply existsb_exists. exists x. split; auto. apply orb_true_iff.
    destruct (prefix_comparable (rev x) (rev c) (rev (t ++ c))) as [P|P].
    - rewrite Eu, rev_app_distr. exists (rev u); auto.
    - rewrite rev_app_distr. exists (rev t); auto.
    - left. apply prefixb_spec; auto.
    - right. apply prefixb_spec; auto. }
  congruence.
Qed.
