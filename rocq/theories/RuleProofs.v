(** Proofs about the layered partition of rewrite rules. *)
From Verif Require Import Base RuleModel RuleSpec.

Lemma rule_eqb_eq a b : rule_eqb a b = true <-> a = b.
Proof.
  destruct a as [la ra], b as [lb rb]. unfold rule_eqb; simpl.
  rewrite andb_true_iff, !str_eqb_eq. split.
  - intros [-> ->]; reflexivity.
  - intros H; inversion H; auto.
Qed.

Lemma rule_eqb_refl a : rule_eqb a a = true.
Proof. apply rule_eqb_eq; reflexivity. Qed.

Lemma rule_eqb_neq a b : rule_eqb a b = false <-> a <> b.
Proof.
  rewrite <- rule_eqb_eq. destruct (rule_eqb a b); split; intro H; auto; congruence.
Qed.

Lemma rule_eq_dec (a b : rule) : {a = b} + {a <> b}.
Proof.
  destruct (rule_eqb a b) eqn:E.
  - left. apply rule_eqb_eq; exact E.
  - right. apply rule_eqb_neq; exact E.
Qed.

Lemma mem_rule_spec r l : mem_rule r l = true <-> In r l.
Proof.
  unfold mem_rule. rewrite existsb_exists. split.
  - intros (x & Hx & E). apply rule_eqb_eq in E. subst. exact Hx.
  - intros H. exists r. split; auto. apply rule_eqb_refl.
Qed.

Lemma mem_rule_false r l : mem_rule r l = false <-> ~ In r l.
Proof.
  rewrite <- mem_rule_spec. destruct (mem_rule r l); split; intro H; auto; congruence.
Qed.

Lemma add_nodes_spec rs acc :
  NoDup acc ->
  NoDup (add_nodes acc rs) /\ (forall r, In r (add_nodes acc rs) <-> In r acc \/ In r rs).
Proof.
  revert acc; induction rs as [|x rs IH]; intros acc Hnd; simpl.
  - split; [exact Hnd|]. intros r; tauto.
  - destruct (mem_rule x acc) eqn:E.
    + apply mem_rule_spec in E. destruct (IH acc Hnd) as [H1 H2]. split; [exact H1|].
      intros r. rewrite H2. split; [tauto|]. intros [H|[->|H]]; auto.
    + apply mem_rule_false in E.
      assert (Hnd' : NoDup (acc ++ [x])).
      { apply Permutation_NoDup with (l := x :: acc).
        - apply Permutation_cons_append.
        - constructor; auto. }
      destruct (IH _ Hnd') as [H1 H2]. split; [exact H1|].
      intros r. rewrite H2, in_app_iff. simpl. tauto.
Qed.

Lemma add_nodes_length rs acc : length (add_nodes acc rs) <= length acc + length rs.
Proof.
  revert acc; induction rs as [|x rs IH]; intros acc; simpl; [lia|].
  destruct (mem_rule x acc).
  - specialize (IH acc); lia.
  - specialize (IH (acc ++ [x])). rewrite app_length in IH; simpl in IH; lia.
Qed.

(** The graph restricted to a node set: edges are exactly the containments
    between different nodes. *)
Definition graph_ok (g : digraph) : Prop :=
  NoDup (nodes g) /\
  forall a b, In (a, b) (edges g) <->
              In a (nodes g) /\ In b (nodes g) /\ a <> b /\ is_infix (lhs a) (lhs b).

Lemma build_graph_ok rs : graph_ok (build_graph rs).
Proof.
  unfold graph_ok, build_graph; simpl.
  destruct (add_nodes_spec rs [] (NoDup_nil _)) as [H1 H2].
  split; [exact H1|]. intros a b. unfold lhs_edges, match_lhs_in_lhs.
  rewrite filter_In, in_prod_iff; simpl.
  rewrite andb_true_iff, negb_true_iff, rule_eqb_neq, infixb_spec, !H2. simpl. tauto.
Qed.

Lemma remove_nodes_ok g ls : graph_ok g -> graph_ok (remove_nodes g ls).
Proof.
  intros [Hnd He]. unfold remove_nodes; split; simpl.
  - apply NoDup_filter; exact Hnd.
  - intros a b. rewrite !filter_In, He; simpl.
    rewrite andb_true_iff, !negb_true_iff. tauto.
Qed.

Lemma leaves_spec g n : graph_ok g ->
  (In n (leaves g) <->
   In n (nodes g) /\ forall m, In m (nodes g) -> m <> n -> ~ is_infix (lhs n) (lhs m)).
Proof.
  intros [Hnd He]. unfold leaves, out_degree. rewrite filter_In, Nat.eqb_eq.
  split; intros [Hin H]; split; auto.
  - intros m Hm Hne Hinf.
    assert (In (n, m) (filter (fun e => rule_eqb (fst e) n) (edges g))).
    { apply filter_In; split; simpl.
      - apply He; auto.
      - apply rule_eqb_refl. }
    destruct (filter _ _); simpl in *; [contradiction|discriminate].
  - rewrite filter_all_false; [reflexivity|].
    intros [a b] Hab. simpl. apply rule_eqb_neq. intros ->.
    apply He in Hab as (_ & Hb & Hne & Hinf).
    apply (H b Hb); auto.
Qed.

(** A non-empty finite node set has a node with a longest left-hand side. *)
Lemma longest_exists (l : list rule) : l <> [] ->
  exists n, In n l /\ forall m, In m l -> length (lhs m) <= length (lhs n).
Proof.
  induction l as [|x l IH]; [congruence|]. intros _.
  destruct l as [|y l].
  - exists x. split; [left; auto|]. intros m [->|[]]; auto.
  - destruct IH as (n & Hn & Hmax); [congruence|].
    destruct (le_lt_dec (length (lhs x)) (length (lhs n))).
    + exists n. split; [right; auto|]. intros m [->|H]; auto.
    + exists x. split; [left; auto|]. intros m [->|H]; auto.
      apply Hmax in H; lia.
Qed.

Definition lhs_clash (l : list rule) : Prop :=
  exists a b, In a l /\ In b l /\ a <> b /\ lhs a = lhs b.

Lemma no_leaves_clash g : graph_ok g -> nodes g <> [] -> leaves g = [] -> lhs_clash (nodes g).
Proof.
  intros Hg Hne Hl. destruct (longest_exists _ Hne) as (n & Hn & Hmax).
  destruct (Exists_dec (fun m => m <> n /\ is_infix (lhs n) (lhs m)) (nodes g)) as [H|H].
  - intros m. destruct (rule_eq_dec m n) as [->|Hmn].
    + right. intros [E _]; congruence.
    + destruct (infixb (lhs n) (lhs m)) eqn:E.
      * left. split; auto. apply infixb_spec; exact E.
      * right. intros [_ E2]. apply infixb_spec in E2; congruence.
  - apply Exists_exists in H as (m & Hm & Hmn & Hinf).
    exists n, m. repeat split; auto.
    pose proof (is_infix_length _ _ Hinf). pose proof (Hmax _ Hm).
    destruct Hinf as (a & b & E). rewrite E in *. rewrite !app_length in *.
    destruct a; simpl in *; [|lia]. destruct b; simpl in *; [|lia].
    rewrite app_nil_r. reflexivity.
  - exfalso. assert (In n (leaves g)).
    { apply leaves_spec; auto. split; auto. intros m Hm Hmn Hinf.
      apply H. apply Exists_exists. exists m; auto. }
    rewrite Hl in *; contradiction.
Qed.

Lemma clash_not_leaf g a b : graph_ok g ->
  In a (nodes g) -> In b (nodes g) -> a <> b -> lhs a = lhs b -> ~ In a (leaves g).
Proof.
  intros Hg Ha Hb Hne E H. apply (proj1 (leaves_spec g a Hg)) in H as [_ H].
  apply (H b Hb); auto. rewrite E. apply is_infix_refl.
Qed.

Lemma remove_leaves_clash g : graph_ok g ->
  (lhs_clash (nodes (remove_nodes g (leaves g))) <-> lhs_clash (nodes g)).
Proof.
  intros Hg. split; intros (a & b & Ha & Hb & Hne & E); exists a, b; simpl in *.
  - apply filter_In in Ha as [Ha _]. apply filter_In in Hb as [Hb _]. auto.
  - repeat split; auto; apply filter_In; split; auto; apply negb_true_iff, mem_rule_false.
    + eapply clash_not_leaf; eauto.
    + eapply clash_not_leaf with (b := a); eauto.
Qed.

Lemma filter_split_perm {A} (f : A -> bool) l :
  Permutation (filter f l ++ filter (fun x => negb (f x)) l) l.
Proof.
  induction l as [|x l IH]; simpl; auto.
  destruct (f x); simpl.
  - constructor; exact IH.
  - apply Permutation_sym. eapply Permutation_trans.
    + apply perm_skip. apply Permutation_sym. exact IH.
    + apply Permutation_middle.
Qed.

Lemma leaves_remove_perm g : graph_ok g ->
  Permutation (leaves g ++ nodes (remove_nodes g (leaves g))) (nodes g).
Proof.
  intros Hg. simpl.
  assert (E : filter (fun n => negb (mem_rule n (leaves g))) (nodes g) =
              filter (fun n => negb (Nat.eqb (out_degree g n) 0)) (nodes g)).
  { apply filter_ext_in. intros n Hn. f_equal.
    destruct (Nat.eqb (out_degree g n) 0) eqn:E.
    - apply mem_rule_spec. unfold leaves. apply filter_In. auto.
    - apply mem_rule_false. unfold leaves. rewrite filter_In. intros [_ H]; congruence. }
  rewrite E. unfold leaves. apply filter_split_perm.
Qed.

Definition layering (all : list rule) (ls : list (list rule)) : Prop :=
  Permutation (concat ls) all /\
  Forall (fun l => l <> []) ls /\
  Forall antichain ls /\
  (forall a b, In a all -> In b all -> a <> b -> is_infix (lhs a) (lhs b) ->
               strictly_before ls b a).

Lemma layering_nil : layering [] [].
Proof.
  split; [constructor|]. split; [constructor|]. split; [constructor|]. intros a b [].
Qed.

Lemma layering_cons g rest : graph_ok g -> leaves g <> [] ->
  layering (nodes (remove_nodes g (leaves g))) rest ->
  layering (nodes g) (leaves g :: rest).
Proof.
  intros Hg Hl (Hp & Hne & Hac & Hord).
  pose proof (leaves_remove_perm g Hg) as HP.
  split; [|split; [|split]].
  - simpl. eapply Permutation_trans; [|exact HP]. apply Permutation_app_head. exact Hp.
  - constructor; auto.
  - constructor; auto. intros a b Ha Hb Hab.
    apply leaves_spec in Ha as [_ Ha]; auto.
    apply leaves_spec in Hb as [Hb _]; auto.
  - intros a b Ha Hb Hab Hinf.
    assert (Hal : ~ In a (leaves g)).
    { intros H. apply leaves_spec in H as [_ H]; auto. apply (H b); auto. }
    assert (Har : In a (nodes (remove_nodes g (leaves g)))).
    { simpl. apply filter_In; split; auto. apply negb_true_iff, mem_rule_false. exact Hal. }
    destruct (mem_rule b (leaves g)) eqn:Eb.
    + apply mem_rule_spec in Eb.
      assert (Hc : In a (concat rest)).
      { eapply Permutation_in; [apply Permutation_sym; exact Hp|exact Har]. }
      apply in_concat in Hc as (la & Hla & Hin).
      apply in_split in Hla as (mid & post & ->).
      exists [], mid, post, (leaves g), la. auto.
    + apply mem_rule_false in Eb.
      assert (Hbr : In b (nodes (remove_nodes g (leaves g)))).
      { simpl. apply filter_In; split; auto. apply negb_true_iff, mem_rule_false. exact Eb. }
      destruct (Hord a b Har Hbr Hab Hinf) as (pre & mid & post & lb & la & -> & H1 & H2).
      exists (leaves g :: pre), mid, post, lb, la. auto.
Qed.

Lemma peel_spec fuel g : graph_ok g -> length (nodes g) <= fuel ->
  match peel fuel g with
  | Layers ls => layering (nodes g) ls /\ ~ lhs_clash (nodes g)
  | CycleError => lhs_clash (nodes g)
  | OutOfFuel => False
  end.
Proof.
  revert g; induction fuel as [|fuel IH]; intros g Hg Hlen.
  - simpl. destruct (nodes g) as [|n ns] eqn:E; simpl in *; [|lia].
    split; [apply layering_nil|]. intros (a & b & [] & _).
  - simpl. destruct (nodes g) as [|n ns] eqn:E.
    + split; [apply layering_nil|]. intros (a & b & [] & _).
    + assert (Hne : nodes g <> []) by congruence. rewrite <- E in *. clear E n ns.
      destruct (leaves g) as [|l0 ls0] eqn:EL.
      * apply no_leaves_clash; auto.
      * assert (Hl : leaves g <> []) by congruence. rewrite <- EL. clear l0 ls0 EL.
        pose proof (leaves_remove_perm g Hg) as HP.
        assert (Hlen' : length (nodes (remove_nodes g (leaves g))) <= fuel).
        { apply Permutation_length in HP. rewrite app_length in HP.
          destruct (leaves g) as [|? ?]; [congruence|]. simpl in HP |- *. lia. }
        specialize (IH _ (remove_nodes_ok g (leaves g) Hg) Hlen').
        destruct (peel fuel (remove_nodes g (leaves g))) as [rest| |].
        -- destruct IH as [IH1 IH2]. split.
           ++ apply layering_cons; auto.
           ++ rewrite <- remove_leaves_clash; auto.
        -- rewrite <- remove_leaves_clash; auto.
        -- exact IH.
Qed.

Lemma in_nodes rs r : In r (nodes (build_graph rs)) <-> In r rs.
Proof.
  simpl. rewrite (proj2 (add_nodes_spec rs [] (NoDup_nil _))). simpl. tauto.
Qed.

(** Specification independent of the graph: [distinct] is any duplicate-free
    list of the same rules. *)
Lemma partition_sound rs ls : partition_unordered rs = Layers ls ->
  NoDup (concat ls) /\
  (forall r, In r (concat ls) <-> In r rs) /\
  Forall (fun l => l <> []) ls /\
  Forall antichain ls /\
  (forall a b, In a rs -> In b rs -> a <> b -> is_infix (lhs a) (lhs b) ->
               strictly_before ls b a).
Proof.
  intros H. pose proof (build_graph_ok rs) as Hg.
  pose proof (peel_spec (length rs) (build_graph rs) Hg) as HS.
  unfold partition_unordered in H. rewrite H in HS.
  destruct HS as [(Hp & Hne & Hac & Hord) _].
  { simpl. pose proof (add_nodes_length rs []). simpl in *; lia. }
  split; [|split; [|split; [|split]]]; auto.
  - eapply Permutation_NoDup; [apply Permutation_sym; exact Hp|]. apply Hg.
  - intros r. rewrite <- (in_nodes rs). split; intros Hin.
    + exact (Permutation_in r Hp Hin).
    + exact (Permutation_in r (Permutation_sym Hp) Hin).
  - intros a b Ha Hb. apply Hord; apply in_nodes; auto.
Qed.

Lemma partition_total rs :
  (exists ls, partition_unordered rs = Layers ls) \/ partition_unordered rs = CycleError.
Proof.
  pose proof (peel_spec (length rs) (build_graph rs) (build_graph_ok rs)) as HS.
  unfold partition_unordered.
  destruct (peel (length rs) (build_graph rs)) as [ls| |].
  - left; eauto.
  - right; reflexivity.
  - exfalso. apply HS. simpl. pose proof (add_nodes_length rs []). simpl in *; lia.
Qed.

Lemma partition_error_iff rs :
  partition_unordered rs = CycleError <->
  exists a b, In a rs /\ In b rs /\ lhs a = lhs b /\ rhs a <> rhs b.
Proof.
  pose proof (peel_spec (length rs) (build_graph rs) (build_graph_ok rs)) as HS.
  assert (Hlen : length (nodes (build_graph rs)) <= length rs).
  { simpl. pose proof (add_nodes_length rs []). simpl in *; lia. }
  specialize (HS Hlen). unfold partition_unordered.
  assert (Hc : lhs_clash (nodes (build_graph rs)) <->
               exists a b, In a rs /\ In b rs /\ lhs a = lhs b /\ rhs a <> rhs b).
  { split.
    - intros (a & b & Ha & Hb & Hne & E). exists a, b. rewrite in_nodes in Ha, Hb.
      repeat split; auto. destruct a, b; simpl in *. congruence.
    - intros (a & b & Ha & Hb & E & Hr). exists a, b. rewrite !in_nodes.
      repeat split; auto. congruence. }
  destruct (peel (length rs) (build_graph rs)) as [ls| |].
  - split; [discriminate|]. intros H. apply Hc in H. tauto.
  - split; [|reflexivity]. intros _. apply Hc. exact HS.
  - contradiction.
Qed.
