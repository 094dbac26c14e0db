From Verif Require Import Base FeatureModel FeatureSpec FeatureProofs ProfileModel ProfileSpec ProfileProofs HistoryProofs ContainModel ContainSpec.

Definition idents (v : value) : list ident := map ident_of (subvalues v).
Lemma idents_list l t s items : idents (VList l t s items) = L l :: flat_map idents items.
Proof.
  unfold idents. cbn [subvalues map ident_of]. f_equal. induction items as [|x items IH]; cbn [flat_map]; auto. rewrite map_app, IH. auto.
Qed.
Lemma ident_eqb_eq x y : ident_eqb x y = true <-> x = y.
Proof. destruct x, y; cbn; try (split; congruence); rewrite Nat.eqb_eq; split; congruence. Qed.
Lemma assign_keys v : forall up, map fst (assign v up) = idents v.
Proof.
  induction v as [f|l t s items IH] using value_ind2; intros up; [reflexivity|]. rewrite idents_list. cbn [assign map fst]. f_equal.
  induction IH as [|x items Hx IH IHi]; cbn [flat_map]; auto. rewrite map_app, Hx, IHi. auto.
Qed.
Definition fs_of (l : list ident) : list nat := flat_map (fun x => match x with F f => [f] | L _ => [] end) l.
Definition ls_of (l : list ident) : list nat := flat_map (fun x => match x with F _ => [] | L m => [m] end) l.
Lemma leaves_idents v : leaves v = fs_of (idents v).
Proof.
  induction v as [f|l t s items IH] using value_ind2; [reflexivity|]. rewrite idents_list. cbn [leaves fs_of flat_map app]. fold (fs_of (flat_map idents items)).
  induction IH as [|x items Hx IH IHi]; cbn [flat_map]; auto. unfold fs_of at 1. rewrite flat_map_app. f_equal; auto.
Qed.
Lemma lists_idents v : lists v = ls_of (idents v).
Proof.
  induction v as [f|l t s items IH] using value_ind2; [reflexivity|]. rewrite idents_list. cbn [lists ls_of flat_map app]. fold (ls_of (flat_map idents items)). f_equal.
  induction IH as [|x items Hx IH IHi]; cbn [flat_map]; auto. unfold ls_of at 1. rewrite flat_map_app. f_equal; auto.
Qed.
Lemma distinct_idents v : distinct v -> NoDup (idents v).
Proof.
  intros [D1 D2]. rewrite leaves_idents in D1. rewrite lists_idents in D2. induction (idents v) as [|x l IH]; [constructor|].
  constructor.
  - intros I. destruct x as [f|m]; cbn in D1, D2.
    + inversion D1 as [|? ? H _]; subst. apply H. unfold fs_of. apply in_flat_map. exists (F f). cbn. auto.
    + inversion D2 as [|? ? H _]; subst. apply H. unfold ls_of. apply in_flat_map. exists (L m). cbn. auto.
  - apply IH; destruct x; cbn in D1, D2; auto; [inversion D1; auto|inversion D2; auto].
Qed.
Lemma subvalues_trans v : forall u w, In u (subvalues v) -> In w (subvalues u) -> In w (subvalues v).
Proof.
  induction v as [f|l t s items IH] using value_ind2; intros u w Hu Hw.
  - destruct Hu as [<-|[]]. auto.
  - cbn [subvalues] in Hu. destruct Hu as [<-|Hu]; auto. right. apply in_flat_map in Hu. destruct Hu as (i & Ii & Hu). apply in_flat_map. exists i. split; auto.
    rewrite Forall_forall in IH. eauto.
Qed.
Lemma inside_sub v w : In w (inside v) -> In w (subvalues v).
Proof. destruct v; cbn; auto. Qed.
Lemma sub_self v : In v (subvalues v).
Proof. destruct v; cbn; auto. Qed.
Lemma NoDup_item l t s items i : NoDup (idents (VList l t s items)) -> In i items -> NoDup (idents i).
Proof. rewrite idents_list. intros N I. inversion N; subst. eapply NoDup_flat_item; eauto. Qed.

Lemma assign_below v : NoDup (idents v) -> forall up x pl, In (x, pl) (assign v up) -> forall l, In l pl <-> In l up \/ below v l x.
Proof.
  induction v as [f|l0 t s items IH] using value_ind2; intros N up x pl Hin l; cbn [assign] in Hin.
  - destruct Hin as [E|[]]. injection E as <- <-. split; auto. intros [|(v & w & Iv & Ev & Iw & _)]; auto. destruct Iv as [<-|[]]. contradiction.
  - pose proof N as N'. rewrite idents_list in N'. inversion N' as [|? ? Nl Nf]; subst. destruct Hin as [E|Hin].
    + injection E as <- <-. split; auto. intros [|(v & w & Iv & Ev & Iw & Ew)]; auto. exfalso. apply Nl.
      assert (In w (flat_map subvalues items)) as J.
      { cbn [subvalues] in Iv. destruct Iv as [<-|Iv]; [exact Iw|]. apply in_flat_map in Iv. destruct Iv as (i & Ii & Iv). apply in_flat_map. exists i. split; auto.
        eapply subvalues_trans; eauto. apply inside_sub; auto. }
      apply in_flat_map in J. destruct J as (i & Ii & J). apply in_flat_map. exists i. split; auto. rewrite <- Ew. apply in_map; auto.
    + apply in_flat_map in Hin. destruct Hin as (i & Ii & Hin). rewrite Forall_forall in IH. rewrite (IH i Ii (NoDup_item _ _ _ _ _ N Ii) _ _ _ Hin l). cbn [In].
      assert (In x (idents i)) as Ix by (rewrite <- (assign_keys i (l0 :: up)); change x with (fst (x, pl)); apply in_map; auto).
      split.
      * intros [[->|]|(v & w & Iv & Ev & Iw & Ew)]; auto.
        -- right. apply in_map_iff in Ix. destruct Ix as (w & Ew & Iw). exists (VList l t s items), w. split; [apply sub_self|]. split; auto. split; auto. cbn [inside]. apply in_flat_map. eauto.
        -- right. exists v, w. split; [|auto]. right. apply in_flat_map. eauto.
      * intros [|(v & w & Iv & Ev & Iw & Ew)]; auto. cbn [subvalues] in Iv. destruct Iv as [<-|Iv].
        -- cbn [ident_of] in Ev. injection Ev as ->. auto.
        -- right. apply in_flat_map in Iv. destruct Iv as (j & Ij & Iv). assert (i = j) as <-.
           { apply In_nth_error in Ii. destruct Ii as [a Ha]. apply In_nth_error in Ij. destruct Ij as [b Hb].
             assert (a = b) as <-; [|congruence]. apply (NoDup_flat idents items Nf a b i j x Ha Hb Ix). unfold idents. rewrite <- Ew. apply in_map.
             eapply subvalues_trans; eauto. apply inside_sub; auto. }
           exists v, w. auto.
Qed.
Lemma assign_item v : forall up l t s items w, In (VList l t s items) (subvalues v) -> In w items -> exists rest, In (ident_of w, l :: rest) (assign v up).
Proof.
  induction v as [f|l0 t0 s0 items0 IH] using value_ind2; intros up l t s items w Hin Iw; cbn [subvalues] in Hin.
  - destruct Hin as [E|[]]. discriminate.
  - destruct Hin as [E|Hin].
    + injection E as <- <- <- <-. exists up. cbn [assign]. right. apply in_flat_map. exists w. split; auto. destruct w; cbn [assign ident_of]; left; auto.
    + apply in_flat_map in Hin. destruct Hin as (i & Ii & Hin). rewrite Forall_forall in IH. destruct (IH i Ii (l0 :: up) _ _ _ _ _ Hin Iw) as [rest H].
      exists rest. cbn [assign]. right. apply in_flat_map. eauto.
Qed.
Lemma assign_top v up : In (ident_of v, up) (assign v up).
Proof. destruct v; cbn; auto. Qed.
Lemma assign_head v : forall up x pl, In (x, pl) (assign v up) -> (x = ident_of v /\ pl = up) \/ exists l rest, pl = l :: rest /\ item_of_list v l x.
Proof.
  induction v as [f|l0 t0 s0 items0 IH] using value_ind2; intros up x pl Hin; cbn [assign] in Hin.
  - destruct Hin as [E|[]]. injection E as <- <-. auto.
  - destruct Hin as [E|Hin]; [injection E as <- <-; auto|]. right. apply in_flat_map in Hin. destruct Hin as (i & Ii & Hin). rewrite Forall_forall in IH.
    destruct (IH i Ii _ _ _ Hin) as [[-> ->]|(l & rest & -> & t & s & items & w & Hs & Iw & Ew)].
    + exists l0, up. split; auto. exists t0, s0, items0, i. split; [apply sub_self|auto].
    + exists l, rest. split; auto. exists t, s, items, w. split; auto. cbn [subvalues]. right. apply in_flat_map. eauto.
Qed.
Lemma find_key (l : list (ident * list nat)) x p : NoDup (map fst l) -> In (x, p) l -> find (fun e => ident_eqb x (fst e)) (rev l) = Some (x, p).
Proof.
  intros N I. destruct (find (fun e => ident_eqb x (fst e)) (rev l)) as [[y q]|] eqn:E.
  - apply find_some in E. destruct E as [I2 E]. apply ident_eqb_eq in E. cbn in E. subst y. rewrite <- in_rev in I2. f_equal. f_equal.
    clear - N I I2. induction l as [|[z r] l IH]; [contradiction|]. cbn in N. inversion N as [|? ? H1 H2]; subst. destruct I as [E1|I], I2 as [E2|I2]; auto.
    + congruence.
    + injection E1 as -> ->. exfalso. apply H1. change x with (fst (x, q)). apply in_map; auto.
    + injection E2 as -> ->. exfalso. apply H1. change x with (fst (x, p)). apply in_map; auto.
  - exfalso. assert (In (x, p) (rev l)) as I' by (rewrite <- in_rev; auto). pose proof (find_none _ _ E (x, p) I') as H. cbn [fst] in H.
    assert (ident_eqb x x = true) by (apply ident_eqb_eq; auto). congruence.
Qed.
Lemma parent_list_eq root x p : distinct root -> In (x, p) (assign root []) -> parent_list root x = p.
Proof. intros D I. unfold parent_list. rewrite (find_key _ x p); auto. rewrite assign_keys. apply distinct_idents; auto. Qed.
Lemma parent_list_none root x : ~ In x (idents root) -> parent_list root x = [].
Proof.
  intros N. unfold parent_list. destruct (find (fun e => ident_eqb x (fst e)) (rev (assign root []))) as [[y q]|] eqn:E; auto. exfalso. apply N.
  apply find_some in E. destruct E as [I2 E]. apply ident_eqb_eq in E. cbn in E. subst y. rewrite <- in_rev in I2. rewrite <- (assign_keys root []). change x with (fst (x, q)). apply in_map; auto.
Qed.
Lemma below_ident root l x : below root l x -> In x (idents root).
Proof. intros (v & w & Iv & _ & Iw & <-). apply in_map. eapply subvalues_trans; eauto. apply inside_sub; auto. Qed.
Lemma ident_assigned root x : In x (idents root) -> exists p, In (x, p) (assign root []).
Proof. intros I. rewrite <- (assign_keys root []) in I. apply in_map_iff in I. destruct I as ([y p] & E & I). cbn in E. subst. eauto. Qed.

Theorem parents_below root x l : distinct root -> In l (parent_list root x) <-> below root l x.
Proof.
  intros D. destruct (in_dec (fun x y : ident => ltac:(decide equality; apply Nat.eq_dec)) x (idents root)) as [I|I].
  - destruct (ident_assigned root x I) as [p Ip]. rewrite (parent_list_eq root x p D Ip). rewrite (assign_below root (distinct_idents root D) [] x p Ip l). cbn. tauto.
  - rewrite (parent_list_none root x I). split; [intros []|]. intros H. exfalso. apply I. eapply below_ident; eauto.
Qed.
Theorem parents_head root l x : distinct root -> item_of_list root l x -> exists rest, parent_list root x = l :: rest.
Proof.
  intros D (t & s & items & w & Hs & Iw & <-). destruct (assign_item root [] l t s items w Hs Iw) as [rest H]. exists rest. apply parent_list_eq; auto.
Qed.
Lemma parents_nonroot root x : distinct root -> In x (idents root) -> x <> ident_of root -> exists l rest, parent_list root x = l :: rest /\ item_of_list root l x.
Proof.
  intros D I N. destruct (ident_assigned root x I) as [p Ip]. rewrite (parent_list_eq root x p D Ip). destruct (assign_head root [] x p Ip) as [[? _]|(l & rest & -> & H)]; [contradiction|eauto].
Qed.

Theorem set_has_spec root s x : distinct root -> set_has_feature root s x = true <-> exists f, In f s /\ (x = F f \/ exists l, x = L l /\ below root l (F f)).
Proof.
  intros D. unfold set_has_feature. rewrite orb_true_iff, existsb_exists. destruct x as [f|l]; cbn [in_parents].
  - rewrite has_spec. split.
    + intros [I|(g & _ & H)]; [exists f; auto|discriminate].
    + intros (g & I & [E|(l & E & _)]); [|discriminate]. injection E as <-. auto.
  - split.
    + intros [H|(f & I & H)]; [discriminate|]. apply has_spec in H. apply parents_below in H; auto. exists f. split; auto. right. eauto.
    + intros (f & I & [E|(m & E & H)]); [discriminate|]. injection E as <-. right. exists f. split; auto. apply has_spec. apply parents_below; auto.
Qed.
Theorem value_in_set root n x s : distinct root -> value_in root (S n) x (OSet s) = Some (set_has_feature root s x).
Proof.
  intros D. cbn [value_in]. destruct (set_has_feature root s x) eqn:E; auto. f_equal. unfold value_in_rest. cbn [iterable_features]. unfold set_has_feature in E. apply orb_false_iff in E.
  destruct x; [|reflexivity]. destruct E as [-> _]. reflexivity.
Qed.
Theorem value_in_profile root n x sets : distinct root -> value_in root (S n) x (OProfile sets) = Some (existsb (fun s => set_has_feature root s x) sets).
Proof.
  intros D. cbn [value_in]. destruct (existsb (fun s => set_has_feature root s x) sets) eqn:E; auto. f_equal. unfold value_in_rest. cbn [iterable_features].
  destruct x as [f|l]; [|reflexivity]. cbn [orb]. apply has_false. intros I. apply in_concat in I. destruct I as (s & Is & If).
  assert (existsb (fun s => set_has_feature root s (F f)) sets = true); [|congruence]. apply existsb_exists. exists s. split; auto. unfold set_has_feature. assert (has f s = true) as -> by (apply has_spec; auto). auto.
Qed.
Theorem value_in_list root depth x l fs : value_in root depth x (OList l fs) = None.
Proof. induction depth as [|n IH]; cbn [value_in]; auto. rewrite IH. auto. Qed.
Theorem value_in_aspect root depth x fs : value_in root depth x (OAspect fs) = None.
Proof. induction depth as [|n IH]; cbn [value_in]; auto. rewrite IH. auto. Qed.

(** ** Ranges *)
Lemma sub_distinct v : forall u, distinct v -> In u (subvalues v) -> distinct u.
Proof.
  induction v as [f|l t s items IH] using value_ind2; intros u D Hu; cbn [subvalues] in Hu.
  - destruct Hu as [<-|[]]. auto.
  - destruct Hu as [<-|Hu]; auto. apply in_flat_map in Hu. destruct Hu as (i & Ii & Hu). rewrite Forall_forall in IH. apply (IH i Ii); auto. eapply distinct_item; eauto.
Qed.
Lemma nth_skipn {A} a (l : list A) k : nth_error (skipn a l) k = nth_error l (a + k).
Proof. revert a. induction l as [|x l IH]; intros [|a]; cbn; auto. destruct k; auto. Qed.
Lemma nth_firstn {A} b (l : list A) k : nth_error (firstn b l) k = if k <? b then nth_error l k else None.
Proof.
  revert b k. induction l as [|x l IH]; intros b k.
  - rewrite firstn_nil. destruct k; cbn [nth_error]; destruct (_ <? b); auto.
  - destruct b as [|b]; [destruct k; auto|]. destruct k as [|k]; [auto|]. cbn [firstn nth_error]. rewrite IH. auto.
Qed.
Lemma slice_in {A} a b (l : list A) x : In x (slice a b l) <-> exists k, a <= k < b /\ nth_error l k = Some x.
Proof.
  unfold slice. split.
  - intros I. apply In_nth_error in I. destruct I as [k H]. rewrite nth_skipn, nth_firstn in H. destruct (Nat.ltb_spec (a + k) b); [|discriminate]. exists (a + k). split; auto. lia.
  - intros (k & Hk & H). apply nth_error_In with (k - a). rewrite nth_skipn, nth_firstn. replace (a + (k - a)) with k by lia. destruct (Nat.ltb_spec k b); [auto|lia].
Qed.
Lemma flat_slice a b items f : In f (flat_map leaves (slice a b items)) <-> exists k v, a <= k < b /\ nth_error items k = Some v /\ In f (leaves v).
Proof.
  rewrite in_flat_map. split.
  - intros (v & I & Hf). apply slice_in in I. destruct I as (k & Hk & E). eauto 6.
  - intros (k & v & Hk & E & Hf). exists v. split; auto. apply slice_in. eauto.
Qed.
Lemma diff_in s t f : In f (set_difference s t) <-> In f s /\ ~ In f t.
Proof. unfold set_difference. rewrite filter_In, negb_true_iff, has_false. tauto. Qed.
Lemma union_in s t f : In f (set_union s t) <-> In f s \/ In f t.
Proof. unfold set_union. rewrite to_set_in, in_app_iff. tauto. Qed.

Theorem range_spec root l t s items i j v w : distinct root -> In (VList l t s items) (subvalues root) ->
  nth_error items i = Some v -> nth_error items j = Some w -> i <> j ->
  exists r, list_range root l items v w = Some r /\ forall f, In f r <-> in_items items (round_trip i j (length items)) f.
Proof.
  intros D Hs Hi Hj Nij. assert (distinct (VList l t s items)) as Dl by (eapply sub_distinct; eauto). unfold list_range.
  destruct (parents_head root l (ident_of v) D) as [r1 ->]; [exists t, s, items, v; split; auto; split; auto; eapply nth_error_In; eauto|].
  destruct (parents_head root l (ident_of w) D) as [r2 ->]; [exists t, s, items, w; split; auto; split; auto; eapply nth_error_In; eauto|].
  rewrite Nat.eqb_refl. cbn [negb]. rewrite (index_found _ _ _ _ _ _ Dl Hi), (index_found _ _ _ _ _ _ Dl Hj).
  assert (i < length items) as Li by (apply nth_error_Some; congruence). assert (j < length items) as Lj by (apply nth_error_Some; congruence).
  destruct (Nat.ltb_spec i j) as [Lt|Ge].
  - eexists. split; [reflexivity|]. intros f. rewrite union_in, !to_set_in, flat_slice, in_app_iff. rewrite Nat.min_l, Nat.max_r by lia. unfold in_items, round_trip.
    assert (i <=? j = true) as -> by (apply Nat.leb_le; lia). split.
    + intros [(k & u & Hk & E & Hf)|[Hf|Hf]]; [exists k, u|exists i, v|exists j, w]; (split; [apply in_seq; lia|auto]).
    + intros (k & u & Hk & E & Hf). apply in_seq in Hk. destruct (Nat.eq_dec k i) as [->|]; [right; left; congruence|]. destruct (Nat.eq_dec k j) as [->|]; [right; right; congruence|].
      left. exists k, u. split; auto. lia.
  - eexists. split; [reflexivity|]. intros f. rewrite diff_in, !to_set_in, flat_slice, in_flat_map. rewrite Nat.min_r, Nat.max_l by lia. unfold in_items, round_trip.
    assert (i <=? j = false) as -> by (apply Nat.leb_gt; lia). split.
    + intros [(u & Iu & Hf) Nf]. apply In_nth_error in Iu. destruct Iu as [k Hk]. exists k, u. split; auto. apply in_app_iff. rewrite !in_seq.
      assert (k < length items) by (apply nth_error_Some; congruence). destruct (Nat.lt_ge_cases j k); [|right; lia]. destruct (Nat.lt_ge_cases k i); [|left; lia].
      exfalso. apply Nf. exists k, u. split; [lia|auto].
    + intros (k & u & Hk & E & Hf). split; [exists u; split; auto; eapply nth_error_In; eauto|]. intros (k' & u' & Hk' & E' & Hf').
      assert (k = k') by (destruct Dl as [Dl _]; exact (NoDup_flat leaves items Dl k k' u u' f E E' Hf Hf')). subst k'. apply in_app_iff in Hk. rewrite !in_seq in Hk. lia.
Qed.
Lemma item_list_unique root l m x : distinct root -> item_of_list root l x -> item_of_list root m x -> l = m.
Proof. intros D H1 H2. destruct (parents_head root l x D H1) as [r1 E1]. destruct (parents_head root m x D H2) as [r2 E2]. congruence. Qed.
Theorem range_other root l items v w : distinct root -> In v (inside root) -> In w (inside root) ->
  ~ (item_of_list root l (ident_of v) /\ item_of_list root l (ident_of w)) -> list_range root l items v w = Some [].
Proof.
  intros D Iv Iw N. assert (forall u, In u (inside root) -> exists m rest, parent_list root (ident_of u) = m :: rest /\ item_of_list root m (ident_of u)) as P.
  { intros u Iu. apply parents_nonroot; auto; [apply in_map; apply inside_sub; auto|]. intros E. pose proof (distinct_idents root D) as Nd. destruct root as [f|l0 t0 s0 items0]; [contradiction|].
    rewrite idents_list in Nd. inversion Nd as [|? ? H _]; subst. apply H. cbn [inside] in Iu. apply in_flat_map in Iu. destruct Iu as (i & Ii & Iu). apply in_flat_map. exists i. split; auto.
    cbn [ident_of] in E. rewrite <- E. apply in_map; auto. }
  destruct (P v Iv) as (m1 & r1 & E1 & H1). destruct (P w Iw) as (m2 & r2 & E2 & H2). unfold list_range. rewrite E1, E2.
  destruct (Nat.eqb_spec m1 l) as [->|]; auto. cbn [negb]. destruct (Nat.eqb_spec m2 l) as [->|]; auto. exfalso. tauto.
Qed.
Theorem range_self root l t s items i v : distinct root -> In (VList l t s items) (subvalues root) -> nth_error items i = Some v ->
  exists r, list_range root l items v v = Some r /\ forall f, In f r <-> In f (flat_map leaves items).
Proof.
  intros D Hs Hi. assert (distinct (VList l t s items)) as Dl by (eapply sub_distinct; eauto). unfold list_range.
  destruct (parents_head root l (ident_of v) D) as [r1 ->]; [exists t, s, items, v; split; auto; split; auto; eapply nth_error_In; eauto|].
  rewrite Nat.eqb_refl. cbn [negb]. rewrite (index_found _ _ _ _ _ _ Dl Hi), Nat.ltb_irrefl. eexists. split; [reflexivity|]. intros f. rewrite diff_in, !to_set_in, flat_slice, Nat.min_id, Nat.max_id.
  split; [tauto|]. intros H. split; auto. intros (k & u & Hk & _). lia.
Qed.
Theorem make_set_spec of_ all neg fs f : In f (make_set of_ all neg fs) <-> if neg then In f all /\ ~ (In f fs /\ of_ f = true) else In f fs /\ of_ f = true.
Proof. unfold make_set. destruct neg; rewrite ?diff_in, ?to_set_in, ?filter_In, ?to_set_in; tauto. Qed.
