From Verif Require Import Base FeatureModel FeatureSpec FeatureProofs ProfileModel ProfileSpec ProfileProofs.

(** ** Sets *)
Lemma set_add_in s f x : In x (set_add s f) <-> In x s \/ x = f.
Proof.
  unfold set_add. destruct (has f s) eqn:H; [apply has_spec in H; split; [auto|intros [ | ->]; auto]|]. rewrite in_app_iff. cbn. intuition congruence.
Qed.
Lemma NoDup_snoc {A} (l : list A) x : NoDup l -> ~ In x l -> NoDup (l ++ [x]).
Proof.
  intros N H. induction l as [|y l IH]; cbn; [repeat constructor; auto|]. inversion N; subst. constructor; [|apply IH; auto; intros X; apply H; right; auto].
  rewrite in_app_iff. cbn. intros [X|[X|[]]]; auto. subst. apply H. left. auto.
Qed.
Lemma set_add_nodup s f : NoDup s -> NoDup (set_add s f).
Proof. intros N. unfold set_add. destruct (has f s) eqn:H; auto. apply has_false in H. apply NoDup_snoc; auto. Qed.
Lemma to_set_in fs x : In x (to_set fs) <-> In x fs.
Proof.
  unfold to_set. assert (forall s, In x (fold_left set_add fs s) <-> In x s \/ In x fs) as G.
  { induction fs as [|f fs IH]; intros s; cbn [fold_left]; [cbn; tauto|]. rewrite IH, set_add_in. cbn. intuition congruence. }
  rewrite G. cbn. tauto.
Qed.
Lemma to_set_nodup fs : NoDup (to_set fs).
Proof.
  unfold to_set. assert (forall s, NoDup s -> NoDup (fold_left set_add fs s)) as G.
  { induction fs as [|f fs IH]; intros s N; cbn [fold_left]; auto using set_add_nodup. }
  apply G. constructor.
Qed.

(** ** Grouping by aspect *)
Section Dict.
  Variable W : world.
  Definition under (d : list (nat * list nat)) (a : nat) : list nat := match get a d with Some s => s | None => [] end.
  Definition good_dict (d : list (nat * list nat)) : Prop := NoDup (map fst d) /\ forall a, get a d <> Some [].
  Lemma dict_add_get a f d b : get b (dict_add a f d) = if Nat.eqb b a then Some (set_add (under d a) f) else get b d.
  Proof.
    unfold under. induction d as [|[c s] d IH]; cbn [dict_add get].
    - destruct (Nat.eqb b a); auto.
    - destruct (Nat.eqb_spec a c) as [->|N]; cbn [get].
      + destruct (Nat.eqb b c); auto.
      + rewrite IH. destruct (Nat.eqb_spec b c) as [->|]; auto. destruct (Nat.eqb_spec c a); auto. congruence.
  Qed.
  Lemma dict_add_keys a f d x : In x (map fst (dict_add a f d)) <-> x = a \/ In x (map fst d).
  Proof.
    induction d as [|[c s] d IH]; cbn [dict_add map fst In]; [intuition congruence|]. destruct (Nat.eqb_spec a c) as [->|N]; cbn [map fst In]; [|rewrite IH]; intuition congruence.
  Qed.
  Lemma dict_add_good a f d : good_dict d -> good_dict (dict_add a f d).
  Proof.
    intros [N G]. split.
    - clear G. induction d as [|[c s] d IH]; cbn [dict_add map fst] in *; [constructor; [intros []|constructor]|]. inversion N as [|? ? N1 N2]; subst.
      destruct (Nat.eqb_spec a c) as [->|Na]; cbn [map fst]; constructor; auto. rewrite dict_add_keys. intros [|]; auto.
    - intros b. rewrite dict_add_get. destruct (Nat.eqb b a); auto. unfold set_add. destruct (has f (under d a)) eqn:H; [apply has_spec in H; destruct (under d a); [contradiction|discriminate]|].
      intros E. injection E as E. destruct (under d a); discriminate.
  Qed.
  Lemma aspect_dict_spec inv fs : good_dict (aspect_dict W inv fs) /\
    (forall a f, In f (under (aspect_dict W inv fs) a) <-> In f fs /\ aspect_of W f = Some a /\ inventory_of W a = inv).
  Proof.
    unfold aspect_dict. set (F := fun d f => _).
    assert (forall l d, good_dict d -> good_dict (fold_left F l d) /\
      forall a f, In f (under (fold_left F l d) a) <-> In f (under d a) \/ (In f l /\ aspect_of W f = Some a /\ inventory_of W a = inv)) as G.
    { induction l as [|x l IH]; intros d Hd; cbn [fold_left]; [split; auto; intros; cbn; tauto|].
      assert (good_dict (F d x) /\ forall a f, In f (under (F d x) a) <-> In f (under d a) \/ (f = x /\ aspect_of W f = Some a /\ inventory_of W a = inv)) as [G1 G2].
      { unfold F. destruct (aspect_of W x) as [b|] eqn:Ex.
        - destruct (Nat.eqb_spec (inventory_of W b) inv) as [Ei|Ni].
          + split; [apply dict_add_good; auto|]. intros a f. unfold under. rewrite dict_add_get. destruct (Nat.eqb_spec a b) as [->|Na].
            * rewrite set_add_in. fold (under d b). split; [intros [ | ->]; auto|intros [|(-> & _ & _)]; auto].
            * split; auto. intros [|(-> & E & _)]; auto. congruence.
          + split; auto. intros a f. split; auto. intros [|(-> & E & Ea)]; auto. congruence.
        - split; auto. intros a f. split; auto. intros [|(-> & E & Ea)]; auto. congruence. }
      destruct (IH (F d x) G1) as [H1 H2]. split; auto. intros a f. rewrite H2, G2. cbn [In]. intuition congruence. }
    destruct (G (to_set fs) []) as [H1 H2].
    - split; [constructor|]. intros a. cbn. discriminate.
    - split; auto. intros a f. rewrite H2, to_set_in. unfold under. cbn [get]. cbn [In]. tauto.
  Qed.
  Lemma get_in {A} a (d : list (nat * A)) s : get a d = Some s -> In (a, s) d.
  Proof. induction d as [|[b t] d IH]; cbn; [discriminate|]. destruct (Nat.eqb_spec a b) as [->|]; intros H; [injection H as ->; auto|auto]. Qed.
  Lemma in_get {A} a (d : list (nat * A)) s : NoDup (map fst d) -> In (a, s) d -> get a d = Some s.
  Proof.
    induction d as [|[b t] d IH]; cbn; [contradiction|]. intros N. inversion N as [|? ? N1 N2]; subst. intros [E|I].
    - injection E as -> ->. rewrite Nat.eqb_refl. auto.
    - destruct (Nat.eqb_spec a b) as [->|]; auto. exfalso. apply N1. change b with (fst (b, s)). apply in_map; auto.
  Qed.
End Dict.

(** ** The store *)
Lemma write_length h r s : length (write h r s) = length h.
Proof. revert r. induction h as [|x h IH]; intros [|r]; cbn; auto. Qed.
Lemma read_write h r s r' : r < length h -> read (write h r s) r' = if Nat.eqb r' r then s else read h r'.
Proof.
  unfold read. revert r r'. induction h as [|x h IH]; intros [|r] [|r'] L; cbn in *; auto; try lia. apply IH. lia.
Qed.
Lemma read_app h k r : r < length h -> read (h ++ k) r = read h r.
Proof. intros. unfold read. apply app_nth1. auto. Qed.

Section Histories.
  Variable W : world.
  Variable attributes : list str.
  Hypothesis N : well_named W attributes.

  Lemma lookup_in items s r : NoDup (map fst items) -> In (s, r) items -> lookup s items = Some r.
  Proof.
    induction items as [|[t q] items IH]; cbn; [contradiction|]. intros Nd. inversion Nd as [|? ? N1 N2]; subst. intros [E|I].
    - injection E as -> ->. rewrite str_eqb_refl. auto.
    - destruct (str_eqb s t) eqn:E; auto. apply str_eqb_eq in E. subst. exfalso. apply N1. change t with (fst (t, r)). apply in_map; auto.
  Qed.
  Lemma lookup_some items s r : lookup s items = Some r -> In (s, r) items.
  Proof.
    induction items as [|[t q] items IH]; cbn; [discriminate|]. destruct (str_eqb s t) eqn:E; intros H; auto. apply str_eqb_eq in E. injection H as ->. subst. auto.
  Qed.

  Definition value_for (n_a : bool) (d : list (nat * list nat)) (a : nat) : list nat :=
    match get a d with Some s => to_set s | None => [default_value W n_a a] end.
  Lemma add_aspects_eq n_a d : forall as_ items h,
    NoDup (map (aspect_alias W) as_) -> (forall a, In a as_ -> ~ In (aspect_alias W a) (attributes ++ map fst items)) ->
    add_aspects W attributes n_a d as_ items h =
      (items ++ combine (map (aspect_alias W) as_) (seq (length h) (length as_)), h ++ map (value_for n_a d) as_).
  Proof.
    induction as_ as [|a as_ IH]; intros items h Nd Hn; cbn [add_aspects map length seq combine]; [rewrite !app_nil_r; auto|].
    fold (value_for n_a d a). assert (has_name (aspect_alias W a) (attributes ++ map fst items) = false) as -> by (apply has_name_false; apply Hn; left; auto).
    cbn [map] in Nd. inversion Nd as [|? ? N1 N2]; subst. rewrite IH; auto.
    - rewrite <- !app_assoc. cbn [app]. rewrite app_length. cbn [length]. rewrite Nat.add_1_r. auto.
    - intros b Ib. rewrite map_app, in_app_iff, in_app_iff. cbn [map fst In]. intros [H|[H|[H|[]]]].
      + apply (Hn b); [right; auto|]. apply in_app_iff. auto.
      + apply (Hn b); [right; auto|]. apply in_app_iff. auto.
      + apply N1. rewrite H. apply in_map; auto.
  Qed.
  Definition refs (p : profile) : list nat := map snd (p_items p).
  Definition good_profile (h : list (list nat)) (p : profile) : Prop :=
    map fst (p_items p) = map (aspect_alias W) (aspects W (p_inventory p)) /\ NoDup (refs p) /\ forall r, In r (refs p) -> r < length h.

  Lemma combine_fst {A B} (l : list A) (k : list B) : length l = length k -> map fst (combine l k) = l.
  Proof. revert k. induction l as [|x l IH]; intros [|y k] L; cbn in *; auto; try lia. rewrite IH; auto. Qed.
  Lemma combine_snd {A B} (l : list A) (k : list B) : length l = length k -> map snd (combine l k) = k.
  Proof. revert k. induction l as [|x l IH]; intros [|y k] L; cbn in *; auto; try lia. rewrite IH; auto. Qed.
  Lemma new_profile_spec n_a inv fs h p h' : new_profile W attributes n_a inv fs h = (p, h') ->
    p_inventory p = inv /\ good_profile h' p /\ h' = h ++ map (value_for n_a (aspect_dict W inv fs)) (aspects W inv) /\
    refs p = seq (length h) (length (aspects W inv)) /\
    (forall a, In a (aspects W inv) -> profile_get W p a h' = value_for n_a (aspect_dict W inv fs) a).
  Proof.
    intros E. unfold new_profile in E. destruct N as [_ N2]. destruct (N2 inv) as [Nd Ha].
    rewrite add_aspects_eq in E; auto; [|intros a Ia; rewrite app_nil_r; apply (Ha a Ia)]. injection E as <- <-. cbn [p_inventory p_items app].
    assert (length (map (aspect_alias W) (aspects W inv)) = length (seq (length h) (length (aspects W inv)))) as L by (rewrite map_length, seq_length; auto).
    split; auto. split; [split; [|split]|split; [|split]]; unfold refs; cbn [p_items p_inventory app].
    - apply combine_fst; auto.
    - rewrite combine_snd; auto. apply seq_NoDup.
    - rewrite combine_snd; auto. intros r Ir. apply in_seq in Ir. rewrite app_length, map_length. lia.
    - auto.
    - apply combine_snd; auto.
    - intros a Ia. unfold profile_get. cbn [p_items]. apply In_nth_error in Ia. destruct Ia as [k Hk].
      assert (k < length (aspects W inv)) as Lk by (apply nth_error_Some; congruence).
      assert (lookup (aspect_alias W a) (combine (map (aspect_alias W) (aspects W inv)) (seq (length h) (length (aspects W inv)))) = Some (length h + k)) as ->.
      { apply lookup_in; [rewrite combine_fst; auto|]. apply nth_error_In with k.
        assert (forall {A B} (l : list A) (m : list B) n x y, nth_error l n = Some x -> nth_error m n = Some y -> nth_error (combine l m) n = Some (x, y)) as Cn.
        { clear. intros A B. induction l as [|u l IH]; intros [|w m] [|n] x y H1 H2; cbn in *; try discriminate; auto. congruence. }
        apply Cn; [rewrite nth_error_map, Hk; auto|]. rewrite nth_error_nth' with (d := 0) by (rewrite seq_length; auto). rewrite seq_nth; auto. }
      unfold read. rewrite app_nth2 by lia. replace (length h + k - length h) with k by lia.
      rewrite nth_indep with (d' := value_for n_a (aspect_dict W inv fs) 0) by (rewrite map_length; auto). rewrite map_nth. f_equal.
      apply nth_error_nth; auto.
  Qed.

  (** Keys of the grouping are aspects of the inventory. *)
  Lemma dict_key inv fs a s : get a (aspect_dict W inv fs) = Some s -> In a (aspects W inv) /\ s <> [].
  Proof.
    intros E. destruct (aspect_dict_spec W inv fs) as [[_ G] I]. destruct s as [|f s]; [exfalso; apply (G a); auto|]. split; [|discriminate].
    destruct (I a f) as [I1 _]. destruct I1 as (_ & Ef & Ei); [unfold under; rewrite E; left; auto|]. destruct N as [N1 _]. specialize (N1 f a Ef). rewrite Ei in N1. auto.
  Qed.
  (** The value set made for an aspect *)
  Definition good_value (a : nat) (s : list nat) : Prop := NoDup s /\ s <> [] /\ forall f, In f s -> aspect_of W f = Some a.
  Lemma filter_of_aspect a fs f : In f (filter (of_aspect W a) fs) <-> In f fs /\ aspect_of W f = Some a.
  Proof.
    rewrite filter_In. unfold of_aspect. destruct (aspect_of W f) as [b|]; [rewrite Nat.eqb_eq|]; intuition congruence.
  Qed.
  Lemma dict_choose inv fs a old : In a (aspects W inv) ->
    match get a (aspect_dict W inv fs) with
    | Some s => same_set (to_set s) (choose W fs old a) /\ good_value a (to_set s)
    | None => choose W fs old a = old a
    end.
  Proof.
    intros Ia. destruct (aspect_dict_spec W inv fs) as [[_ G] I]. destruct N as [_ N2]. destruct (N2 inv) as [_ Ha]. destruct (Ha a Ia) as (Ei & _).
    destruct (get a (aspect_dict W inv fs)) as [s|] eqn:Eg.
    - assert (forall f, In f s <-> In f fs /\ aspect_of W f = Some a) as Is.
      { intros f. specialize (I a f). unfold under in I. rewrite Eg in I. rewrite I. intuition. }
      assert (forall f, In f s <-> In f (filter (of_aspect W a) fs)) as Is2 by (intros f; rewrite Is, filter_of_aspect; tauto).
      destruct (dict_key inv fs a s Eg) as [_ Ns]. destruct s as [|f0 s]; [contradiction Ns; auto|].
      assert (In f0 (filter (of_aspect W a) fs)) as I0 by (apply Is2; left; auto).
      assert (choose W fs old a = filter (of_aspect W a) fs) as -> by (unfold choose; destruct (filter (of_aspect W a) fs); [contradiction|auto]).
      split; [intros f; rewrite to_set_in; apply Is2|]. split; [apply to_set_nodup|]. split.
      + intros E. assert (In f0 (to_set (f0 :: s))) as X by (apply to_set_in; left; auto). rewrite E in X. contradiction.
      + intros f If. apply (proj1 (to_set_in _ f)) in If. apply Is in If. tauto.
    - unfold choose. destruct (filter (of_aspect W a) fs) as [|f l] eqn:Ef; auto. exfalso. assert (In f (filter (of_aspect W a) fs)) as X by (rewrite Ef; left; auto).
      apply filter_of_aspect in X. destruct (I a f) as [_ I2]. unfold under in I2. rewrite Eg in I2. apply I2. tauto.
  Qed.
  Lemma default_good n_a inv a : In a (aspects W inv) -> good_value a [default_value W n_a a].
  Proof.
    intros Ia. destruct N as [_ N2]. destruct (N2 inv) as [_ Ha]. destruct (Ha a Ia) as (_ & _ & H1 & H2).
    split; [constructor; [intros []|constructor]|]. split; [discriminate|]. intros f [<-|[]]. unfold default_value. destruct n_a; auto.
  Qed.

  (** ** The invariant *)
  Definition separate (h : list (list nat)) (ps : list profile) : Prop :=
    NoDup (flat_map refs ps) /\ forall r, In r (flat_map refs ps) -> r < length h.
  Definition matches (s : state) (qs : list plain_profile) : Prop :=
    separate (store s) (profiles s) /\ Forall2 (represents W (store s)) (profiles s) qs.

  Lemma alias_inj inv a b : In a (aspects W inv) -> In b (aspects W inv) -> aspect_alias W a = aspect_alias W b -> a = b.
  Proof. intros Ia Ib E. destruct N as [_ N2]. destruct (N2 inv) as [Nd _]. eapply NoDup_map_inj; eauto. Qed.
  Lemma profile_ref p a : map fst (p_items p) = map (aspect_alias W) (aspects W (p_inventory p)) -> In a (aspects W (p_inventory p)) ->
    exists r, lookup (aspect_alias W a) (p_items p) = Some r /\ In r (refs p).
  Proof.
    intros E Ia. assert (In (aspect_alias W a) (map fst (p_items p))) as I by (rewrite E; apply in_map; auto).
    apply in_map_iff in I. destruct I as ([s r] & Es & I). cbn in Es. subst s. exists r. split.
    - apply lookup_in; auto. rewrite E. destruct N as [_ N2]. apply N2.
    - unfold refs. change r with (snd (aspect_alias W a, r)). apply in_map; auto.
  Qed.
  Lemma represents_store h h' p q : (forall r, In r (refs p) -> read h' r = read h r) -> represents W h p q -> represents W h' p q.
  Proof.
    intros H (E1 & E2 & R). split; auto. split; auto. intros a Ia. specialize (R a Ia). cbv zeta in *.
    assert (profile_get W p a h' = profile_get W p a h) as ->; auto.
    destruct (profile_ref p a) as (r & El & Ir); [rewrite E1; auto|rewrite E1; auto|]. unfold profile_get. rewrite El. auto.
  Qed.
  Lemma flat_in_refs ps p r : In p ps -> In r (refs p) -> In r (flat_map refs ps).
  Proof. intros. apply in_flat_map. eauto. Qed.
  Lemma NoDup_app_disjoint {A} (l k : list A) : NoDup l -> NoDup k -> (forall x, In x l -> ~ In x k) -> NoDup (l ++ k).
  Proof.
    intros Nl Nk D. induction l as [|x l IH]; cbn; auto. inversion Nl; subst. constructor.
    - rewrite in_app_iff. intros [|]; auto. apply (D x); [left|]; auto.
    - apply IH; auto. intros y Iy. apply D. right. auto.
  Qed.

  Lemma add_profile_matches n_a inv fs s qs p h' m : matches s qs -> new_profile W attributes n_a inv fs (store s) = (p, h') ->
    (forall a, In a (aspects W inv) -> same_set (value_for n_a (aspect_dict W inv fs) a) (m a)) ->
    matches (State (profiles s ++ [p]) h') (qs ++ [(inv, m)]).
  Proof.
    intros [[Sd Sl] R] En Hm. destruct (new_profile_spec _ _ _ _ _ _ En) as (Ei & (G1 & G2 & G3) & Eh & Er & Gv). split; cbn [profiles store].
    - split.
      + rewrite flat_map_app. cbn [flat_map]. rewrite app_nil_r. apply NoDup_app_disjoint; auto. intros r Ir I2. specialize (Sl r Ir). rewrite Er in I2. apply in_seq in I2. lia.
      + intros r. rewrite flat_map_app, in_app_iff. cbn [flat_map]. rewrite app_nil_r. intros [I|I]; auto. specialize (Sl r I). rewrite Eh, app_length. lia.
    - apply Forall2_app.
      + assert (forall p', In p' (profiles s) -> forall q, represents W (store s) p' q -> represents W h' p' q) as K.
        { intros p' Ip q. apply represents_store. intros r Ir. rewrite Eh. apply read_app. apply Sl. eapply flat_in_refs; eauto. }
        clear - R K. induction R as [|p' q' ps qs' H R IH]; constructor; auto; [apply K; [left|]; auto|apply IH; intros; apply K; [right|]; auto].
      + constructor; [|constructor]. split; auto. cbn [fst snd]. split; [rewrite <- Ei; auto|]. intros a Ia. cbv zeta. rewrite (Gv a Ia). split; [apply Hm; auto|].
        unfold value_for. pose proof (dict_choose inv fs a (fun _ => []) Ia) as H. destruct (get a (aspect_dict W inv fs)); [apply H|apply (default_good n_a inv a Ia)].
  Qed.

  (** Updates *)
  Lemma update_reads p : good_profile [] p \/ True -> map fst (p_items p) = map (aspect_alias W) (aspects W (p_inventory p)) -> NoDup (refs p) ->
    forall d h, NoDup (map fst d) -> (forall a, In a (map fst d) -> In a (aspects W (p_inventory p))) -> (forall r, In r (refs p) -> r < length h) ->
    let h' := fold_left (fun h e => match lookup (aspect_alias W (fst e)) (p_items p) with Some r => write h r (to_set (snd e)) | None => h end) d h in
    length h' = length h /\
    (forall r, ~ In r (refs p) -> read h' r = read h r) /\
    (forall a, In a (aspects W (p_inventory p)) -> profile_get W p a h' = match get a d with Some s => to_set s | None => profile_get W p a h end).
  Proof.
    intros _ E1 Nr. induction d as [|[b s] d IH]; intros h Nd Hk Hl; [cbn; auto|]. cbn [fold_left fst snd]. cbn [map fst] in Nd, Hk. inversion Nd as [|? ? Nd1 Nd2]; subst.
    assert (In b (aspects W (p_inventory p))) as Ib by (apply Hk; left; auto). destruct (profile_ref p b E1 Ib) as (r & Er & Ir). rewrite Er.
    destruct (IH (write h r (to_set s))) as (L & O & V); auto.
    { intros a Ia. apply Hk. right. auto. } { intros r' I'. rewrite write_length. auto. }
    cbv zeta in *. rewrite write_length in L. split; auto. split.
    - intros r' N'. rewrite O; auto. rewrite read_write by auto. destruct (Nat.eqb_spec r' r) as [->|]; auto. contradiction.
    - intros a Ia. rewrite (V a Ia). cbn [get]. destruct (profile_ref p a E1 Ia) as (ra & Era & Ira). destruct (Nat.eqb_spec a b) as [->|Nab].
      + assert (get b d = None) as ->.
        { destruct (get b d) eqn:Eg; auto. exfalso. apply Nd1. apply get_in in Eg. change b with (fst (b, l)). apply in_map; auto. }
        unfold profile_get. rewrite Er. rewrite read_write by auto. rewrite Nat.eqb_refl. auto.
      + destruct (get a d); auto. unfold profile_get. rewrite Era. rewrite read_write by auto. destruct (Nat.eqb_spec ra r) as [->|]; auto. exfalso. apply Nab.
        apply alias_inj with (p_inventory p); auto. apply lookup_some in Er. apply lookup_some in Era.
        assert (forall (l : list (str * nat)) x y r0, NoDup (map snd l) -> In (x, r0) l -> In (y, r0) l -> x = y) as U.
        { clear. induction l as [|[z q] l IHl]; intros x y r0 Nd Ix Iy; [contradiction|]. cbn in *. inversion Nd as [|? ? H1 H2]; subst.
          destruct Ix as [Ex|Ix], Iy as [Ey|Iy].
          - congruence.
          - injection Ex as -> ->. exfalso. apply H1. change r0 with (snd (y, r0)). apply in_map; auto.
          - injection Ey as -> ->. exfalso. apply H1. change r0 with (snd (x, r0)). apply in_map; auto.
          - eauto. }
        eapply U; eauto.
  Qed.
  Lemma update_spec p fs h : map fst (p_items p) = map (aspect_alias W) (aspects W (p_inventory p)) -> NoDup (refs p) -> (forall r, In r (refs p) -> r < length h) ->
    let h' := update_profile W p fs h in
    length h' = length h /\ (forall r, ~ In r (refs p) -> read h' r = read h r) /\
    (forall a, In a (aspects W (p_inventory p)) ->
       profile_get W p a h' = match get a (aspect_dict W (p_inventory p) fs) with Some s => to_set s | None => profile_get W p a h end).
  Proof.
    intros E Nr L. apply update_reads; auto.
    - apply aspect_dict_spec.
    - intros a Ia. apply in_map_iff in Ia. destruct Ia as ([b s] & <- & I). cbn [fst]. destruct (aspect_dict_spec W (p_inventory p) fs) as [[Nd _] _].
      apply (in_get b _ s Nd) in I. apply dict_key in I. tauto.
  Qed.

  Lemma Forall2_nth {A B} (R : A -> B -> Prop) l k i : Forall2 R l k ->
    match nth_error l i, nth_error k i with Some x, Some y => R x y | None, None => True | _, _ => False end.
  Proof. intros F. revert i. induction F as [|x y l k H F IH]; intros [|i]; cbn; auto. apply IH. Qed.
  Lemma NoDup_parts (ps : list profile) : NoDup (flat_map refs ps) ->
    forall i j p q r, nth_error ps i = Some p -> nth_error ps j = Some q -> In r (refs p) -> In r (refs q) -> i = j.
  Proof. intros Nd i j p q r. apply (NoDup_flat refs ps Nd). Qed.
  Lemma NoDup_part (ps : list profile) p : NoDup (flat_map refs ps) -> In p ps -> NoDup (refs p).
  Proof. apply NoDup_flat_item. Qed.

  Lemma update_matches s qs i p fs m inv : matches s qs -> nth_error (profiles s) i = Some p -> nth_error qs i = Some (inv, m) ->
    matches (State (profiles s) (update_profile W p fs (store s))) (replace_nth i (inv, choose W fs m) qs).
  Proof.
    intros [[Sd Sl] R] Ep Eq. pose proof (Forall2_nth _ _ _ i R) as Rp. rewrite Ep, Eq in Rp. destruct Rp as (E1 & E2 & V). cbn [fst snd] in *.
    assert (In p (profiles s)) as Ip by (eapply nth_error_In; eauto).
    destruct (update_spec p fs (store s)) as (L & O & U).
    { rewrite E1. auto. } { eapply NoDup_part; eauto. } { intros r Ir. apply Sl. eapply flat_in_refs; eauto. }
    cbv zeta in *. split; cbn [profiles store].
    - split; auto. intros r Ir. rewrite L. auto.
    - assert (represents W (update_profile W p fs (store s)) p (inv, choose W fs m)) as Rnew.
      { split; auto. split; auto. cbn [fst snd]. intros a Ia. cbv zeta. rewrite <- E1 in Ia. rewrite (U a Ia). pose proof (dict_choose (p_inventory p) fs a m Ia) as H.
        destruct (get a (aspect_dict W (p_inventory p) fs)); [exact H|]. rewrite H. apply V. rewrite <- E1. auto. }
      assert (forall j p', nth_error (profiles s) j = Some p' -> j <> i -> forall q, represents W (store s) p' q -> represents W (update_profile W p fs (store s)) p' q) as K.
      { intros j p' Ej Nj q. apply represents_store. intros r Ir. apply O. intros Ir'. apply Nj. eapply NoDup_parts; eauto. }
      clear - R Ep Rnew K. revert i Ep K. induction R as [|p' q' ps qs' H R IH]; intros i Ep K; [destruct i; discriminate|]. destruct i as [|i]; cbn [replace_nth nth_error] in *.
      + injection Ep as ->. constructor; auto. clear - R K. assert (forall j p', nth_error ps j = Some p' -> forall q, represents W (store s) p' q -> represents W (update_profile W p fs (store s)) p' q) as K' by (intros j p' Ej; apply (K (S j) p'); [auto|lia]).
        clear K. induction R as [|x y l k H R IH]; constructor; [apply (K' 0 x); auto|]. apply IH. intros j p' Ej. apply (K' (S j) p'). auto.
      + constructor; [apply (K 0 p'); auto|]. apply IH; auto. intros j p'' Ej Nj. apply (K (S j) p''); auto.
  Qed.

  Lemma copy_values p q h a : represents W h p q -> In a (aspects W (fst q)) ->
    same_set (value_for false (aspect_dict W (p_inventory p) (features_of p h)) a) (snd q a).
  Proof.
    intros (E1 & E2 & V) Ia. assert (In a (aspects W (p_inventory p))) as Ia' by (rewrite E1; auto).
    assert (forall b, In b (aspects W (fst q)) -> forall f, In f (profile_get W p b h) -> aspect_of W f = Some b) as Asp by (intros b Ib; apply (V b Ib)).
    assert (forall f, In f (features_of p h) /\ aspect_of W f = Some a <-> In f (profile_get W p a h)) as F.
    { intros f. unfold features_of. rewrite in_flat_map. destruct (profile_ref p a) as (r & Er & Ir); [rewrite E1; auto|auto|]. split.
      - intros [([s r'] & I & If) Ea]. cbn [snd] in If. assert (In s (map fst (p_items p))) as Is by (change s with (fst (s, r')); apply in_map; auto).
        rewrite E2 in Is. apply in_map_iff in Is. destruct Is as (b & <- & Ib).
        assert (lookup (aspect_alias W b) (p_items p) = Some r') as Eb.
        { apply lookup_in; auto. rewrite E2. destruct N as [_ N2]. apply N2. }
        assert (aspect_of W f = Some b) as Efb by (apply (Asp b Ib); unfold profile_get; rewrite Eb; auto).
        assert (a = b) by congruence. subst b. unfold profile_get. rewrite Eb. auto.
      - intros If. split; [|apply (Asp a Ia); auto]. exists (aspect_alias W a, r). split; [apply lookup_some; auto|]. cbn [snd]. unfold profile_get in If. rewrite Er in If. auto. }
    destruct (V a Ia) as (Sv & _ & Nv & _). cbv zeta in *. unfold value_for.
    pose proof (dict_choose (p_inventory p) (features_of p h) a (fun _ => []) Ia') as H. destruct (get a (aspect_dict W (p_inventory p) (features_of p h))) as [s|].
    - destruct H as [H _]. intros f. rewrite (H f), <- (Sv f), <- F. unfold choose.
      destruct (filter (of_aspect W a) (features_of p h)) as [|f0 l] eqn:Ef.
      + split; [contradiction|]. intros X. apply (filter_of_aspect a) in X. rewrite Ef in X. contradiction.
      + rewrite <- filter_of_aspect, Ef. tauto.
    - exfalso. destruct (profile_get W p a h) as [|f l] eqn:Eg; [contradiction Nv; auto|]. assert (In f (features_of p h) /\ aspect_of W f = Some a) as X by (apply F; left; auto).
      apply filter_of_aspect in X. unfold choose in H. destruct (filter (of_aspect W a) (features_of p h)); [contradiction|discriminate].
  Qed.

  Theorem step_matches s qs o : matches s qs ->
    match run_op W attributes s o, plain_op W qs o with
    | Some s', Some qs' => matches s' qs'
    | None, None => True
    | _, _ => False
    end.
  Proof.
    intros M. destruct o as [n_a inv fs|i fs|i]; cbn [run_op plain_op].
    - destruct (new_profile W attributes n_a inv fs (store s)) as [p h'] eqn:En. eapply add_profile_matches; eauto.
      intros a Ia. unfold value_for, default_value. pose proof (dict_choose inv fs a (fun a => [if n_a then na_of W a else any_of W a]) Ia) as H. destruct (get a (aspect_dict W inv fs)); [apply H|]. rewrite H. intros f; tauto.
    - pose proof M as [_ R]. pose proof (Forall2_nth _ _ _ i R) as Rp. destruct (nth_error (profiles s) i) as [p|] eqn:Ep, (nth_error qs i) as [[inv m]|] eqn:Eq; try contradiction; auto.
      apply update_matches; auto.
    - pose proof M as [_ R]. pose proof (Forall2_nth _ _ _ i R) as Rp. destruct (nth_error (profiles s) i) as [p|] eqn:Ep, (nth_error qs i) as [[inv m]|] eqn:Eq; try contradiction; auto.
      unfold copy_profile. destruct (new_profile W attributes false (p_inventory p) (features_of p (store s)) (store s)) as [q h'] eqn:En.
      pose proof Rp as (E1 & _). cbn [fst] in E1. rewrite <- E1. eapply add_profile_matches; eauto. intros a Ia. apply (copy_values p (inv, m)); auto. cbn [fst]. rewrite <- E1. auto.
  Qed.
  Theorem run_matches os : forall s qs, matches s qs ->
    match run_ops W attributes s os, plain_ops W qs os with
    | Some s', Some qs' => matches s' qs'
    | None, None => True
    | _, _ => False
    end.
  Proof.
    induction os as [|o os IH]; intros s qs M; cbn [run_ops plain_ops]; auto. pose proof (step_matches s qs o M) as H.
    destruct (run_op W attributes s o) as [s1|], (plain_op W qs o) as [q1|]; try contradiction; auto. apply IH. auto.
  Qed.
  Lemma matches_nil : matches (State [] []) [].
  Proof. split; [split; [constructor|intros r []]|constructor]. Qed.
End Histories.
