From Verif Require Import Base FeatureModel FeatureSpec.

Section ValueInd.
  Variable P : value -> Prop.
  Hypothesis leaf : forall f, P (Leaf f).
  Hypothesis vlist : forall l t step items, Forall P items -> P (VList l t step items).
  Fixpoint value_ind2 (v : value) : P v :=
    match v with
    | Leaf f => leaf f
    | VList l t step items => vlist l t step items
        ((fix go (is : list value) : Forall P is :=
            match is with [] => Forall_nil P | i :: is' => Forall_cons i (value_ind2 i) (go is') end) items)
    end.
End ValueInd.

(** ** Maps *)
Lemma get_put {A} k k' (a : A) m : get k (put k' a m) = if Nat.eqb k k' then Some a else get k m.
Proof.
  induction m as [|[x b] m IH]; simpl; [destruct (Nat.eqb k k'); auto|].
  destruct (Nat.eqb_spec k' x) as [->|N]; simpl.
  - destruct (Nat.eqb k x); auto.
  - rewrite IH. destruct (Nat.eqb_spec k x) as [->|]; auto. destruct (Nat.eqb_spec x k') as [->|]; auto. congruence.
Qed.
Lemma has_spec f l : has f l = true <-> In f l.
Proof.
  unfold has. rewrite existsb_exists. split; [intros (x & I & E); apply Nat.eqb_eq in E; subst; auto|intros I; exists f; split; auto; apply Nat.eqb_refl].
Qed.
Lemma has_name_spec s l : has_name s l = true <-> In s l.
Proof.
  unfold has_name. rewrite existsb_exists. split; [intros (x & I & E); apply str_eqb_eq in E; subst; auto|intros I; exists s; split; auto; apply str_eqb_refl].
Qed.
Lemma has_false f l : has f l = false <-> ~ In f l.
Proof. rewrite <- has_spec. destruct (has f l); split; intros; try discriminate; auto. exfalso; auto. Qed.
Lemma has_name_false s l : has_name s l = false <-> ~ In s l.
Proof. rewrite <- has_name_spec. destruct (has_name s l); split; intros; try discriminate; auto. exfalso; auto. Qed.

Section Populate.
  Variables alias list_alias : nat -> str.
  (** ** Populating is a sequence of simple steps *)
  Inductive cmd := Name (s : str) | Add (f : nat) | Rec (f g : nat) (d : Z).
  Definition exec (c : cmd) (a : aspect) : option aspect :=
    match c with
    | Name s => Some (add_suppl s a)
    | Add f => Some (if has f (items_of a) then a else add_feature alias f a)
    | Rec f g d => add_distance alias f g d a
    end.
  Definition step (o : option aspect) (c : cmd) : option aspect := then_ o (exec c).

  Lemma feature_add_cmds f v d : forall a, feature_add_distance alias f v d a = fold_left step (map (fun g => Rec f g d) (leaves v)) a.
  Proof.
    induction v as [g|l t s items IH] using value_ind2; intros a; [reflexivity|]. cbn [feature_add_distance leaves].
    revert a. induction IH as [|v items Hv IH IHi]; intros a; [reflexivity|]. cbn [fold_left flat_map]. rewrite IHi, Hv.
    rewrite map_app, fold_left_app. auto.
  Qed.
  Lemma value_add_cmds v w d : forall a, value_add_distance alias v w d a =
    fold_left step (flat_map (fun f => map (fun g => Rec f g d) (leaves w)) (leaves v)) a.
  Proof.
    induction v as [g|l t s items IH] using value_ind2; intros a.
    - cbn [value_add_distance leaves flat_map]. rewrite feature_add_cmds, app_nil_r. auto.
    - cbn [value_add_distance leaves]. revert a. induction IH as [|v items Hv IH IHi]; intros a; [reflexivity|]. cbn [fold_left flat_map].
      rewrite IHi, Hv. rewrite flat_map_app, fold_left_app. auto.
  Qed.

  Lemma nth_app_mid {A} (pre : list A) x post : nth_error (pre ++ x :: post) (length pre) = Some x.
  Proof. rewrite nth_error_app2, Nat.sub_diag; auto. Qed.
  Lemma NoDup_flat {A B} (f : A -> list B) items : NoDup (flat_map f items) ->
    forall i j v w x, nth_error items i = Some v -> nth_error items j = Some w -> In x (f v) -> In x (f w) -> i = j.
  Proof.
    induction items as [|u items IH]; intros N i j v w x Hi Hj Iv Iw; [destruct i; discriminate|]. cbn [flat_map] in N.
    assert (forall k y z, nth_error items k = Some y -> In z (f y) -> In z (flat_map f items)) as G.
    { intros k y z Hk Iz. apply in_flat_map. exists y. split; auto. eapply nth_error_In; eauto. }
    assert (forall z, In z (f u) -> In z (flat_map f items) -> False) as D.
    { clear - N. induction (f u) as [|b l IHl]; intros z Iz Iz'; [contradiction|]. cbn in N. inversion N as [|? ? H1 H2]; subst.
      destruct Iz as [->|Iz]; [apply H1; apply in_app_iff; auto|eapply IHl; eauto]. }
    destruct i as [|i], j as [|j]; cbn [nth_error] in *; auto.
    - injection Hi as <-. exfalso. eapply D; eauto.
    - injection Hj as <-. exfalso. eapply D; eauto.
    - f_equal. eapply IH; eauto. clear - N. induction (f u); auto. inversion N; auto.
  Qed.
  Lemma NoDup_flat_item {A B} (f : A -> list B) items v : NoDup (flat_map f items) -> In v items -> NoDup (f v).
  Proof.
    intros N I. induction items as [|u items IH]; [contradiction|]. cbn [flat_map] in N. destruct I as [->|I].
    - revert N. generalize (flat_map f items). intros r. generalize (f v). intros l N. induction l as [|x l IHl]; [constructor|].
      cbn in N. inversion N as [|? ? H1 H2]; subst. constructor; [|auto]. intros I. apply H1. apply in_app_iff. auto.
    - apply IH; auto. clear - N. induction (f u); auto. inversion N; auto.
  Qed.
  Lemma distinct_item l t s items v : distinct (VList l t s items) -> In v items -> distinct v.
  Proof.
    intros [L R] I. cbn [leaves lists] in *. inversion R; subst. split; eapply NoDup_flat_item; eauto.
  Qed.
  Lemma same_position l t s items i j v w : distinct (VList l t s items) -> nth_error items i = Some v -> nth_error items j = Some w ->
    same_value v w = true -> i = j.
  Proof.
    intros [L R] Hi Hj E. cbn [leaves lists] in *. inversion R as [|? ? _ R']; subst. destruct v as [f|lv tv sv iv], w as [g|lw tw sw iw]; cbn [same_value] in E; try discriminate; apply Nat.eqb_eq in E; subst.
    - eapply (NoDup_flat leaves); eauto; cbn; auto.
    - eapply (NoDup_flat lists); eauto; cbn; auto.
  Qed.
  Lemma same_refl v : same_value v v = true.
  Proof. destruct v; cbn; apply Nat.eqb_refl. Qed.
  Lemma index_found l t s items i v : distinct (VList l t s items) -> nth_error items i = Some v -> index_of v items = Some i.
  Proof.
    intros D. assert (forall pre rest k, items = pre ++ rest -> nth_error rest k = Some v -> index_of v rest = Some k) as G.
    { intros pre rest k. revert pre k. induction rest as [|w rest IH]; intros pre k E H; [destruct k; discriminate|]. cbn [index_of].
      destruct k as [|k].
      - cbn in H. injection H as ->. rewrite same_refl. auto.
      - cbn in H. destruct (same_value v w) eqn:Ev.
        + exfalso. assert (length pre + S k = length pre) as X; [|lia]. eapply same_position; eauto; rewrite E.
          * rewrite nth_error_app2 by lia. replace (length pre + S k - length pre) with (S k) by lia. exact H.
          * apply nth_app_mid.
        + rewrite (IH (pre ++ [w]) k); auto. rewrite <- app_assoc. auto. }
    apply (G []); auto.
  Qed.
  Lemma distance_steps l t s items i j v w : distinct (VList l t s items) -> nth_error items i = Some v -> nth_error items j = Some w -> i < j ->
    list_distance t s items v w = (Z.of_nat (steps t (length items) (position_gap i j)) * s)%Z.
  Proof.
    intros D Hi Hj L. unfold list_distance. rewrite (index_found _ _ _ _ _ _ D Hi), (index_found _ _ _ _ _ _ D Hj).
    assert (j < length items) by (apply nth_error_Some; congruence). unfold position_gap. destruct t; cbn [steps]; [lia| |]; f_equal; lia.
  Qed.

  (** The steps for a value. *)
  Definition steps_for (v : value) (cs : list cmd) : Prop :=
    (forall a, populate alias list_alias v a = fold_left step cs a) /\
    (forall f g d, In (Rec f g d) cs -> apart v f g d) /\
    (forall f g d, apart v f g d -> In (Rec f g d) cs \/ In (Rec g f d) cs) /\
    (forall s, In (Name s) cs -> In s (map list_alias (lists v))) /\
    (forall f, In (Add f) cs <-> In f (leaves v)).
  Lemma gap_sym i j : position_gap i j = position_gap j i.
  Proof. unfold position_gap. lia. Qed.
  Lemma populate_steps v : distinct v -> exists cs, steps_for v cs.
  Proof.
    induction v as [f|l t s items IH] using value_ind2; intros D.
    - exists [Add f]. split; [reflexivity|]. split; [intros ? ? ? [H|[]]; discriminate|]. split; [intros ? ? ? H; inversion H|].
      split; [intros ? [H|[]]; discriminate|]. intros g. cbn. split; intros [H|[]]; left; congruence.
    - assert (forall rest pre, items = pre ++ rest -> exists cs,
        (forall a, (fix loop (rest : list value) (a : option aspect) : option aspect :=
           match rest with
           | [] => a
           | item :: rest' =>
             loop rest' (fold_left (fun a item2 => value_add_distance alias item item2 (list_distance t s items item item2) a)
                           rest' (populate alias list_alias item a))
           end) rest a = fold_left step cs a) /\
        (forall f g d, In (Rec f g d) cs -> apart (VList l t s items) f g d) /\
        (forall v f g d, In v rest -> apart v f g d -> In (Rec f g d) cs \/ In (Rec g f d) cs) /\
        (forall i j v w f g, length pre <= i -> i < j -> nth_error items i = Some v -> nth_error items j = Some w -> In f (leaves v) -> In g (leaves w) ->
           In (Rec f g (Z.of_nat (steps t (length items) (position_gap i j)) * s)) cs) /\
        (forall x, In (Name x) cs -> In x (map list_alias (flat_map lists items))) /\
        (forall f, In (Add f) cs <-> In f (flat_map leaves rest))) as G.
      { induction rest as [|item rest IHr]; intros pre E.
        - exists []. split; [reflexivity|]. split; [intros ? ? ? []|]. split; [intros ? ? ? ? []|]. split.
          + intros i j v w f g Hi L Hv. rewrite E, app_nil_r in Hv. assert (i < length pre) by (apply nth_error_Some; congruence). lia.
          + split; [intros ? []|]. intros f. reflexivity.
        - destruct (IHr (pre ++ [item])) as (cs2 & E2 & A2 & B2 & C2 & N2 & L2); [rewrite <- app_assoc; auto|].
          assert (In item items) as Ii by (rewrite E; apply in_app_iff; simpl; auto).
          rewrite Forall_forall in IH. destruct (IH item Ii (distinct_item _ _ _ _ _ D Ii)) as (cs1 & E1 & A1 & B1 & N1 & L1).
          set (mid := flat_map (fun item2 => flat_map (fun f => map (fun g => Rec f g (list_distance t s items item item2)) (leaves item2)) (leaves item)) rest).
          exists (cs1 ++ mid ++ cs2). split; [|split; [|split; [|split; [|split]]]].
          + intros a. rewrite E2, !fold_left_app. f_equal. rewrite <- E1. unfold mid. generalize (populate alias list_alias item a). clear.
            intros a. revert a. assert (forall r a, fold_left (fun a item2 => value_add_distance alias item item2 (list_distance t s items item item2) a) r a =
              fold_left step (flat_map (fun item2 => flat_map (fun f => map (fun g => Rec f g (list_distance t s items item item2)) (leaves item2)) (leaves item)) r) a) as H.
            { induction r as [|x r IHr]; intros a; [reflexivity|]. cbn [fold_left flat_map]. rewrite fold_left_app, IHr, value_add_cmds. auto. }
            apply H.
          + intros f g d I. rewrite !in_app_iff in I. destruct I as [I|[I|I]]; auto.
            * apply apart_below with item; auto.
            * unfold mid in I. apply in_flat_map in I. destruct I as (w & Iw & I). apply in_flat_map in I. destruct I as (x & Ix & I).
              apply in_map_iff in I. destruct I as (y & Ey & Iy). injection Ey as -> -> <-. apply In_nth_error in Iw. destruct Iw as (k & Hk).
              assert (nth_error items (length pre + S k) = Some w) as Hw.
              { rewrite E, nth_error_app2 by lia. replace (length pre + S k - length pre) with (S k) by lia. exact Hk. }
              assert (nth_error items (length pre) = Some item) as Hi by (rewrite E; apply nth_app_mid).
              rewrite (distance_steps _ _ _ _ _ _ _ _ D Hi Hw) by lia. eapply apart_here; eauto. lia.
          + intros v f g d [<-|Iv] Ha; rewrite !in_app_iff.
            * destruct (B1 f g d Ha); auto.
            * destruct (B2 v f g d Iv Ha); auto.
          + intros i j v w f g Hi L Hv Hw If Ig. rewrite !in_app_iff. destruct (Nat.eq_dec i (length pre)) as [->|N].
            * right. left. assert (v = item) by (rewrite E, nth_app_mid in Hv; congruence). subst v. unfold mid. apply in_flat_map. exists w. split.
              -- rewrite E, nth_error_app2 in Hw by lia. destruct (j - length pre) as [|k] eqn:Ek; [lia|]. cbn in Hw. eapply nth_error_In; eauto.
              -- apply in_flat_map. exists f. split; auto. apply in_map_iff. exists g. split; auto. f_equal.
                 apply (distance_steps l t s items); auto.
            * right. right. apply (C2 i j v w); auto. rewrite app_length. cbn [length]. lia.
          + intros x I. rewrite !in_app_iff in I. destruct I as [I|[I|I]]; auto.
            * apply N1 in I. apply in_map_iff in I. destruct I as (k & <- & Ik). apply in_map. apply in_flat_map. eauto.
            * exfalso. unfold mid in I. apply in_flat_map in I. destruct I as (w & Iw & I). apply in_flat_map in I. destruct I as (x' & Ix & I).
              apply in_map_iff in I. destruct I as (y & Ey & Iy). discriminate.
          + intros f. cbn [flat_map]. rewrite !in_app_iff, L1, L2. split; [|tauto]. intros [I|[I|I]]; auto.
            exfalso. unfold mid in I. apply in_flat_map in I. destruct I as (w & Iw & I). apply in_flat_map in I. destruct I as (x' & Ix & I).
            apply in_map_iff in I. destruct I as (y & Ey & Iy). discriminate. }
      destruct (G items [] eq_refl) as (cs & E & A & B & C & N & L). exists (Name (list_alias l) :: cs). split; [|split; [|split; [|split]]].
      + intros a. cbn [populate fold_left]. apply E.
      + intros f g d [H|I]; [discriminate|auto].
      + intros f g d H. inversion H as [? ? ? ? i j v w ? ? Hi Hj Nij If Ig|? ? ? ? v ? ? ? Iv Ha]; subst.
        * destruct (Nat.lt_trichotomy i j) as [Lt|[Eq|Lt]]; [|contradiction|].
          -- left. right. apply (C i j v w); auto. cbn. lia.
          -- right. right. rewrite gap_sym. apply (C j i w v); auto. cbn. lia.
        * destruct (B v f g d Iv Ha); [left|right]; right; auto.
      + intros x [H|I]; [injection H as <-; cbn; auto|]. cbn. right. auto.
      + intros f. cbn [In leaves]. rewrite <- L. split; [intros [H|H]; [discriminate|auto]|auto].
  Qed.

  (** ** Running the steps *)
  Variable U : list nat.
  Hypothesis alias_inj : forall f g, In f U -> In g U -> alias f = alias g -> f = g.
  Definition good (a : aspect) : Prop :=
    NoDup (items_of a) /\ incl (items_of a) U /\ (forall f, In f U -> In (alias f) (names a) -> In f (items_of a)) /\
    (forall f, get f (dict a) <> None <-> In f (items_of a)).
  Definition entry (a : aspect) (f g : nat) : option Z := match get f (dict a) with Some m => get g m | None => None end.
  Definition usable (c : cmd) : Prop :=
    match c with
    | Name s => forall f, In f U -> alias f <> s
    | Add f => In f U
    | Rec f g _ => In f U /\ In g U
    end.
  Definition pair_of (f g x y : nat) : bool := (Nat.eqb x f && Nat.eqb y g) || (Nat.eqb x g && Nat.eqb y f).

  Lemma ensure_spec f a : good a -> In f U -> good (ensure alias f a) /\
    (forall x y, entry (ensure alias f a) x y = entry a x y) /\
    (forall x, In x (items_of (ensure alias f a)) <-> x = f \/ In x (items_of a)) /\ max_dist (ensure alias f a) = max_dist a.
  Proof.
    intros (N & I & A & K) Hf. unfold ensure. destruct (has f (items_of a)) eqn:H.
    - apply has_spec in H. split; [split; auto|]. split; auto. split; auto. intros x. split; auto. intros [->|]; auto.
    - apply has_false in H. unfold add_feature. assert (has f (items_of a) = false) as -> by (apply has_false; auto).
      assert (has_name (alias f) (names a) = false) as -> by (apply has_name_false; intros Hn; apply H, A; auto). cbn [orb].
      assert (forall x, In x (items_of a ++ [f]) <-> x = f \/ In x (items_of a)) as Ii.
      { intros x. rewrite in_app_iff. cbn. split; intros [|]; auto. destruct H0 as [->|[]]; auto. }
      cbn [items_of max_dist]. split; [split; [|split; [|split]]|split; [|split]]; cbn [items_of names dict]; auto.
      + clear - N H. induction (items_of a) as [|y l IH]; cbn; [repeat constructor; auto|].
        inversion N; subst. constructor; [|apply IH; auto; intros X; apply H; right; auto].
        rewrite in_app_iff. cbn. intros [X|[X|[]]]; auto. subst. apply H. left. auto.
      + intros x Hx. apply Ii in Hx. destruct Hx as [->|]; auto.
      + intros g Hg Hn. apply Ii. apply in_app_iff in Hn. destruct Hn as [Hn|[Hn|[]]]; auto.
      + intros x. rewrite get_put. destruct (Nat.eqb_spec x f) as [->|Nx]; [split; [intros _; apply Ii; auto|discriminate]|].
        rewrite K, Ii. split; auto. intros [|]; [contradiction|auto].
      + intros x y. unfold entry. cbn [dict]. rewrite get_put. destruct (Nat.eqb_spec x f) as [->|]; auto.
        destruct (get f (dict a)) eqn:E; auto. exfalso. apply H, K. congruence.
  Qed.

  Lemma exec_spec c a : good a -> usable c -> exists a', exec c a = Some a' /\ good a' /\
    (forall x y, entry a' x y = match c with Rec f g d => if pair_of f g x y then Some d else entry a x y | _ => entry a x y end) /\
    (forall x, In x (items_of a') <-> In x (items_of a) \/ match c with Name _ => False | Add f => x = f | Rec f g _ => x = f \/ x = g end) /\
    max_dist a' = match c with Rec _ _ d => Z.max (max_dist a) d | _ => max_dist a end.
  Proof.
    intros G Hu. destruct c as [s|f|f g d]; cbn [exec usable] in *.
    - exists (add_suppl s a). split; auto. unfold add_suppl. destruct (has_name s (names a)); [split; auto; split; auto; split; auto; tauto|].
      destruct G as (N & I & A & K). split; [split; [|split; [|split]]; cbn [items_of names dict]; auto|].
      + intros f Hf Hn. apply in_app_iff in Hn. destruct Hn as [|[Hn|[]]]; auto. exfalso. apply (Hu f Hf). auto.
      + split; auto. split; auto. cbn. tauto.
    - exists (ensure alias f a). split; auto. destruct (ensure_spec f a G Hu) as (G1 & E1 & I1 & M1). split; auto. split; auto. split; auto.
      intros x. rewrite I1. tauto.
    - destruct Hu as [Hf Hg]. destruct (ensure_spec f a G Hf) as (G1 & E1 & I1 & M1). destruct (ensure_spec g _ G1 Hg) as (G2 & E2 & I2 & M2).
      unfold add_distance. set (b := ensure alias g (ensure alias f a)) in *. destruct G2 as (N & I & A & K).
      assert (In f (items_of b)) as If by (apply I2; right; apply I1; auto). assert (In g (items_of b)) as Ig by (apply I2; auto).
      unfold set_distance. destruct (get f (dict b)) as [e|] eqn:Ef; [|apply K in If; congruence].
      rewrite get_put. destruct (Nat.eqb_spec g f) as [->|Nfg].
      + eexists. split; [reflexivity|]. split; [split; [|split; [|split]]; cbn [items_of names dict]; auto|split; [|split]].
        * intros x. rewrite !get_put. destruct (Nat.eqb_spec x f) as [->|]; [split; [auto|discriminate]|auto].
        * intros x y. rewrite <- E1, <- E2. unfold entry, pair_of. cbn [dict]. rewrite !get_put. destruct (Nat.eqb_spec x f) as [->|Nx]; cbn [andb orb].
          -- rewrite !get_put. destruct (Nat.eqb_spec y f) as [->|]; auto. rewrite Ef. auto.
          -- reflexivity.
        * intros x. cbn [items_of]. rewrite I2, I1. tauto.
        * cbn [max_dist]. rewrite <- M1, <- M2. fold b. rewrite Z.gtb_ltb. destruct (Z.ltb_spec (max_dist b) d); lia.
      + destruct (get g (dict b)) as [e'|] eqn:Eg; [|apply K in Ig; congruence]. eexists. split; [reflexivity|].
        split; [split; [|split; [|split]]; cbn [items_of names dict]; auto|split; [|split]].
        * intros x. rewrite !get_put. destruct (Nat.eqb_spec x g) as [->|]; [split; [auto|discriminate]|].
          destruct (Nat.eqb_spec x f) as [->|]; [split; [auto|discriminate]|auto].
        * intros x y. rewrite <- E1, <- E2. unfold entry, pair_of. cbn [dict]. rewrite !get_put.
          destruct (Nat.eqb_spec x g) as [->|Nx].
          -- destruct (Nat.eqb_spec g f); [contradiction|]. cbn [andb orb]. rewrite get_put. destruct (Nat.eqb y f); auto. rewrite Eg. auto.
          -- cbn [andb]. rewrite orb_false_r. destruct (Nat.eqb_spec x f) as [->|]; cbn [andb]; auto. rewrite get_put. rewrite Ef. auto.
        * intros x. cbn [items_of]. rewrite I2, I1. tauto.
        * cbn [max_dist]. rewrite <- M1, <- M2. fold b. rewrite Z.gtb_ltb. destruct (Z.ltb_spec (max_dist b) d); lia.
  Qed.

  Lemma run_steps cs : forall a, good a -> Forall usable cs -> exists a', fold_left step cs (Some a) = Some a' /\ good a' /\
    (forall x y d, (forall f g e, In (Rec f g e) cs -> pair_of f g x y = true -> e = d) ->
       (exists f g, In (Rec f g d) cs /\ pair_of f g x y = true) -> entry a' x y = Some d) /\
    (forall x y, (forall f g e, In (Rec f g e) cs -> pair_of f g x y = false) -> entry a' x y = entry a x y) /\
    (forall x, In x (items_of a') <-> In x (items_of a) \/ exists c, In c cs /\ match c with Name _ => False | Add f => x = f | Rec f g _ => x = f \/ x = g end) /\
    (max_dist a <= max_dist a')%Z /\ (forall f g d, In (Rec f g d) cs -> (d <= max_dist a')%Z) /\
    (max_dist a' = max_dist a \/ exists f g, In (Rec f g (max_dist a')) cs).
  Proof.
    induction cs as [|c cs IH]; intros a G Hu.
    - exists a. split; auto. split; auto. split; [intros x y d _ (f & g & [] & _)|]. split; auto. split.
      + intros x. split; auto. intros [|(c & [] & _)]; auto.
      + split; [lia|]. split; [intros ? ? ? []|auto].
    - inversion Hu as [|? ? Hc Hcs]; subst. destruct (exec_spec c a G Hc) as (a1 & E1 & G1 & En1 & I1 & M1).
      destruct (IH a1 G1 Hcs) as (a' & E' & G' & R' & S' & I' & L' & B' & X'). exists a'. cbn [fold_left]. unfold step at 2. cbn [then_]. rewrite E1.
      split; auto. split; auto. split; [|split; [|split; [|split; [|split]]]].
      + intros x y d Hall (f & g & [Hc'|I] & P).
        * subst c. destruct (forallb (fun c => match c with Rec f g e => negb (pair_of f g x y) | _ => true end) cs) eqn:Fb.
          -- rewrite S'; [rewrite En1, P; auto|]. intros f' g' e I. rewrite forallb_forall in Fb. apply Fb in I. apply negb_true_iff in I. auto.
          -- assert (exists c, In c cs /\ match c with Rec f g e => pair_of f g x y = true | _ => False end) as (c & Ic & Hc2).
             { clear - Fb. induction cs as [|c cs IH]; [discriminate|]. cbn in Fb. apply andb_false_iff in Fb. destruct Fb as [Fb|Fb].
               - exists c. split; [left; auto|]. destruct c; try discriminate. apply negb_false_iff in Fb. auto.
               - destruct (IH Fb) as (c' & I & H). exists c'. split; [right|]; auto. }
             destruct c as [|f'|f' g' e]; try contradiction. assert (e = d) as -> by (eapply Hall; [right; eauto|auto]).
             apply R'; eauto. intros; eapply Hall; eauto. right; eauto.
        * apply R'; eauto. intros; eapply Hall; eauto. right; eauto.
      + intros x y Hn. rewrite S'; [|intros; eapply Hn; right; eauto]. rewrite En1. destruct c as [| |f g d]; auto.
        rewrite (Hn f g d); auto. left. auto.
      + intros x. rewrite I', I1. split.
        * intros [[H|H]|(c' & Ic & H)]; auto; right; [exists c; split; [left; auto|]; destruct c; auto|exists c'; split; [right; auto|auto]].
        * intros [H|(c' & [<-|Ic] & H)]; [left; left; auto|left; right; destruct c; auto|right; eauto].
      + rewrite M1 in L'. destruct c; lia.
      + intros f g d [->|I]; [|eapply B'; eauto]. rewrite M1 in L'. lia.
      + destruct X' as [X|(f & g & I)]; [|right; exists f, g; right; auto]. rewrite M1 in X. destruct c as [| |f g d]; auto.
        destruct (Z.max_spec (max_dist a) d) as [[_ Em]|[_ Em]]; rewrite Em in X; [|auto]. right. exists f, g. left. rewrite X. auto.
  Qed.
End Populate.

(** ** Distances in a tree *)
Lemma apart_leaves v : forall f g d, apart v f g d -> In f (leaves v) /\ In g (leaves v).
Proof.
  induction v as [f|l t s items IH] using value_ind2; intros x y d H; inversion H as [? ? ? ? i j v w ? ? Hi Hj N If Ig|? ? ? ? v ? ? ? Iv Ha]; subst.
  - cbn [leaves]. split; apply in_flat_map; [exists v|exists w]; split; auto; eapply nth_error_In; eauto.
  - rewrite Forall_forall in IH. destruct (IH v Iv x y d Ha). cbn [leaves]. split; apply in_flat_map; eauto.
Qed.
Lemma apart_sym v f g d : apart v f g d -> apart v g f d.
Proof.
  induction 1 as [l t s items i j v w f g Hi Hj N If Ig|l t s items v f g d Iv Ha IH].
  - rewrite gap_sym. eapply apart_here; eauto.
  - eapply apart_below; eauto.
Qed.
Lemma apart_neq v : distinct v -> forall f g d, apart v f g d -> f <> g.
Proof.
  intros D f g d H. revert D. induction H as [l t s items i j v w f g Hi Hj N If Ig|l t s items v f g d Iv Ha IH]; intros D.
  - intros ->. apply N. destruct D as [L _]. exact (NoDup_flat leaves items L i j v w g Hi Hj If Ig).
  - apply IH. eapply distinct_item; eauto.
Qed.
Lemma apart_unique v : distinct v -> forall f g d e, apart v f g d -> apart v f g e -> d = e.
Proof.
  intros D f g d e H. revert e D. induction H as [l t s items i j v w f g Hi Hj N If Ig|l t s items v f g d Iv Ha IH]; intros e D H2;
    inversion H2 as [? ? ? ? i' j' v' w' ? ? Hi' Hj' N' If' Ig'|? ? ? ? v' ? ? ? Iv' Ha']; subst; pose proof D as [L _]; cbn [leaves] in L.
  - rewrite (NoDup_flat leaves items L i i' v v' f Hi Hi' If If'), (NoDup_flat leaves items L j j' w w' g Hj Hj' Ig Ig'). auto.
  - exfalso. apply N. apply In_nth_error in Iv'. destruct Iv' as [k Hk]. destruct (apart_leaves _ _ _ _ Ha') as [A B].
    rewrite (NoDup_flat leaves items L i k v v' f Hi Hk If A), (NoDup_flat leaves items L j k w v' g Hj Hk Ig B). auto.
  - exfalso. apply N'. apply In_nth_error in Iv. destruct Iv as [k Hk]. destruct (apart_leaves _ _ _ _ Ha) as [A B].
    rewrite (NoDup_flat leaves items L i' k v' v f Hi' Hk If' A), (NoDup_flat leaves items L j' k w' v g Hj' Hk Ig' B). auto.
  - apply In_nth_error in Iv. destruct Iv as [k Hk]. apply In_nth_error in Iv'. destruct Iv' as [k' Hk'].
    destruct (apart_leaves _ _ _ _ Ha) as [A _]. destruct (apart_leaves _ _ _ _ Ha') as [A' _].
    assert (k = k') as -> by exact (NoDup_flat leaves items L k k' v v' f Hk Hk' A A'). assert (v = v') as -> by congruence.
    apply IH; auto. eapply distinct_item; eauto. eapply nth_error_In; eauto.
Qed.
Lemma apart_exists v : forall f g, In f (leaves v) -> In g (leaves v) -> f <> g -> exists d, apart v f g d.
Proof.
  induction v as [f|l t s items IH] using value_ind2; intros x y Hx Hy N; cbn [leaves] in *.
  - exfalso. destruct Hx as [<-|[]], Hy as [<-|[]]. auto.
  - apply in_flat_map in Hx. destruct Hx as (v & Iv & Hx). apply in_flat_map in Hy. destruct Hy as (w & Iw & Hy).
    apply In_nth_error in Iv. destruct Iv as [i Hi]. apply In_nth_error in Iw. destruct Iw as [j Hj].
    destruct (Nat.eq_dec i j) as [->|Nij].
    + assert (v = w) as -> by congruence. apply nth_error_In in Hj. rewrite Forall_forall in IH. destruct (IH w Hj x y Hx Hy N) as [d Hd].
      exists d. eapply apart_below; eauto.
    + exists (Z.of_nat (steps t (length items) (position_gap i j)) * s)%Z. apply (apart_here l t s items i j v w x y); auto.
Qed.
Lemma NoDup_map_inj {A B} (f : A -> B) l : NoDup (map f l) -> forall x y, In x l -> In y l -> f x = f y -> x = y.
Proof.
  induction l as [|a l IH]; intros N x y Hx Hy E; [contradiction|]. cbn in N. inversion N as [|? ? H1 H2]; subst.
  destruct Hx as [->|Hx], Hy as [->|Hy]; auto.
  - exfalso. apply H1. rewrite E. apply in_map; auto.
  - exfalso. apply H1. rewrite <- E. apply in_map; auto.
Qed.

Section Result.
  Variables alias list_alias : nat -> str.
  Variable attributes : list str.
  Variable v : value.
  Hypothesis D : distinct v.
  Hypothesis A : good_aliases alias list_alias attributes v.

  Theorem populated_spec : exists a, populated alias list_alias attributes v = Some a /\
    NoDup (items_of a) /\ (forall f, In f (items_of a) <-> In f (leaves v)) /\
    (forall f g d, apart v f g d -> entry a f g = Some d) /\
    (forall f g, In f (leaves v) -> ~ In g (leaves v) -> entry a f g = None) /\
    (forall f, get f (dict a) <> None <-> In f (leaves v)) /\
    (forall f g, f = g -> entry a f g = None) /\
    widest v (max_dist a).
  Proof.
    destruct (populate_steps alias list_alias v D) as (cs & E & Ra & Rb & Na & La).
    destruct A as [Ai An].
    assert (good alias (leaves v) (Aspect [] attributes [] 0%Z)) as G0.
    { split; [constructor|]. split; [intros x []|]. split.
      - intros x Hx Hn. exfalso. destruct (An x Hx) as [N1 _]. exact (N1 Hn).
      - intros x. cbn. split; [intros X; contradiction X; auto|intros []]. }
    assert (Forall (usable alias (leaves v)) cs) as Hu.
    { apply Forall_forall. intros c Ic. destruct c as [s|f|f g d]; cbn [usable].
      - intros f Hf Es. apply (An f Hf). rewrite Es. apply Na. auto.
      - apply La. auto.
      - apply Ra in Ic. apply apart_leaves in Ic. auto. }
    destruct (run_steps alias list_alias (leaves v) (NoDup_map_inj alias (leaves v) Ai) cs _ G0 Hu)
      as (a & Ea & (Nd & Inc & _ & K) & R & Sx & Iax & Lx & Bx & Xx).
    assert (forall f, In f (items_of a) <-> In f (leaves v)) as Items.
    { intros f. split; [apply Inc|]. intros Hf. apply Iax. right. exists (Add f). split; auto. apply La. auto. }
    assert (forall f g x y, pair_of f g x y = true -> (x = f /\ y = g) \/ (x = g /\ y = f)) as P.
    { intros f g x y H. unfold pair_of in H. apply orb_true_iff in H. rewrite !andb_true_iff, !Nat.eqb_eq in H. auto. }
    exists a. split; [unfold populated; rewrite E; exact Ea|]. split; auto. split; auto. split; [|split; [|split; [|split]]].
    - intros f g d H. apply R.
      + intros f' g' e I Hp. apply Ra in I. destruct (P _ _ _ _ Hp) as [[-> ->]|[-> ->]].
        * eapply apart_unique; eauto.
        * eapply apart_unique; [exact D|apply apart_sym; exact I|exact H].
      + destruct (Rb f g d H) as [I|I]; [exists f, g|exists g, f]; split; auto; unfold pair_of; rewrite !Nat.eqb_refl; cbn; auto using orb_true_r.
    - intros f g Hf Hg. rewrite Sx; [reflexivity|]. intros f' g' e I. destruct (pair_of f' g' f g) eqn:Hp; auto. exfalso.
      apply Ra in I. apply apart_leaves in I. destruct (P _ _ _ _ Hp) as [[-> ->]|[-> ->]]; tauto.
    - intros f. rewrite K. apply Items.
    - intros f g <-. rewrite Sx; [reflexivity|]. intros f' g' e I. destruct (pair_of f' g' f f) eqn:Hp; auto. exfalso.
      apply Ra in I. apply (apart_neq v D f' g' e I). destruct (P _ _ _ _ Hp) as [[? ?]|[? ?]]; congruence.
    - cbn [max_dist] in Lx, Xx. split; [auto|]. split.
      + intros f g d H. destruct (Rb f g d H) as [I|I]; eapply Bx; eauto.
      + destruct Xx as [|(f & g & I)]; auto. right. exists f, g. apply Ra. auto.
  Qed.
End Result.
