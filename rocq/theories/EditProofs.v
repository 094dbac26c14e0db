From Verif Require Import Base ErrorRateSpec.

(** ** Edit scripts *)
Section Scripts.
  Context {A : Type}.
  Implicit Types r t u : list A.

  Lemma script_lengths r t s i d : script r t s i d -> length r + i = length t + d.
  Proof. induction 1; simpl; lia. Qed.
  Lemma script_sym r t s i d : script r t s i d -> script t r s d i.
  Proof.
    induction 1; [apply script_nil|apply script_keep|apply script_sub|apply script_del|apply script_ins]; auto.
  Qed.
  Lemma script_refl r : script r r 0 0 0.
  Proof. induction r; [apply script_nil|apply script_keep; auto]. Qed.
  Lemma script_zero r t s i d : script r t s i d -> s + i + d = 0 -> r = t.
  Proof. induction 1; intros E; try lia; [reflexivity|]. f_equal; auto. Qed.
  Lemma script_all r t : exists s i d, script r t s i d.
  Proof.
    exists 0, (length t), (length r). revert t. induction r as [|a r IH]; intros t.
    - induction t as [|b t IH]; [apply script_nil|apply script_ins; auto].
    - simpl. apply script_del; auto.
  Qed.

  Lemma script_compose r t s i d : script r t s i d -> forall u s' i' d', script t u s' i' d' ->
    exists s2 i2 d2, script r u s2 i2 d2 /\ s2 + i2 + d2 <= (s + i + d) + (s' + i' + d').
  Proof.
    induction 1 as [|a r t s i d H IH|a b r t s i d N H IH|b r t s i d H IH|a r t s i d H IH]; intros u s' i' d' H2.
    - exists s', i', d'. split; auto; lia.
    - remember (a :: t) as at_ eqn:E. revert a r t s i d H IH E.
      induction H2 as [|x t' u s' i' d' H2 IH2|x y t' u s' i' d' N H2 IH2|y t' u s' i' d' H2 IH2|x t' u s' i' d' H2 IH2];
        intros a r t s i d H IH E; try discriminate.
      + injection E as -> ->. destruct (IH _ _ _ _ H2) as (s2 & i2 & d2 & S2 & L). exists s2, i2, d2. split; auto. apply script_keep; auto.
      + injection E as -> ->. destruct (IH _ _ _ _ H2) as (s2 & i2 & d2 & S2 & L). exists (S s2), i2, d2. split; [apply script_sub; auto|lia].
      + destruct (IH2 a r t s i d H IH E) as (s2 & i2 & d2 & S2 & L). exists s2, (S i2), d2. split; [apply script_ins; auto|lia].
      + injection E as -> ->. destruct (IH _ _ _ _ H2) as (s2 & i2 & d2 & S2 & L). exists s2, i2, (S d2). split; [apply script_del; auto|lia].
    - remember (b :: t) as bt eqn:E. revert a b r t s i d N H IH E.
      induction H2 as [|x t' u s' i' d' H2 IH2|x y t' u s' i' d' N2 H2 IH2|y t' u s' i' d' H2 IH2|x t' u s' i' d' H2 IH2];
        intros a b r t s i d N H IH E; try discriminate.
      + injection E as -> ->. destruct (IH _ _ _ _ H2) as (s2 & i2 & d2 & S2 & L). exists (S s2), i2, d2. split; [apply script_sub; auto|lia].
      + injection E as -> ->. destruct (IH _ _ _ _ H2) as (s2 & i2 & d2 & S2 & L).
        (* deleting a and inserting y costs no more than two substitutions *)
        exists s2, (S i2), (S d2). split; [apply script_del, script_ins; auto|lia].
      + destruct (IH2 a b r t s i d N H IH E) as (s2 & i2 & d2 & S2 & L). exists s2, (S i2), d2. split; [apply script_ins; auto|lia].
      + injection E as -> ->. destruct (IH _ _ _ _ H2) as (s2 & i2 & d2 & S2 & L). exists s2, i2, (S d2). split; [apply script_del; auto|lia].
    - remember (b :: t) as bt eqn:E. revert b r t s i d H IH E.
      induction H2 as [|x t' u s' i' d' H2 IH2|x y t' u s' i' d' N2 H2 IH2|y t' u s' i' d' H2 IH2|x t' u s' i' d' H2 IH2];
        intros b r t s i d H IH E; try discriminate.
      + injection E as -> ->. destruct (IH _ _ _ _ H2) as (s2 & i2 & d2 & S2 & L). exists s2, (S i2), d2. split; [apply script_ins; auto|lia].
      + injection E as -> ->. destruct (IH _ _ _ _ H2) as (s2 & i2 & d2 & S2 & L). exists s2, (S i2), d2. split; [apply script_ins; auto|lia].
      + destruct (IH2 b r t s i d H IH E) as (s2 & i2 & d2 & S2 & L). exists s2, (S i2), d2. split; [apply script_ins; auto|lia].
      + injection E as -> ->. destruct (IH _ _ _ _ H2) as (s2 & i2 & d2 & S2 & L). exists s2, i2, d2. split; [auto|lia].
    - destruct (IH _ _ _ _ H2) as (s2 & i2 & d2 & S2 & L). exists s2, i2, (S d2). split; [apply script_del; auto|lia].
  Qed.

  Lemma distance_unique r t m n : distance r t m -> distance r t n -> m = n.
  Proof.
    intros [(s & i & d & H & ->) L] [(s' & i' & d' & H' & ->) L'].
    specialize (L _ _ _ H'). specialize (L' _ _ _ H). lia.
  Qed.
  Lemma distance_zero r t : distance r t 0 <-> r = t.
  Proof.
    split.
    - intros [(s & i & d & H & E) _]. eapply script_zero; eauto.
    - intros ->. split; [|intros; lia]. exists 0, 0, 0. split; auto. apply script_refl.
  Qed.
  Lemma distance_sym r t n : distance r t n -> distance t r n.
  Proof.
    intros [(s & i & d & H & ->) L]. split.
    - exists s, d, i. split; [apply script_sym; auto|lia].
    - intros s' i' d' H'. apply script_sym in H'. specialize (L _ _ _ H'). lia.
  Qed.
  Lemma distance_triangle r t u a b c : distance r t a -> distance t u b -> distance r u c -> c <= a + b.
  Proof.
    intros [(s & i & d & H & ->) _] [(s' & i' & d' & H' & ->) _] [_ L].
    destruct (script_compose _ _ _ _ _ H _ _ _ _ H') as (s2 & i2 & d2 & S2 & L2). specialize (L _ _ _ S2). lia.
  Qed.
End Scripts.

(** Scripts transfer along a one-to-one relation. *)
Lemma script_rel {A B} (R : A -> B -> Prop) (r t : list A) s i d :
  script r t s i d -> forall r' t', Forall2 R r r' -> Forall2 R t t' ->
  (forall a b x y, In a r -> In b t -> R a x -> R b y -> (a = b <-> x = y)) -> script r' t' s i d.
Proof.
  intros H. induction H as [|a r t s i d H IH|a b r t s i d N H IH|b r t s i d H IH|a r t s i d H IH];
    intros r' t' Fr Ft U.
  - inversion Fr; inversion Ft; subst. apply script_nil.
  - inversion Fr as [|? x ? xs Hx Fr']; inversion Ft as [|? y ? ys Hy Ft']; subst.
    assert (x = y) as -> by (eapply U; eauto; left; auto). apply script_keep. apply IH; auto.
    intros; apply U; auto; right; auto.
  - inversion Fr as [|? x ? xs Hx Fr']; inversion Ft as [|? y ? ys Hy Ft']; subst.
    apply script_sub.
    + intros E. apply N. eapply U; eauto; left; auto.
    + apply IH; auto. intros; apply U; auto; right; auto.
  - inversion Ft as [|? y ? ys Hy Ft']; subst. apply script_ins. apply IH; auto.
    intros; apply U; auto; right; auto.
  - inversion Fr as [|? x ? xs Hx Fr']; subst. apply script_del. apply IH; auto.
    intros; apply U; auto; right; auto.
Qed.
