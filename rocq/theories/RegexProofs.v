(** The matcher accepts exactly the strings of the expression. *)
From Verif Require Import Base RegexModel.

Lemma cat_inv a b s : matches (Cat a b) s <-> exists x y, s = x ++ y /\ matches a x /\ matches b y.
Proof.
  split.
  - intros H. inversion H; subst. eauto.
  - intros (x & y & -> & H1 & H2). constructor; auto.
Qed.

Lemma alt_inv a b s : matches (Alt a b) s <-> matches a s \/ matches b s.
Proof.
  split; [intros H; inversion H; auto|intros [H|H]; [apply m_alt_l|apply m_alt_r]; auto].
Qed.

Lemma strs_inv l s : matches (Strs l) s <-> In s l.
Proof. split; [intros H; inversion H; auto|apply m_strs]. Qed.

Lemma ques_inv a s : matches (Ques a) s <-> s = [] \/ matches a s.
Proof.
  split; [intros H; inversion H; auto|intros [->|H]; [apply m_ques_none|apply m_ques_some]; auto].
Qed.

Lemma star_inv a s : matches (Star a) s <-> exists l, Forall (matches a) l /\ s = concat l.
Proof.
  split.
  - intros H. remember (Star a) as r eqn:E. induction H; inversion E; subst.
    + exists []. auto.
    + destruct IHmatches2 as (l & Hl & ->); auto. exists (s :: l). auto.
  - intros (l & Hl & ->). induction Hl; simpl; constructor; auto.
Qed.

Lemma nullable_spec r : nullable r = true <-> matches r [].
Proof.
  induction r as [l|a IHa b IHb|a IHa b IHb|a IHa|a IHa]; simpl.
  - rewrite strs_inv, existsb_exists. split.
    + intros (x & Hx & H). destruct x; [auto|discriminate].
    + intros H. exists []; auto.
  - rewrite andb_true_iff, IHa, IHb, cat_inv. split.
    + intros [H1 H2]. exists [], []; auto.
    + intros (x & y & E & H1 & H2). symmetry in E. apply app_eq_nil in E as [-> ->]. auto.
  - rewrite orb_true_iff, IHa, IHb, alt_inv. tauto.
  - split; auto. intros _. constructor.
  - split; auto. intros _. constructor.
Qed.

Lemma tails_spec c l s : In s (tails c l) <-> In (c :: s) l.
Proof.
  induction l as [|[|d t] l IH]; simpl.
  - tauto.
  - rewrite IH. split; [auto|intros [H|H]; [discriminate|auto]].
  - destruct (N.eqb_spec d c) as [->|Hn]; simpl; rewrite IH.
    + split; (intros [H|H]; [left; congruence|auto]).
    + split; [auto|]. intros [H|H]; [congruence|auto].
Qed.

Lemma null_re_spec r s : null_re r = true -> ~ matches r s.
Proof. destruct r as [[|]| | | |]; try discriminate. intros _ H. inversion H; auto. Qed.

Lemma smart_cat a b s : matches (cat a b) s <-> matches (Cat a b) s.
Proof.
  unfold cat. destruct (null_re a) eqn:E; [|tauto]. rewrite strs_inv, cat_inv. split; [intros []|].
  intros (x & y & _ & H & _). apply (null_re_spec a x E H).
Qed.

Lemma smart_alt a b s : matches (alt a b) s <-> matches (Alt a b) s.
Proof.
  unfold alt. destruct (null_re a) eqn:Ea.
  - rewrite alt_inv. split; auto. intros [H|H]; auto. exfalso. apply (null_re_spec a s Ea H).
  - destruct (null_re b) eqn:Eb; [|tauto]. rewrite alt_inv. split; auto.
    intros [H|H]; auto. exfalso. apply (null_re_spec b s Eb H).
Qed.

Lemma star_cons_inv a c s : matches (Star a) (c :: s) ->
  exists x y, s = x ++ y /\ matches a (c :: x) /\ matches (Star a) y.
Proof.
  rewrite star_inv. intros (l & Hl & E). revert E. induction Hl as [|x l Hx Hl IH]; [discriminate|].
  destruct x as [|d x]; simpl; intros E; [auto|]. inversion E; subst.
  exists x, (concat l). split; auto. split; auto. apply star_inv. eauto.
Qed.

Lemma deriv_spec c r : forall s, matches (deriv c r) s <-> matches r (c :: s).
Proof.
  induction r as [l|a IHa b IHb|a IHa b IHb|a IHa|a IHa]; intros s; cbn [deriv].
  - rewrite !strs_inv. apply tails_spec.
  - assert (H1 : matches (cat (deriv c a) b) s <->
                 exists x y, s = x ++ y /\ matches a (c :: x) /\ matches b y).
    { rewrite smart_cat, cat_inv. split; intros (x & y & E & Hx & Hy); exists x, y;
        (split; [auto|split; [apply IHa; auto|auto]]). }
    assert (H2 : matches (Cat a b) (c :: s) <->
                 (exists x y, s = x ++ y /\ matches a (c :: x) /\ matches b y) \/
                 (matches a [] /\ matches b (c :: s))).
    { rewrite cat_inv. split.
      - intros ([|d x] & y & E & Hx & Hy); simpl in E; [subst; auto|].
        inversion E; subst. left. eauto.
      - intros [(x & y & -> & Hx & Hy)|[Hx Hy]]; [exists (c :: x), y|exists [], (c :: s)]; auto. }
    rewrite H2. destruct (nullable a) eqn:En.
    + apply nullable_spec in En. rewrite smart_alt, alt_inv, H1, IHb. tauto.
    + rewrite H1. assert (~ matches a []) by (intros H; apply nullable_spec in H; congruence). tauto.
  - rewrite smart_alt, !alt_inv, IHa, IHb. tauto.
  - rewrite IHa, ques_inv. split; auto. intros [H|H]; [discriminate|auto].
  - rewrite smart_cat, cat_inv. split.
    + intros (x & y & -> & Hx & Hy). apply IHa in Hx.
      apply (m_star_cons a (c :: x) y); auto.
    + intros H. apply star_cons_inv in H as (x & y & -> & Hx & Hy). exists x, y.
      split; auto. split; auto. apply IHa; auto.
Qed.

Lemma accepts_spec s : forall r, accepts r s = true <-> matches r s.
Proof.
  induction s as [|c s IH]; intros r; simpl.
  - apply nullable_spec.
  - rewrite IH. apply deriv_spec.
Qed.

Lemma no_start_empty r : no_start r = true -> forall s, ~ matches r s.
Proof.
  induction r as [l|a IHa b IHb|a IHa b IHb|a IHa|a IHa]; simpl; intros H s; try discriminate.
  - destruct l; [|discriminate]. rewrite strs_inv. auto.
  - rewrite cat_inv. intros (x & y & _ & Hx & _). apply (IHa H x Hx).
  - apply andb_true_iff in H as [H1 H2]. rewrite alt_inv. intros [Hx|Hx].
    + apply (IHa H1 s Hx).
    + apply (IHb H2 s Hx).
Qed.

Lemma ques_safe_spec r s : matches (ques_safe r) s <-> s = [] \/ matches r s.
Proof.
  unfold ques_safe, on_empty. rewrite ques_inv. destruct (no_start r) eqn:E; [|tauto].
  unfold EPSILON. rewrite strs_inv. simpl. pose proof (no_start_empty r E s). split.
  - intros [->|[->|[]]]; auto.
  - intros [->|H1]; [auto|contradiction].
Qed.

Lemma star_safe_spec r s :
  matches (star_safe r) s <-> exists l, Forall (matches r) l /\ s = concat l.
Proof.
  unfold star_safe, on_empty. rewrite star_inv. destruct (no_start r) eqn:E; [|tauto].
  split.
  - intros (l & Hl & ->). exists []. split; auto. induction Hl as [|x l Hx Hl IH]; auto.
    unfold EPSILON in Hx. apply strs_inv in Hx. destruct Hx as [<-|[]]. exact IH.
  - intros (l & Hl & ->). destruct Hl as [|x l Hx _].
    + exists []. auto.
    + exfalso. apply (no_start_empty r E x Hx).
Qed.
