(** Shared vocabulary: characters are code points or bytes ([N]), strings are
    lists of characters.  Boolean string tests with their specifications. *)
From Coq Require Export List NArith ZArith Arith Bool Lia Permutation.
Export ListNotations.

Definition char := N.
Definition str := list N.

Fixpoint str_eqb (a b : str) : bool :=
  match a, b with
  | [], [] => true
  | x :: a', y :: b' => N.eqb x y && str_eqb a' b'
  | _, _ => false
  end.

(** [prefixb p s]: [s] starts with [p] (Python [s.startswith(p)]). *)
Fixpoint prefixb (p s : str) : bool :=
  match p, s with
  | [], _ => true
  | x :: p', y :: s' => N.eqb x y && prefixb p' s'
  | _ :: _, [] => false
  end.

(** [infixb p s]: [p] occurs in [s] (Python [p in s]). *)
Fixpoint infixb (p s : str) : bool :=
  prefixb p s || match s with [] => false | _ :: s' => infixb p s' end.

Definition memN (c : N) (l : list N) : bool := existsb (N.eqb c) l.

(** Propositional readings. *)
Definition is_prefix (p s : str) : Prop := exists t, s = p ++ t.
Definition is_suffix (p s : str) : Prop := exists t, s = t ++ p.
Definition is_infix (p s : str) : Prop := exists a b, s = a ++ p ++ b.

Lemma str_eqb_eq a b : str_eqb a b = true <-> a = b.
Proof.
  revert b; induction a as [|x a IH]; intros [|y b]; simpl; split; intro H;
    try discriminate; auto.
  - apply andb_true_iff in H as [H1 H2]. apply N.eqb_eq in H1.
    apply IH in H2. congruence.
  - inversion H; subst. rewrite N.eqb_refl. apply IH. reflexivity.
Qed.

Lemma str_eqb_refl a : str_eqb a a = true.
Proof. apply str_eqb_eq; reflexivity. Qed.

Lemma str_eqb_neq a b : str_eqb a b = false <-> a <> b.
Proof.
  split; intro H.
  - intros E. apply str_eqb_eq in E. congruence.
  - destruct (str_eqb a b) eqn:E; auto. apply str_eqb_eq in E. contradiction.
Qed.

Lemma str_eq_dec (a b : str) : {a = b} + {a <> b}.
Proof. apply (list_eq_dec N.eq_dec). Defined.

Lemma prefixb_spec p s : prefixb p s = true <-> is_prefix p s.
Proof.
  unfold is_prefix. revert s; induction p as [|x p IH]; intros s; simpl.
  - split; intros; eauto.
  - destruct s as [|y s]; simpl.
    + split; [discriminate|]. intros [t H]; discriminate.
    + rewrite andb_true_iff, N.eqb_eq, IH. split.
      * intros [-> [t ->]]. exists t; reflexivity.
      * intros [t H]. inversion H; subst. split; eauto.
Qed.

Lemma prefixb_false p s : prefixb p s = false <-> ~ is_prefix p s.
Proof.
  rewrite <- prefixb_spec. destruct (prefixb p s); split; intro H; auto; try congruence.
Qed.

Lemma infixb_spec p s : infixb p s = true <-> is_infix p s.
Proof.
  unfold is_infix. induction s as [|y s IH]; simpl.
  - rewrite orb_false_r, prefixb_spec. split.
    + intros [t H]. exists [], t. exact H.
    + intros (a & b & H). destruct a; [|discriminate]. exists b. exact H.
  - rewrite orb_true_iff, IH, prefixb_spec. split.
    + intros [[t H]|(a & b & H)].
      * exists [], t. exact H.
      * exists (y :: a), b. rewrite H. reflexivity.
    + intros (a & b & H). destruct a as [|z a]; simpl in H.
      * left. exists b. exact H.
      * right. inversion H; subst. eauto.
Qed.

Lemma infixb_false p s : infixb p s = false <-> ~ is_infix p s.
Proof.
  rewrite <- infixb_spec. destruct (infixb p s); split; intro H; auto; congruence.
Qed.

Lemma memN_spec c l : memN c l = true <-> In c l.
Proof.
  unfold memN. rewrite existsb_exists. split.
  - intros (x & Hx & E). apply N.eqb_eq in E. subst. exact Hx.
  - intros H. exists c. split; auto. apply N.eqb_refl.
Qed.

Lemma memN_false c l : memN c l = false <-> ~ In c l.
Proof.
  rewrite <- memN_spec. destruct (memN c l); split; intro H; auto; congruence.
Qed.

Lemma is_infix_refl s : is_infix s s.
Proof. exists [], []. rewrite app_nil_r. reflexivity. Qed.

Lemma is_infix_trans a b c : is_infix a b -> is_infix b c -> is_infix a c.
Proof.
  intros (x & y & ->) (z & w & ->). exists (z ++ x), (y ++ w).
  rewrite <- !app_assoc. reflexivity.
Qed.

Lemma is_infix_length a b : is_infix a b -> length a <= length b.
Proof. intros (x & y & ->). rewrite !app_length. lia. Qed.

Lemma is_infix_antisym a b : is_infix a b -> is_infix b a -> a = b.
Proof.
  intros H1 H2. pose proof (is_infix_length _ _ H1). pose proof (is_infix_length _ _ H2).
  destruct H1 as (x & y & ->). rewrite !app_length in *.
  destruct x; simpl in *; [|lia]. destruct y; simpl in *; [|lia].
  rewrite app_nil_r. reflexivity.
Qed.

Lemma is_prefix_infix a b : is_prefix a b -> is_infix a b.
Proof. intros [t ->]. exists [], t. reflexivity. Qed.

Lemma is_suffix_infix a b : is_suffix a b -> is_infix a b.
Proof. intros [t ->]. exists t, []. rewrite app_nil_r. reflexivity. Qed.

Lemma is_prefix_length a b : is_prefix a b -> length a <= length b.
Proof. intros [t ->]. rewrite app_length. lia. Qed.

(** Two prefixes of the same string are comparable. *)
Lemma prefix_comparable a b s :
  is_prefix a s -> is_prefix b s -> is_prefix a b \/ is_prefix b a.
Proof.
  revert b s; induction a as [|x a IH]; intros b s [t H] [u E].
  - left. exists b. reflexivity.
  - destruct b as [|y b].
    + right. exists (x :: a). reflexivity.
    + subst s. simpl in E. inversion E; subst.
      destruct (IH b (a ++ t)) as [[v ->]|[v ->]].
      * exists t; reflexivity.
      * exists u; assumption.
      * left. exists v. reflexivity.
      * right. exists v. reflexivity.
Qed.

Lemma is_prefix_skipn p s : is_prefix p s -> s = p ++ skipn (length p) s.
Proof.
  intros [t ->]. rewrite skipn_app, skipn_all, Nat.sub_diag. reflexivity.
Qed.

Lemma filter_all_true {A} (f : A -> bool) l :
  (forall x, In x l -> f x = true) -> filter f l = l.
Proof.
  induction l as [|x l IH]; simpl; intros H; auto.
  rewrite H by auto. f_equal. apply IH; auto.
Qed.

Lemma filter_all_false {A} (f : A -> bool) l :
  (forall x, In x l -> f x = false) -> filter f l = [].
Proof.
  induction l as [|x l IH]; simpl; intros H; auto.
  rewrite H by auto. apply IH; auto.
Qed.

Lemma existsb_false {A} (f : A -> bool) l :
  existsb f l = false <-> forall x, In x l -> f x = false.
Proof.
  induction l as [|y l IH]; simpl; [split; intros; auto; contradiction|].
  rewrite orb_false_iff, IH. split.
  - intros [H1 H2] x [->|H]; auto.
  - intros H. split; auto.
Qed.

Lemma in_split_app {A} (x : A) l : In x l -> exists a b, l = a ++ x :: b.
Proof. apply in_split. Qed.

Lemma NoDup_app_l {A} (a b : list A) : NoDup (a ++ b) -> NoDup a.
Proof.
  induction a as [|x a IH]; simpl; intros H; [constructor|].
  inversion H; subst. constructor; auto. intros Hin. apply H2. apply in_or_app; auto.
Qed.

Lemma NoDup_app_r {A} (a b : list A) : NoDup (a ++ b) -> NoDup b.
Proof.
  induction a as [|x a IH]; simpl; intros H; auto. inversion H; auto.
Qed.

Lemma NoDup_app_disj {A} (a b : list A) x : NoDup (a ++ b) -> In x a -> In x b -> False.
Proof.
  induction a as [|y a IH]; simpl; intros H Ha Hb; [contradiction|].
  inversion H; subst. destruct Ha as [->|Ha]; auto. apply H2. apply in_or_app; auto.
Qed.

Lemma NoDup_app_intro {A} (a b : list A) :
  NoDup a -> NoDup b -> (forall x, In x a -> In x b -> False) -> NoDup (a ++ b).
Proof.
  induction a as [|x a IH]; simpl; intros Ha Hb Hd; auto.
  inversion Ha; subst. constructor.
  - rewrite in_app_iff. intros [H|H]; eauto.
  - apply IH; eauto.
Qed.
