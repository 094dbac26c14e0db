(** The Sardinas-Patterson test for unique decodability. *)
From Verif Require Import Base RomanSpec.

Definition mem_str (s : str) (l : list str) : bool := existsb (str_eqb s) l.

(** What is left of [b] behind [a]. *)
Definition residues (a b : str) : list str :=
  if prefixb a b then [skipn (length a) b] else [].

Definition first_residues (code : list str) : list str :=
  flat_map (fun a => flat_map (fun b => if str_eqb a b then [] else residues a b) code) code.

Definition next_residues (code D : list str) : list str :=
  flat_map (fun d => flat_map (fun c => residues d c ++ residues c d) code) D.

Fixpoint add_new (l D : list str) : list str :=
  match l with
  | [] => D
  | x :: l' => add_new l' (if mem_str x D then D else x :: D)
  end.

Fixpoint saturate (fuel : nat) (code D : list str) : list str :=
  match fuel with
  | O => D
  | S f => saturate f code (add_new (next_residues code D) D)
  end.

Definition no_empty (l : list str) : bool :=
  forallb (fun s => match s with [] => false | _ => true end) l.

(** [D] is closed, contains the first residues and does not contain the empty
    string: whatever [fuel] was used to find it. *)
Definition ud_check (fuel : nat) (code : list str) : bool :=
  let D := saturate fuel code (add_new (first_residues code) []) in
  no_empty code && no_empty D &&
  forallb (fun x => mem_str x D) (first_residues code) &&
  forallb (fun x => mem_str x D) (next_residues code D).

Lemma mem_str_spec s l : mem_str s l = true <-> In s l.
Proof.
  unfold mem_str. rewrite existsb_exists. split.
  - intros (x & Hx & E). apply str_eqb_eq in E. subst. exact Hx.
  - intros H. exists s. split; auto. apply str_eqb_refl.
Qed.

Lemma no_empty_spec l s : no_empty l = true -> In s l -> s <> [].
Proof.
  unfold no_empty. rewrite forallb_forall. intros H Hs E. subst. apply H in Hs. discriminate.
Qed.

Lemma residues_spec a w : In w (residues a (a ++ w)).
Proof.
  unfold residues. assert (prefixb a (a ++ w) = true) as ->.
  { apply prefixb_spec. exists w. reflexivity. }
  left. rewrite skipn_app, skipn_all, Nat.sub_diag. reflexivity.
Qed.

Lemma app_split (a b x y : str) : a ++ x = b ++ y ->
  (exists w, b = a ++ w /\ x = w ++ y) \/ (exists w, a = b ++ w /\ y = w ++ x).
Proof.
  revert b; induction a as [|c a IH]; intros b E.
  - left. exists b. auto.
  - destruct b as [|d b].
    + right. exists (c :: a). auto.
    + simpl in E. inversion E; subst. destruct (IH b H1) as [(w & -> & ->)|(w & -> & ->)].
      * left. exists w. auto.
      * right. exists w. auto.
Qed.

Section Closed.
  Variable code D : list str.
  Hypothesis code_ne : forall c, In c code -> c <> [].
  Hypothesis D_ne : forall d, In d D -> d <> [].
  Hypothesis D_first : forall a b w, In a code -> In b code -> a <> b -> b = a ++ w -> In w D.
  Hypothesis D_next : forall d c w, In d D -> In c code -> c = d ++ w \/ d = c ++ w -> In w D.

  Lemma no_bridge : forall n d xs ys, length d + length (concat xs) + length (concat ys) <= n ->
    In d D -> incl xs code -> incl ys code -> d ++ concat xs <> concat ys.
  Proof.
    induction n as [|n IH]; intros d xs ys Hn Hd Hxs Hys E.
    - pose proof (D_ne d Hd). destruct d; [contradiction|]. simpl in Hn. lia.
    - pose proof (D_ne d Hd) as Hne.
      destruct ys as [|y ys]; [destruct d; [contradiction|discriminate]|].
      assert (In y code) as Hy by (apply Hys; left; reflexivity).
      assert (incl ys code) as Hys' by (intros z Hz; apply Hys; right; exact Hz).
      pose proof (code_ne y Hy) as Hyne.
      simpl in E, Hn. rewrite app_length in Hn.
      destruct (app_split _ _ _ _ E) as [(w & Ew & Ex)|(w & Ew & Ey)].
      + assert (In w D) as Hw by (apply (D_next d y); auto).
        apply (IH w ys xs); auto.
        assert (length d > 0) by (destruct d; [contradiction|simpl; lia]).
        subst y. rewrite app_length in Hn. lia.
      + assert (In w D) as Hw by (apply (D_next d y); auto).
        apply (IH w xs ys); auto.
        assert (length y > 0) by (destruct y; [contradiction|simpl; lia]).
        subst d. rewrite app_length in Hn. lia.
  Qed.

  Lemma closed_ud : uniquely_decodable code.
  Proof.
    intros xs. induction xs as [|x xs IH]; intros ys Hx Hy E.
    - destruct ys as [|y ys]; auto. exfalso. simpl in E.
      apply (code_ne y); [apply Hy; left; reflexivity|].
      destruct y; auto. discriminate.
    - assert (In x code) as Cx by (apply Hx; left; reflexivity).
      assert (incl xs code) as Hxs by (intros z Hz; apply Hx; right; exact Hz).
      destruct ys as [|y ys].
      + exfalso. simpl in E. apply (code_ne x Cx). destruct x; auto. discriminate.
      + assert (In y code) as Cy by (apply Hy; left; reflexivity).
        assert (incl ys code) as Hys by (intros z Hz; apply Hy; right; exact Hz).
        simpl in E. destruct (str_eq_dec x y) as [->|N].
        * apply app_inv_head in E. f_equal. apply IH; auto.
        * exfalso. destruct (app_split _ _ _ _ E) as [(w & Ew & Ex)|(w & Ew & Ey)].
          -- assert (In w D) as Hw by (apply (D_first x y); auto).
             apply (no_bridge _ w ys xs (le_n _)); auto.
          -- assert (In w D) as Hw by (apply (D_first y x); auto).
             apply (no_bridge _ w xs ys (le_n _)); auto.
  Qed.
End Closed.

Lemma ud_check_sound fuel code : ud_check fuel code = true -> uniquely_decodable code.
Proof.
  unfold ud_check. set (D := saturate _ _ _). clearbody D.
  rewrite !andb_true_iff. intros (((H1 & H2) & H3) & H4).
  rewrite forallb_forall in H3, H4.
  apply (closed_ud code D).
  - intros c. apply no_empty_spec; exact H1.
  - intros d. apply no_empty_spec; exact H2.
  - intros a b w Ha Hb N ->. apply mem_str_spec, H3. unfold first_residues.
    apply in_flat_map. exists a. split; auto. apply in_flat_map. exists (a ++ w). split; auto.
    destruct (str_eqb a (a ++ w)) eqn:E; [apply str_eqb_eq in E; contradiction|].
    apply residues_spec.
  - intros d c w Hd Hc H. apply mem_str_spec, H4. unfold next_residues.
    apply in_flat_map. exists d. split; auto. apply in_flat_map. exists c. split; auto.
    apply in_or_app. destruct H as [->| ->]; [left|right]; apply residues_spec.
Qed.
