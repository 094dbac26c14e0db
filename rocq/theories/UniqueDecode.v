(** Unique decodability of a finite code, by the test of Sardinas and Patterson.  One
    separator may be missing at the end. *)
From Coq Require Import List Bool Arith Lia.
Import ListNotations.

Section Decode.
  Variable A : Type.
  Variable eqb : A -> A -> bool.
  Hypothesis eqb_ok : forall x y, eqb x y = true <-> x = y.
  Notation wd := (list A).

  Section Closed.
    Variable code D : list wd.
    Variable sep : wd.
    Hypothesis start : forall a b t, In a code -> In b code -> a <> b -> b = a ++ t -> In t D.
    Hypothesis step1 : forall s c t, In s D -> In c code -> c = s ++ t -> In t D.
    Hypothesis step2 : forall s c t, In s D -> In c code -> s = c ++ t -> In t D.
    Hypothesis no_empty : ~ In [] D.
    Hypothesis sep_short : length sep <= 1.
    Hypothesis no_sep : ~ In sep D.
    Hypothesis code_ok : forall c, In c code -> c <> [] /\ c <> sep.
    Definition tail_ok (e : wd) : Prop := e = [] \/ e = sep.

    Lemma short_sep x s r : sep = (x :: s) ++ r -> sep = x :: s.
    Proof. intros E. pose proof sep_short as H. rewrite E in *. rewrite app_length in H. cbn in H. destruct r; [rewrite app_nil_r; auto|]. cbn in H. lia. Qed.
    Lemma dangling n : forall s u v e f, length u + length v <= n -> In s D -> incl u code -> incl v code -> tail_ok e -> tail_ok f ->
      s ++ concat u ++ e = concat v ++ f -> False.
    Proof.
      induction n as [|n IH]; intros s u v e f Hn Hs Hu Hv He Hf E; destruct v as [|c v].
      1, 3: (cbn in E; destruct s as [|x s]; [contradiction|]; destruct Hf as [->| ->]; [discriminate|];
        symmetry in E; apply short_sep in E; rewrite <- E in Hs; contradiction).
      { cbn in Hn. lia. }
      cbn [concat] in E. rewrite <- app_assoc in E. cbn in Hn.
      assert (Hc : In c code) by (apply Hv; left; auto). assert (Hv' : incl v code) by (intros z Hz; apply Hv; right; auto).
      apply app_eq_app in E. destruct E as [t [[E1 E2]|[E1 E2]]].
      - apply (IH t u v e f); auto; try lia; try (eapply step2; eauto).
      - apply (IH t v u f e); auto; try lia; try (eapply step1; eauto).
    Qed.
    Lemma eq_or_not (a b : wd) : a = b \/ a <> b.
    Proof.
      revert b. induction a as [|x a IH]; intros [|y b]; [left; auto|right; discriminate|right; discriminate|].
      destruct (eqb x y) eqn:E.
      - apply eqb_ok in E. subst y. destruct (IH b) as [->|H]; [left; auto|right; congruence].
      - right. intros K. injection K as K _. apply eqb_ok in K. congruence.
    Qed.
    Lemma decode u : forall v e f, incl u code -> incl v code -> tail_ok e -> tail_ok f -> concat u ++ e = concat v ++ f -> u = v.
    Proof.
      induction u as [|a u IH]; intros [|b v] e f Hu Hv He Hf E; auto.
      - exfalso. cbn in E. destruct (code_ok b (Hv b (or_introl eq_refl))) as [H1 H2]. rewrite <- app_assoc in E.
        destruct b as [|x b]; [congruence|]. destruct He as [->| ->]; [discriminate|]. apply short_sep in E. congruence.
      - exfalso. cbn in E. destruct (code_ok a (Hu a (or_introl eq_refl))) as [H1 H2]. rewrite <- app_assoc in E.
        destruct a as [|x a]; [congruence|]. destruct Hf as [->| ->]; [discriminate|]. symmetry in E. apply short_sep in E. congruence.
      - assert (Ha : In a code) by (apply Hu; left; auto). assert (Hb : In b code) by (apply Hv; left; auto).
        assert (Hu' : incl u code) by (intros z Hz; apply Hu; right; auto). assert (Hv' : incl v code) by (intros z Hz; apply Hv; right; auto).
        cbn [concat] in E. rewrite <- !app_assoc in E. destruct (eq_or_not a b) as [->|Hab].
        + apply app_inv_head in E. f_equal. apply (IH v e f); auto.
        + exfalso. apply app_eq_app in E. destruct E as [t [[E1 E2]|[E1 E2]]].
          * apply (dangling (length u + length v) t u v e f); auto. apply (start b a); auto.
          * apply (dangling (length v + length u) t v u f e); auto. apply (start a b); auto.
    Qed.
  End Closed.

  (** The set of dangling ends, computed and checked *)
  Fixpoint same (a b : wd) : bool :=
    match a, b with
    | [], [] => true
    | x :: a', y :: b' => if eqb x y then same a' b' else false
    | _, _ => false
    end.
  Fixpoint rest (a b : wd) : list wd :=
    match a, b with
    | [], _ => [b]
    | x :: a', y :: b' => if eqb x y then rest a' b' else []
    | _, [] => []
    end.
  Definition mems (x : wd) (l : list wd) : bool := existsb (same x) l.
  Definition add_all (l d : list wd) : list wd := fold_left (fun d x => if mems x d then d else x :: d) l d.
  Definition starts (code : list wd) : list wd :=
    flat_map (fun a => flat_map (fun b => if same a b then [] else rest a b) code) code.
  Definition steps (code d : list wd) : list wd := flat_map (fun s => flat_map (fun c => rest s c ++ rest c s) code) d.
  Fixpoint grow (n : nat) (code d : list wd) : list wd := match n with O => d | S k => grow k code (add_all (steps code d) d) end.
  Definition decodableb (code : list wd) (sep : wd) : bool :=
    let d := grow 4 code (add_all (starts code) []) in
    if forallb (fun x => mems x d) (starts code) then
      if forallb (fun x => mems x d) (steps code d) then
        if mems [] d then false else if mems sep d then false else if Nat.leb (length sep) 1 then
        forallb (fun c => if same c [] then false else negb (same c sep)) code else false
      else false
    else false.

  Lemma same_ok a : forall b, same a b = true <-> a = b.
  Proof.
    induction a as [|x a IH]; intros [|y b]; cbn; try (split; intros H; discriminate || auto; fail).
    destruct (eqb x y) eqn:E.
    - apply eqb_ok in E. subst y. rewrite IH. split; intros H; congruence.
    - split; [discriminate|]. intros K. injection K as K _. apply eqb_ok in K. congruence.
  Qed.
  Lemma mems_In x l : mems x l = true <-> In x l.
  Proof.
    unfold mems. rewrite existsb_exists. split.
    - intros [y [Hy E]]. apply same_ok in E. subst; auto.
    - intros H. exists x. split; auto. apply same_ok; auto.
  Qed.
  Lemma rest_In a t : In t (rest a (a ++ t)).
  Proof.
    induction a as [|x a IH]; cbn; auto. assert (E : eqb x x = true) by (apply eqb_ok; auto). rewrite E. auto.
  Qed.
  Lemma decodableb_ok code sep : decodableb code sep = true -> forall u v e f, incl u code -> incl v code -> tail_ok sep e -> tail_ok sep f ->
    concat u ++ e = concat v ++ f -> u = v.
  Proof.
    unfold decodableb. set (d := grow 4 code (add_all (starts code) [])). intros H.
    destruct (forallb (fun x => mems x d) (starts code)) eqn:H1; [|discriminate].
    destruct (forallb (fun x => mems x d) (steps code d)) eqn:H2; [|discriminate].
    destruct (mems [] d) eqn:H3; [discriminate|]. destruct (mems sep d) eqn:H4; [discriminate|].
    destruct (Nat.leb (length sep) 1) eqn:H5; [|discriminate]. apply Nat.leb_le in H5.
    rewrite forallb_forall in H1, H2, H. intros u. apply (decode code d sep); auto.
    - intros a b t Ha Hb Hab E. apply mems_In. apply H1. apply in_flat_map. exists a. split; auto. apply in_flat_map. exists b. split; auto.
      destruct (same a b) eqn:Eb; [apply same_ok in Eb; congruence|]. rewrite E. apply rest_In.
    - intros s c t Hs Hc E. apply mems_In. apply H2. apply in_flat_map. exists s. split; auto. apply in_flat_map. exists c. split; auto.
      apply in_or_app. left. rewrite E. apply rest_In.
    - intros s c t Hs Hc E. apply mems_In. apply H2. apply in_flat_map. exists s. split; auto. apply in_flat_map. exists c. split; auto.
      apply in_or_app. right. rewrite E. apply rest_In.
    - intros K. apply mems_In in K. congruence.
    - intros K. apply mems_In in K. congruence.
    - intros c Hc. specialize (H c Hc). destruct (same c []) eqn:E1; [discriminate|]. apply negb_true_iff in H.
      split; intros K; apply same_ok in K; congruence.
  Qed.
End Decode.
