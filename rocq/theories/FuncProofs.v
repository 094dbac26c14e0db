From Verif Require Import Base FuncModel FuncSpec.

Section FuncProofs.
Variables V P X : Type.
Variable prim : P -> pyval V P -> result V P X.

Lemma call_reduce fns v : call prim (Composed fns) v = reduce (fun v fn => call prim fn v) fns v.
Proof. revert v. induction fns as [|x l IH]; intros v; [reflexivity|]. cbn. destruct (call prim x v); try reflexivity. apply IH. Qed.
Lemma composed_steps fns v r : call_composed prim fns [v] = r <-> steps prim fns v r.
Proof.
  cbn [call_composed]. revert v r. induction fns as [|x l IH]; intros v r; cbn [reduce].
  - split; [intros <-; constructor|]. intros H. inversion H. reflexivity.
  - destruct (call prim x v) as [u| |e] eqn:E.
    + split; [intros H; econstructor; [exact E|apply IH; exact H]|]. intros H. inversion H; subst.
      * assert (v' = u) by congruence. subst v'. apply IH. assumption.
      * exfalso. match goal with K : forall u, _ |- _ => exact (K _ E) end.
    + split; [intros <-; apply st_stop; [exact E|discriminate]|]. intros H. inversion H; subst; congruence.
    + split; [intros <-; apply st_stop; [exact E|discriminate]|]. intros H. inversion H; subst; congruence.
Qed.
Lemma composed_value fns v : call_composed prim fns [v] = call prim (Composed fns) v.
Proof. rewrite call_reduce. reflexivity. Qed.
Lemma composed_empty v : call_composed prim [] [v] = Value v.
Proof. reflexivity. Qed.
Lemma composed_one fn v : call_composed prim [fn] [v] = call prim fn v.
Proof. cbn. destruct (call prim fn v); reflexivity. Qed.
Lemma reduce_app (f : pyval V P -> pyval V P -> result V P X) a b v : reduce f (a ++ b) v = match reduce f a v with Value u => reduce f b u | e => e end.
Proof. revert v. induction a as [|x a IH]; intros v; [reflexivity|]. cbn. destruct (f v x); try reflexivity. apply IH. Qed.
Lemma composed_app a b v : call_composed prim (a ++ b) [v] = match call_composed prim a [v] with Value u => call_composed prim b [u] | e => e end.
Proof. cbn [call_composed]. apply reduce_app. Qed.
Lemma composed_nested a b c v : call_composed prim (a ++ Composed b :: c) [v] = call_composed prim (a ++ b ++ c) [v].
Proof.
  rewrite !composed_app. destruct (call_composed prim a [v]) as [u| |e]; try reflexivity. rewrite composed_app. cbn [call_composed reduce]. rewrite call_reduce. reflexivity.
Qed.
Lemma pyval_ind' (Q : pyval V P -> Prop) : (forall v, Q (Plain v)) -> (forall p, Q (Prim p)) -> (forall l, Forall Q l -> Q (Composed l)) -> forall v, Q v.
Proof.
  intros H1 H2 H3. fix go 1. intros [v|p|l]; [apply H1|apply H2|apply H3]. induction l as [|x l IH]; constructor; [apply go|exact IH].
Qed.
Lemma reduce_parts l : Forall (fun fn => forall v, call prim fn v = reduce (fun v fn => call prim fn v) (parts fn) v) l ->
  forall v, reduce (fun v fn => call prim fn v) l v = reduce (fun v fn => call prim fn v) (flat_map parts l) v.
Proof.
  induction 1 as [|x l H _ IH]; intros v; [reflexivity|]. cbn [reduce flat_map]. rewrite reduce_app, <- H. destruct (call prim x v); try reflexivity. apply IH.
Qed.
Lemma call_parts fn v : call prim fn v = reduce (fun v fn => call prim fn v) (parts fn) v.
Proof.
  revert v. induction fn as [u|p|l IH] using pyval_ind'; intros v.
  - reflexivity.
  - cbn. destruct (prim p v); reflexivity.
  - rewrite call_reduce. cbn [parts]. apply reduce_parts. exact IH.
Qed.
Lemma composed_parts fns v : call_composed prim fns [v] = call_composed prim (flat_map parts fns) [v].
Proof. cbn [call_composed]. apply reduce_parts. apply Forall_forall. intros fn _ u. apply call_parts. Qed.
Lemma composed_no_argument fns : call_composed prim fns [] = match fns with [] => Type_error | fn :: l => call_composed prim l [fn] end.
Proof. destruct fns; reflexivity. Qed.
Lemma composed_many fns u v l : call_composed prim fns (u :: v :: l) = Type_error.
Proof. reflexivity. Qed.
End FuncProofs.

(** [ComposeFn1(double, incr, third)] of func_test.py:23-29, and its reverse *)
Lemma order_matters : exists (f g : nat) (v : nat), forall prim : nat -> pyval nat nat -> result nat nat unit,
  (prim = fun p x => match x with Plain n => Value (Plain (match p with 0 => n + n | _ => S n end)) | _ => Type_error end) ->
  call_composed prim [Prim f; Prim g] [Plain v] <> call_composed prim [Prim g; Prim f] [Plain v].
Proof. exists 0, 1, 1. intros prim ->. discriminate. Qed.
