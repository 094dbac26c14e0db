(** Composing functions. *)
From Verif Require Import Base FuncModel FuncSpec FuncProofs.

(** ** C39 *)
(** A pipeline applies its functions from left to right, up to the first exception. *)
Theorem C39_one_after_another : forall (V P X : Type) (prim : P -> pyval V P -> result V P X) fns v r, call_composed prim fns [v] = r <-> steps prim fns v r.
Proof. exact composed_steps. Qed.
Print Assumptions C39_one_after_another.
Theorem C39_empty : forall (V P X : Type) (prim : P -> pyval V P -> result V P X) v, call_composed prim [] [v] = Value v.
Proof. exact composed_empty. Qed.
Print Assumptions C39_empty.
Theorem C39_one : forall (V P X : Type) (prim : P -> pyval V P -> result V P X) fn v, call_composed prim [fn] [v] = call prim fn v.
Proof. exact composed_one. Qed.
Print Assumptions C39_one.
(** A pipeline can be cut anywhere. *)
Theorem C39_split : forall (V P X : Type) (prim : P -> pyval V P -> result V P X) a b v, call_composed prim (a ++ b) [v] = match call_composed prim a [v] with Value u => call_composed prim b [u] | e => e end.
Proof. exact composed_app. Qed.
Print Assumptions C39_split.
(** A pipeline inside a pipeline can be unfolded. *)
Theorem C39_nested : forall (V P X : Type) (prim : P -> pyval V P -> result V P X) a b c v, call_composed prim (a ++ Composed b :: c) [v] = call_composed prim (a ++ b ++ c) [v].
Proof. exact composed_nested. Qed.
Print Assumptions C39_nested.
(** The same at any depth. *)
Theorem C39_parts : forall (V P X : Type) (prim : P -> pyval V P -> result V P X) fns v, call_composed prim fns [v] = call_composed prim (flat_map parts fns) [v].
Proof. exact composed_parts. Qed.
Print Assumptions C39_parts.
Theorem C39_as_function : forall (V P X : Type) (prim : P -> pyval V P -> result V P X) fns v, call_composed prim fns [v] = call prim (Composed fns) v.
Proof. exact composed_value. Qed.
Print Assumptions C39_as_function.
(** Called without a value, the first function is taken for the value. *)
Theorem C39_no_argument : forall (V P X : Type) (prim : P -> pyval V P -> result V P X) fns, call_composed prim fns [] = match fns with [] => Type_error | fn :: l => call_composed prim l [fn] end.
Proof. exact composed_no_argument. Qed.
Print Assumptions C39_no_argument.
Theorem C39_many_arguments : forall (V P X : Type) (prim : P -> pyval V P -> result V P X) fns u v l, call_composed prim fns (u :: v :: l) = Type_error.
Proof. exact composed_many. Qed.
Print Assumptions C39_many_arguments.
Theorem C39_order_refuted : exists (f g v : nat), forall prim : nat -> pyval nat nat -> result nat nat unit,
  (prim = fun p x => match x with Plain n => Value (Plain (match p with 0 => n + n | _ => S n end)) | _ => Type_error end) ->
  call_composed prim [Prim f; Prim g] [Plain v] <> call_composed prim [Prim g; Prim f] [Plain v].
Proof. exact order_matters. Qed.
Print Assumptions C39_order_refuted.
(** func_test.py:23-29: double, then add one, then a third: 7 becomes 5 *)
Example C39_example :
  let prim (p : nat) (x : pyval nat nat) : result nat nat unit :=
    match x with Plain n => Value (Plain (match p with 0 => n + n | 1 => n + 1 | _ => Nat.div n 3 end)) | _ => Type_error end in
  call_composed prim [Prim 0; Prim 1; Prim 2] [Plain 7] = Value (Plain 5) /\
  call_composed prim [Prim 0; Composed [Prim 1; Composed []; Prim 2]] [Plain 7] = Value (Plain 5) /\
  call_composed prim [Prim 0; Prim 1; Prim 2] [] = Type_error /\
  call_composed prim [Prim 0; Plain 1; Prim 2] [Plain 7] = Type_error.
Proof. cbn. repeat split. Qed.
