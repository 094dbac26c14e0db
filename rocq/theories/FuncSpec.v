(** Applying functions one after another. *)
From Verif Require Import Base FuncModel.

Section FuncSpec.
Variables V P X : Type.
Variable prim : P -> pyval V P -> result V P X.

(** [steps fns v r]: [r] is the last value, or the first exception *)
Inductive steps : list (pyval V P) -> pyval V P -> result V P X -> Prop :=
| st_end v : steps [] v (Value v)
| st_step fn fns v v' r : call prim fn v = Value v' -> steps fns v' r -> steps (fn :: fns) v r
| st_stop fn fns v e : call prim fn v = e -> (forall u, e <> Value u) -> steps (fn :: fns) v e.

(** Composed functions taken apart, at any depth *)
Fixpoint parts (fn : pyval V P) : list (pyval V P) :=
  match fn with Composed fns => flat_map parts fns | _ => [fn] end.
End FuncSpec.
Arguments steps {V P X}. Arguments parts {V P}.
