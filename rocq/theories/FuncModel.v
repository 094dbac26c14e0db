(** Model of nisaba/scripts/utils/func.py:20-22: ComposeFn1, a partial application of
    functools.reduce.

    A Python value is a plain value, one of the given functions, or a composed function.
    What a given function does is the parameter [prim].  Calling anything else raises
    TypeError. *)
From Verif Require Import Base.

Section Func.
Variables V P X : Type.

Inductive pyval := Plain (v : V) | Prim (p : P) | Composed (fns : list pyval).
Inductive result := Value (v : pyval) | Type_error | Raised (e : X).

Variable prim : P -> pyval -> result.

(** functools.reduce with an initial value: the first exception ends it *)
Fixpoint reduce (f : pyval -> pyval -> result) (l : list pyval) (v : pyval) : result :=
  match l with
  | [] => Value v
  | x :: l' => match f v x with Value v' => reduce f l' v' | e => e end
  end.
(** func.py:22, [fn(v)], and calling the partial object with one argument *)
Fixpoint call (fn v : pyval) {struct fn} : result :=
  match fn with
  | Plain _ => Type_error
  | Prim p => prim p v
  | Composed fns =>
      (fix go (l : list pyval) (v : pyval) : result :=
         match l with
         | [] => Value v
         | x :: l' => match call x v with Value v' => go l' v' | e => e end
         end) fns v
  end.
(** Calling ComposeFn1(...) with any number of arguments.  Without an argument reduce has
    no initial value and starts from the first function itself. *)
Definition call_composed (fns args : list pyval) : result :=
  match args with
  | [] => match fns with [] => Type_error | x :: l => reduce (fun v fn => call fn v) l x end
  | [v] => reduce (fun v fn => call fn v) fns v
  | _ => Type_error
  end.
End Func.
Arguments Plain {V P}. Arguments Prim {V P}. Arguments Composed {V P}.
Arguments Value {V P X}. Arguments Type_error {V P X}. Arguments Raised {V P X}.
Arguments reduce {V P X}. Arguments call {V P X}. Arguments call_composed {V P X}.
