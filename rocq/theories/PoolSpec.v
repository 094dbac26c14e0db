(** Vocabulary for C33. *)
From Verif Require Import Base PoolModel.

(** The tasks among queue items. *)
Fixpoint tasks (l : list (option nat)) : list nat :=
  match l with [] => [] | Some t :: l' => t :: tasks l' | None :: l' => tasks l' end.

(** The tasks the owner schedules. *)
Fixpoint scheduled (ops : list op) : list nat :=
  match ops with [] => [] | Schedule t :: l => t :: scheduled l | Spawn :: l => scheduled l end.

Definition spawns (ops : list op) : nat := length ops - length (scheduled ops).

(** [a] is obtained by deleting elements of [b]. *)
Inductive subsequence {A} : list A -> list A -> Prop :=
| sub_nil l : subsequence [] l
| sub_take x a b : subsequence a b -> subsequence (x :: a) (x :: b)
| sub_skip x a b : subsequence a b -> subsequence a (x :: b).

(** Every task needs more than what it schedules: no unbounded spawning. *)
Definition bounded (body : nat -> list nat) : Prop :=
  exists w : nat -> nat, forall t, 1 + list_sum (map (fun c => S (w c)) (body t)) < w t.
