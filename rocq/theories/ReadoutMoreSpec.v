(** Acceptors, and the costs of strings without their epsilons. *)
From Coq Require Import List NArith.
From Verif Require Import PathModel ReadoutSpec.
Import ListNotations.

Section Spec.
Variable W : Type.
Variable wone wzero : W.
Variable wtimes : W -> W -> W.
Variable weqb : W -> W -> bool.
Variable wle : W -> W -> Prop.
Definition acceptor (m : fst_t W) : Prop := forall s a, In a (arcs m s) -> ilabel a = olabel a.
Definition epsilon_free (m : fst_t W) : Prop := forall s a, In a (arcs m s) -> ~ (ilabel a = 0%N /\ olabel a = 0%N).
Definition letters (x : list N) : list N := filter (fun c => negb (N.eqb c 0)) x.
(** w is the least weight of the outputs whose letters are x. *)
Definition costs (m : fst_t W) (x : list N) (w : W) : Prop :=
  (exists y, letters y = x /\ outputs wone wzero wtimes weqb m y w) /\
  forall y w', letters y = x -> outputs wone wzero wtimes weqb m y w' -> wle w w'.
End Spec.
Arguments acceptor {W}.
Arguments epsilon_free {W}.
Arguments costs {W}.
