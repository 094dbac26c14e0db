(** Languages of automata, best outputs, and what determinization promises. *)
From Coq Require Import List NArith Bool.
From Verif Require Import PathModel PathSpec.
Import ListNotations.

Section ReadoutSpec.

Variable W : Type.
Variable wone wzero : W.
Variable wtimes : W -> W -> W.
Variable weqb : W -> W -> bool.
Variable wle : W -> W -> Prop.

(** The automaton has an accepted path with output x and weight w. *)
Definition outputs (m : fst_t W) (x : list N) (w : W) : Prop :=
  exists p il, accepted wzero weqb m p /\
    reads wone wzero wtimes weqb m p (il, x, w).

(** x is an output of least weight. *)
Definition best (m : fst_t W) (x : list N) : Prop :=
  exists w, outputs m x w /\
    forall x' w', outputs m x' w' -> wle w w'.

(** x is the only output with the property P. *)
Definition only (P : list N -> Prop) (x : list N) : Prop :=
  P x /\ forall y, P y -> y = x.

(** At most one arc with a given output label at each state *)
Definition deterministic (m : fst_t W) : Prop :=
  forall s, NoDup (map olabel (arcs m s)).

(** Every state can be reached from the start state. *)
Definition accessible (m : fst_t W) : Prop :=
  forall s, s < num_states m -> exists p l, leads m p l s.

(** Every accessible state is one of the states. *)
Definition enough_states (m : fst_t W) : Prop :=
  forall p l s, leads m p l s -> s < num_states m.

(** A lattice that determinization may return *)
Definition good_dfa (m : fst_t W) : Prop :=
  acyclic m /\ acyclic_property m = true /\ connected wzero weqb m /\
  deterministic m /\ accessible m /\ enough_states m.

(** Bytes without epsilons *)
Definition bytes (labels : list N) : list N :=
  map (fun x => N.modulo x 256) (filter (fun x => negb (N.eqb x 0)) labels).

(** No final state has an arc. *)
Definition prefix_free (m : fst_t W) : Prop :=
  forall s, is_final wzero weqb m s = true -> arcs m s = [].

End ReadoutSpec.

Arguments outputs {W}.
Arguments best {W}.
Arguments deterministic {W}.
Arguments accessible {W}.
Arguments enough_states {W}.
Arguments good_dfa {W}.
Arguments prefix_free {W}.

(** The order of tropical weights *)
Definition tle (a b : option N) : Prop :=
  match a, b with
  | Some x, Some y => (x <= y)%N
  | _, None => True
  | None, Some _ => False
  end.
