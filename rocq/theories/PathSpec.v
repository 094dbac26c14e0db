(** What it means to go through the paths of an automaton.  A path is given by
    the numbers of the arcs to take, one after the other. *)
From Coq Require Import List NArith Bool Sorting.Sorted.
From Verif Require Import PathModel.
Import ListNotations.

Section PathSpec.

Variable W : Type.
Variable wone wzero : W.
Variable wtimes : W -> W -> W.
Variable weqb : W -> W -> bool.
Variable m : fst_t W.

(** The arcs along a path, and the state where it ends *)
Fixpoint follow (s : nat) (p : list nat) : option (list (arc W) * nat) :=
  match p with
  | [] => Some ([], s)
  | j :: q =>
    match nth_error (arcs m s) j with
    | None => None
    | Some a =>
      match follow (nextstate a) q with
      | None => None
      | Some (l, t) => Some (a :: l, t)
      end
    end
  end.

(** The path leads from the start state to t along the arcs l. *)
Definition leads (p : list nat) (l : list (arc W)) (t : nat) : Prop :=
  exists s, start m = Some s /\ follow s p = Some (l, t).

Definition is_final (t : nat) : bool := negb (weqb (final m t) wzero).

Definition accepted (p : list nat) : Prop :=
  exists l t, leads p l t /\ is_final t = true.

(** At least one arc, and then a state that is not final and has no arcs *)
Definition stuck (p : list nat) : Prop :=
  p <> [] /\ exists l t, leads p l t /\ is_final t = false /\ arcs m t = [].

Definition product (ws : list W) : W := fold_left wtimes ws wone.

(** The labels and the weight of a path; the weight of the last state counts
    if that state is final. *)
Definition reads (p : list nat) (r : list N * list N * W) : Prop :=
  exists l t, leads p l t /\
    r = (map ilabel l, map olabel l,
         product (map arc_weight l
                    ++ (if is_final t then [final m t] else []))).

(** Lexicographic order; a path comes before its extensions *)
Inductive before : list nat -> list nat -> Prop :=
| before_nil j q : before [] (j :: q)
| before_lt i j p q : i < j -> before (i :: p) (j :: q)
| before_eq j p q : before p q -> before (j :: p) (j :: q).

(** No cycles: every arc goes down. *)
Definition acyclic : Prop :=
  exists rank : nat -> nat,
    forall s a, In a (arcs m s) -> rank (nextstate a) < rank s.

(** Every state that can be reached is final or has an arc. *)
Definition connected : Prop :=
  forall p l t, leads p l t -> arcs m t = [] -> is_final t = true.

End PathSpec.

Arguments follow {W}.
Arguments leads {W}.
Arguments is_final {W}.
Arguments accepted {W}.
Arguments stuck {W}.
Arguments product {W}.
Arguments reads {W}.
Arguments acyclic {W}.
Arguments connected {W}.

(** Weights as in the tropical semiring; [None] is infinity, the zero. *)
Definition ttimes (a b : option N) : option N :=
  match a, b with
  | Some x, Some y => Some (x + y)%N
  | _, _ => None
  end.

Definition teqb (a b : option N) : bool :=
  match a, b with
  | Some x, Some y => N.eqb x y
  | None, None => true
  | _, _ => false
  end.

(** An automaton from tables; state 0 is the start state. *)
Definition machine_of (fin_of : list (option N))
  (arcs_of : list (list (arc (option N)))) (acyc : bool) : fst_t (option N) :=
  Fst (Some 0) (fun s => nth s fin_of None) (fun s => nth s arcs_of [])
    (length arcs_of) acyc.
