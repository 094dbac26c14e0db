(** The relation of a transducer with start and final state 0.  Label 0 is
    epsilon. *)
From Verif Require Import Base WordpieceModel.

Inductive path (arcs : list arc) : nat -> list nat -> list nat -> nat -> Prop :=
| path_nil q : path arcs q [] [] q
| path_cons q i o r is os t : In (q, i, o, r) arcs -> path arcs r is os t -> path arcs q (i :: is) (o :: os) t.

Definition drop_epsilon (l : list nat) : list nat := filter (fun x => negb (Nat.eqb x 0)) l.

Definition transduces (f : transducer) (ins outs : list nat) : Prop :=
  exists is os, path (arcs f) 0 is os 0 /\ ins = drop_epsilon is /\ outs = drop_epsilon os.
