(** Places of a program with lattices that hold a state: error nodes and the nodes of
    lattices. *)
From Verif Require Import Base GridModel.

Inductive key := KErr (e : nat) | KNode (i x y : nat).
(** The FST and the state at a place *)
Definition slot (w : world) (k : key) : option (nat * nat) :=
  match k with
  | KErr e => match nth_error (errs w) e with Some (f, Some s) => Some (f, s) | _ => None end
  | KNode i x y =>
    match nth_error (lats w) i with
    | Some L => match node_at L x y with Some (Some s) => Some (l_fst L, s) | _ => None end
    | None => None
    end
  end.
Definition key_of (L : lat) (i : nat) (x y : Z) : key := if in_range L x y then KNode i (Z.to_nat x) (Z.to_nat y) else KErr (l_err L).

(** An error node that has a state is used with one FST only. *)
Definition legal (w : world) (o : op) : Prop :=
  match o with
  | NewLattice _ _ f e _ => match nth_error (errs w) e with Some (f0, Some _) => f0 = f | _ => True end
  | _ => True
  end.
Inductive reached : world -> Prop :=
| R_init : reached initial
| R_step : forall w o w', reached w -> legal w o -> step w o = Some w' -> reached w'.
Inductive later : world -> world -> Prop :=
| T_refl : forall w, later w w
| T_step : forall w o w1 w2, legal w o -> step w o = Some w1 -> later w1 w2 -> later w w2.
(** Without that restriction *)
Inductive reached_any : world -> Prop :=
| A_init : reached_any initial
| A_step : forall w o w', reached_any w -> step w o = Some w' -> reached_any w'.
(** Two lattices on FST 0 with the default error node, for examples *)
Definition two_lattices : world := World [1; 0] [(0, Some 0)] [Lat 0 2 1 [[None; None]] 0; Lat 0 1 1 [[None]] 0].
