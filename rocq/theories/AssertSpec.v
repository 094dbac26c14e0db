(** What the checks of test_util.py are meant to say about a machine. *)
From Verif Require Import Base AssertModel.

(** The texts that Python's [int] reads here, by their value: a sign and
    decimal digits. *)
Inductive decimal : str -> Z -> Prop :=
| decimal_one c : (48 <= c <= 57)%N -> decimal [c] (Z.of_N c - 48)
| decimal_more s z c : decimal s z -> (48 <= c <= 57)%N ->
    decimal (s ++ [c]) (10 * z + (Z.of_N c - 48)).

Inductive integer : str -> Z -> Prop :=
| integer_plain s z : decimal s z -> integer s z
| integer_plus s z : decimal s z -> integer (43%N :: s) z
| integer_minus s z : decimal s z -> integer (45%N :: s) (- z).

(** Every weight of the machine is a whole number. *)
Definition whole_weights (f : list path) : Prop :=
  forall p, In p f -> exists z, integer (snd p) z.

(** [o] is an output of least weight. *)
Definition best (f : list path) (o : str) : Prop :=
  exists w z, In (o, w) f /\ integer w z /\
    forall p y, In p f -> integer (snd p) y -> (z <= y)%Z.
