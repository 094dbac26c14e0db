(** Distances in a tree of value lists. *)
From Verif Require Import Base FeatureModel.

Fixpoint leaves (v : value) : list nat :=
  match v with Leaf f => [f] | VList _ _ _ items => flat_map leaves items end.
Fixpoint lists (v : value) : list nat :=
  match v with Leaf _ => [] | VList l _ _ items => l :: flat_map lists items end.
(** Positions [n] apart, in a list of [len] items *)
Definition steps (t : list_type) (len n : nat) : nat :=
  match t with EQUIDISTANT => 1 | LINEAR => n | CYCLIC => Nat.min n (len - n) end.
Definition position_gap (i j : nat) : nat := (i - j) + (j - i).
(** [f] and [g] are in different items of a list in [v], or of a list in it. *)
Inductive apart : value -> nat -> nat -> Z -> Prop :=
| apart_here l t step items i j v w f g : nth_error items i = Some v -> nth_error items j = Some w -> i <> j ->
    In f (leaves v) -> In g (leaves w) ->
    apart (VList l t step items) f g (Z.of_nat (steps t (length items) (position_gap i j)) * step)
| apart_below l t step items v f g d : In v items -> apart v f g d -> apart (VList l t step items) f g d.

(** No feature and no list occurs twice. *)
Definition distinct (v : value) : Prop := NoDup (leaves v) /\ NoDup (lists v).
(** Aliases of features are different from each other, from those of lists and from the
    attributes. *)
Definition good_aliases (alias list_alias : nat -> str) (attributes : list str) (v : value) : Prop :=
  NoDup (map alias (leaves v)) /\
  forall f, In f (leaves v) -> ~ In (alias f) attributes /\ ~ In (alias f) (map list_alias (lists v)).
(** The largest distance in the tree, at least 0. *)
Definition widest (v : value) (m : Z) : Prop :=
  (0 <= m)%Z /\ (forall f g d, apart v f g d -> (d <= m)%Z) /\ (m = 0%Z \/ exists f g, apart v f g m).
(** No step is negative. *)
Fixpoint nonneg_steps (v : value) : Prop :=
  match v with
  | Leaf _ => True
  | VList _ _ s items => (0 <= s)%Z /\ (fix all (l : list value) : Prop := match l with [] => True | x :: l' => nonneg_steps x /\ all l' end) items
  end.
