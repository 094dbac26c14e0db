(** Which values are inside which lists. *)
From Verif Require Import Base FeatureModel FeatureSpec ContainModel.

Fixpoint subvalues (v : value) : list value :=
  v :: match v with Leaf _ => [] | VList _ _ _ items => flat_map subvalues items end.
(** The values strictly inside a value *)
Definition inside (v : value) : list value := match v with Leaf _ => [] | VList _ _ _ items => flat_map subvalues items end.
(** [x] is inside the list [l], somewhere in [root]. *)
Definition below (root : value) (l : nat) (x : ident) : Prop :=
  exists v w, In v (subvalues root) /\ ident_of v = L l /\ In w (inside v) /\ ident_of w = x.
(** [x] is an item of the list [l]. *)
Definition item_of_list (root : value) (l : nat) (x : ident) : Prop :=
  exists t step items w, In (VList l t step items) (subvalues root) /\ In w items /\ ident_of w = x.
(** [f] is in an item whose position is one of those from [i] to [j], counted round the
    list. *)
Definition round_trip (i j n : nat) : list nat :=
  if i <=? j then seq i (S j - i) else seq i (n - i) ++ seq 0 (S j).
Definition in_items (items : list value) (positions : list nat) (f : nat) : Prop :=
  exists k v, In k positions /\ nth_error items k = Some v /\ In f (leaves v).
