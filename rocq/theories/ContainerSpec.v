(** What a container takes from an argument. *)
From Verif Require Import Base ContainerModel.

Definition accepted (c : container) (k : N) : Prop :=
  match c_type c with
  | None => k <> nothing_class /\ k <> c_class c
  | Some ks => In k ks
  end.
Definition known (h : heap) (x : obj) (k : N) : Prop := class_of h x = Some k.
Definition contents (h : heap) (x : obj) (items : list obj) : Prop :=
  match x with
  | Group _ l => items = l
  | Ref b => exists c, nth_error h b = Some c /\ items = c_items c
  | _ => False
  end.

(** [takes h a c x ys]: container [c], at [a], takes [ys] from [x]: [x] itself if it is
    accepted, otherwise what it takes from the items of [x], otherwise nothing.  The
    container is not looked into itself. *)
Inductive takes (h : heap) (a : nat) (c : container) : obj -> list obj -> Prop :=
| takes_it x k : known h x k -> accepted c k -> takes h a c x [x]
| takes_items x k items ys : known h x k -> ~ accepted c k -> x <> Ref a -> contents h x items -> takes_all h a c items ys -> takes h a c x ys
| takes_nothing x k : known h x k -> ~ accepted c k -> (forall b, x <> Ref b) -> (forall k l, x <> Group k l) -> takes h a c x []
with takes_all (h : heap) (a : nat) (c : container) : list obj -> list obj -> Prop :=
| takes_end : takes_all h a c [] []
| takes_more x xs ys zs : takes h a c x ys -> takes_all h a c xs zs -> takes_all h a c (x :: xs) (ys ++ zs).

(** The references in an object, at any depth of built-in iterables *)
Fixpoint refs (x : obj) : list nat :=
  match x with
  | Ref b => [b]
  | Group _ items => flat_map refs items
  | _ => []
  end.
(** No container holds itself, however indirectly. *)
Definition acyclic (h : heap) (rank : nat -> nat) : Prop :=
  forall b c d, nth_error h b = Some c -> In d (flat_map refs (c_items c)) -> rank d < rank b /\ d < length h.

(** Every item is accepted by the container it is in. *)
Definition well_typed (h : heap) : Prop :=
  forall b c x, nth_error h b = Some c -> In x (c_items c) -> exists k, known h x k /\ accepted c k.

(** [h'] has the same containers as [h], with [ys] more in container [a]. *)
Definition grown (h h' : heap) (a : nat) (ys : list obj) : Prop :=
  length h' = length h /\
  (forall b c, b <> a -> nth_error h b = Some c -> nth_error h' b = Some c) /\
  forall c, nth_error h a = Some c -> nth_error h' a = Some (Container (c_class c) (c_type c) (c_items c ++ ys)).

(** Container [b] is [e], or holds it, however indirectly. *)
Inductive reaches (h : heap) : nat -> nat -> Prop :=
| reaches_self b : reaches h b b
| reaches_more b c d e : nth_error h b = Some c -> In d (flat_map refs (c_items c)) -> reaches h d e -> reaches h b e.

(** A Nothing, or a Thing with a Nothing as its value *)
Definition nothing_like {fst} (x : value fst) : Prop := exists i, x = VNothing i \/ exists t, x = VThing t (Some (VNothing i)).
