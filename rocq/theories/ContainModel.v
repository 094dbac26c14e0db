(** Model of containment and ranges in
    nisaba/scripts/natural_translit/utils/feature.py. *)
From Verif Require Import Base FeatureModel FeatureSpec ProfileModel.

(** A feature or a value list, as an object *)
Inductive ident := F (f : nat) | L (l : nat).
Definition ident_of (v : value) : ident := match v with Leaf f => F f | VList l _ _ _ => L l end.
Definition ident_eqb (x y : ident) : bool :=
  match x, y with F f, F g => Nat.eqb f g | L l, L m => Nat.eqb l m | _, _ => false end.

(** The assignments item.parent_list = [self] + self.parent_list made by
    ValueList.populate, lines 427-432, in order *)
Fixpoint assign (v : value) (up : list nat) : list (ident * list nat) :=
  match v with
  | Leaf f => [(F f, up)]
  | VList l _ _ items => (L l, up) :: flat_map (fun i => assign i (l :: up)) items
  end.
(** The last assignment counts; before it the list is empty. *)
Definition parent_list (root : value) (x : ident) : list nat :=
  match find (fun e => ident_eqb x (fst e)) (rev (assign root [])) with Some (_, p) => p | None => [] end.

(** Feature.Set.has_feature, lines 298-302 *)
Definition in_parents (root : value) (x : ident) (f : nat) : bool :=
  match x with F _ => false | L l => has l (parent_list root (F f)) end.
Definition set_has_feature (root : value) (s : list nat) (x : ident) : bool :=
  (match x with F f => has f s | L _ => false end) || existsb (in_parents root x) s.

(** Objects a value can be looked for in: a feature, a value list, an aspect, a set, a
    profile (its sets), and any other iterable (with the features in it) *)
Inductive obj := OFeature (f : nat) | OList (l : nat) (fs : list nat) | OAspect (fs : list nat) | OSet (s : list nat)
| OProfile (sets : list (list nat)) | OIterable (fs : list nat).
Definition iterable_features (o : obj) : list nat :=
  match o with OFeature _ => [] | OList _ fs => fs | OAspect fs => fs | OSet s => s | OProfile sets => concat sets | OIterable fs => fs end.
(** The last three lines of value_in, 1086-1088 *)
Definition value_in_rest (root : value) (x : ident) (o : obj) : bool :=
  (match x, o with F f, OFeature g => Nat.eqb f g | L l, OList m _ => Nat.eqb l m | _, _ => false end)
  || (match o with OList m _ => has m (parent_list root x) | _ => false end)
  || (match x with F f => has f (iterable_features o) | L _ => false end).
(** value_in, lines 1084-1089, with has_feature of lists, aspects, sets and profiles
    (lines 499-505, 652-654, 298-302, 930-932).  [depth] is the allowed depth of calls;
    None: it was exceeded (RecursionError). *)
Fixpoint value_in (root : value) (depth : nat) (x : ident) (o : obj) : option bool :=
  match depth with
  | 0 => None
  | S depth' =>
    match (match o with
           | OFeature _ | OIterable _ => Some false
           | OList _ _ | OAspect _ => value_in root depth' x o
           | OSet s => Some (set_has_feature root s x)
           | OProfile sets => Some (existsb (fun s => set_has_feature root s x) sets)
           end) with
    | None => None
    | Some true => Some true
    | Some false => Some (value_in_rest root x o)
    end
  end.

(** ValueList.range, lines 490-497, of the list [l] with the given items; None: an
    exception (an empty parent_list, or a value that is not in the list). *)
Definition set_union (s t : list nat) : list nat := to_set (s ++ t).
Definition set_difference (s t : list nat) : list nat := filter (fun f => negb (has f t)) s.
Definition slice {A} (a b : nat) (l : list A) : list A := skipn a (firstn b l).
Definition list_range (root : value) (l : nat) (items : list value) (first last : value) : option (list nat) :=
  match parent_list root (ident_of first) with
  | [] => None
  | p :: _ =>
    if negb (Nat.eqb p l) then Some []
    else
      match parent_list root (ident_of last) with
      | [] => None
      | q :: _ =>
        if negb (Nat.eqb q l) then Some []
        else
          match index_of first items, index_of last items with
          | Some i1, Some i2 =>
            let middle := to_set (flat_map leaves (slice (S (Nat.min i1 i2)) (Nat.max i1 i2) items)) in
            if i1 <? i2 then Some (set_union middle (to_set (leaves first ++ leaves last)))
            else Some (set_difference (to_set (flat_map leaves items)) middle)
          | _, _ => None
          end
      end
  end.

(** Aspect.filter, _make_set and set_not, lines 602-620: [of_aspect] tells which
    features have this aspect, [all] is the set of its features. *)
Definition make_set (of_aspect : nat -> bool) (all : list nat) (negation : bool) (fs : list nat) : list nat :=
  let filtered := to_set (filter of_aspect (to_set fs)) in
  if negation then set_difference all filtered else filtered.
