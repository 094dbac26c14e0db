(** Model of nisaba/scripts/natural_translit/utils/feature.py: value lists and
    aspects.  Features and value lists are objects compared by identity, here
    numbers; distances (floats) are integers; None stands for an exception. *)
From Verif Require Import Base.

Inductive list_type := EQUIDISTANT | LINEAR | CYCLIC.
(** A feature, or a value list with its type, step and items *)
Inductive value :=
| Leaf (f : nat)
| VList (l : nat) (t : list_type) (step : Z) (items : list value).
Definition ERROR_DISTANCE : Z := 1000000%Z.

Definition same_value (v w : value) : bool :=
  match v, w with
  | Leaf f, Leaf g => Nat.eqb f g
  | VList l _ _ _, VList m _ _ _ => Nat.eqb l m
  | _, _ => false
  end.
(** list.index *)
Fixpoint index_of (v : value) (items : list value) : option nat :=
  match items with
  | [] => None
  | w :: items' => if same_value v w then Some 0 else option_map S (index_of v items')
  end.

(** ValueList.distance, lines 396-409 *)
Definition list_distance (t : list_type) (step : Z) (items : list value) (v1 v2 : value) : Z :=
  match index_of v1 items, index_of v2 items with
  | Some i1, Some i2 =>
    let delta := (Z.of_nat i2 - Z.of_nat i1)%Z in
    match t with
    | EQUIDISTANT => step
    | LINEAR => (delta * step)%Z
    | CYCLIC => (Z.min delta (Z.of_nat (length items) - delta) * step)%Z
    end
  | _, _ => ERROR_DISTANCE
  end.

(** Items, attribute names, distance_dict and max_dist of an Aspect *)
Record aspect := Aspect { items_of : list nat; names : list str; dict : list (nat * list (nat * Z)); max_dist : Z }.

Fixpoint get {A} (k : nat) (m : list (nat * A)) : option A :=
  match m with [] => None | (k', a) :: m' => if Nat.eqb k k' then Some a else get k m' end.
Fixpoint put {A} (k : nat) (a : A) (m : list (nat * A)) : list (nat * A) :=
  match m with
  | [] => [(k, a)]
  | (k', b) :: m' => if Nat.eqb k k' then (k, a) :: m' else (k', b) :: put k a m'
  end.
Definition has (f : nat) (l : list nat) : bool := existsb (Nat.eqb f) l.
Definition has_name (s : str) (l : list str) : bool := existsb (str_eqb s) l.

Section Aliases.
  (** The alias of a feature and of a value list *)
  Variable alias : nat -> str.
  Variable list_alias : nat -> str.

  (** Inventory.add_suppl, inventory.py lines 95-104, for a value list.  Only the
      attributes of the object count, not those of its class. *)
  Definition add_suppl (s : str) (a : aspect) : aspect :=
    if has_name s (names a) then a else Aspect (items_of a) (names a ++ [s]) (dict a) (max_dist a).
  (** Aspect.add_feature, lines 579-583, with Inventory.add_item, inventory.py lines
      85-93; the entry in distance_dict is made even if the item is not added. *)
  Definition add_feature (f : nat) (a : aspect) : aspect :=
    if has f (items_of a) || has_name (alias f) (names a)
    then Aspect (items_of a) (names a) (put f [] (dict a)) (max_dist a)
    else Aspect (items_of a ++ [f]) (names a ++ [alias f]) (put f [] (dict a)) (max_dist a).
  (** Aspect.add_distance, lines 590-600 *)
  Definition ensure (f : nat) (a : aspect) : aspect := if has f (items_of a) then a else add_feature f a.
  Definition set_distance (f g : nat) (d : Z) (m : list (nat * list (nat * Z))) : option (list (nat * list (nat * Z))) :=
    match get f m with Some e => Some (put f (put g d e) m) | None => None end.
  Definition add_distance (f g : nat) (d : Z) (a : aspect) : option aspect :=
    let a2 := ensure g (ensure f a) in
    match set_distance f g d (dict a2) with
    | None => None
    | Some m =>
      match set_distance g f d m with
      | None => None
      | Some m' => Some (Aspect (items_of a2) (names a2) m' (if (d >? max_dist a2)%Z then d else max_dist a2))
      end
    end.

  Definition then_ (o : option aspect) (f : aspect -> option aspect) : option aspect :=
    match o with Some a => f a | None => None end.
  (** Feature.add_distance, lines 145-153; in populate the aspect of the feature is
      set. *)
  Fixpoint feature_add_distance (f : nat) (v : value) (d : Z) (a : option aspect) : option aspect :=
    match v with
    | Leaf g => then_ a (add_distance f g d)
    | VList _ _ _ items => fold_left (fun a w => feature_add_distance f w d a) items a
    end.
  (** ValueList.add_distance, lines 411-415 *)
  Fixpoint value_add_distance (v w : value) (d : Z) (a : option aspect) : option aspect :=
    match v with
    | Leaf f => feature_add_distance f w d a
    | VList _ _ _ items => fold_left (fun a v' => value_add_distance v' w d a) items a
    end.
  (** ValueList.populate, lines 417-434; parent_list is not modelled. *)
  Fixpoint populate (v : value) (a : option aspect) : option aspect :=
    match v with
    | Leaf f => then_ a (fun a => Some (if has f (items_of a) then a else add_feature f a))
    | VList l t step items =>
      (fix loop (rest : list value) (a : option aspect) : option aspect :=
         match rest with
         | [] => a
         | item :: rest' =>
           loop rest' (fold_left (fun a item2 => value_add_distance item item2 (list_distance t step items item item2) a)
                         rest' (populate item a))
         end) items (then_ a (fun a => Some (add_suppl (list_alias l) a)))
    end.
  (** The attributes of an Aspect before populate *)
  Variable attributes : list str.
  (** Aspect.__init__ and Aspect.populate without the supplements, lines 558-564, 647 *)
  Definition populated (root : value) : option aspect := populate root (Some (Aspect [] attributes [] 0%Z)).
End Aliases.

(** Feature.distance between features, lines 158-186.  [any] and [n_a] are the
    aspect's supplements. *)
Definition feature_distance (a : aspect) (any n_a f g : nat) : option Z :=
  if Nat.eqb g f || Nat.eqb g any || Nat.eqb f any then Some 0%Z
  else if Nat.eqb g n_a || Nat.eqb f n_a then Some (max_dist a)
  else match get f (dict a) with
       | None => None
       | Some m => Some (match get g m with Some d => d | None => max_dist a end)
       end.
