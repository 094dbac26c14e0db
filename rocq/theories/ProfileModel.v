(** Model of feature sets, profiles and multi-profiles,
    nisaba/scripts/natural_translit/utils/feature.py.  Objects compared by identity
    are numbers.  A Python set is a list without repetitions, in the order of
    insertion; the order Python gives is unspecified.  The arguments *features, any
    nesting of iterables, are taken flattened. *)
From Verif Require Import Base FeatureModel.

(** Aspects and inventories, after they have been populated.  A feature that was never
    added to an aspect has none (its aspect is Inventory.EMPTY). *)
Record world := World {
  aspect_of : nat -> option nat;
  data : nat -> aspect;
  any_of : nat -> nat;
  na_of : nat -> nat;
  aspect_alias : nat -> str;
  inventory_of : nat -> nat;
  aspects : nat -> list nat
}.

Definition same_aspect (a b : option nat) : bool :=
  match a, b with Some x, Some y => Nat.eqb x y | None, None => true | _, _ => false end.
(** min([max_dist] + ...); None: an exception *)
Fixpoint min_of (m : Z) (l : list (option Z)) : option Z :=
  match l with
  | [] => Some m
  | None :: _ => None
  | Some d :: l' => min_of (Z.min m d) l'
  end.

Section World.
  Variable W : world.

  (** Feature.distance, lines 158-191: of another feature, and of a Feature.Set.
      Inventory.EMPTY has no attribute [any]. *)
  Definition distance (f g : nat) : option Z :=
    if same_aspect (aspect_of W g) (aspect_of W f) then
      match aspect_of W f with
      | Some a => feature_distance (data W a) (any_of W a) (na_of W a) f g
      | None => if Nat.eqb g f then Some 0%Z else None
      end
    else Some ERROR_DISTANCE.
  Definition distance_to_set (f : nat) (s : list nat) : option Z :=
    if has f s then Some 0%Z else min_of ERROR_DISTANCE (map (distance f) s).

  (** Feature.Set.distance, lines 285-296 *)
  Fixpoint set_distance_loop (self : list nat) (fs : list nat) (min_dist : Z) : option Z :=
    match fs with
    | [] => Some min_dist
    | f :: fs' =>
      if has f self then Some 0%Z
      else match distance_to_set f self with
           | None => None
           | Some dist =>
             if (dist =? 0)%Z then Some 0%Z
             else set_distance_loop self fs' (if (dist <? min_dist)%Z then dist else min_dist)
           end
    end.
  Definition sets_distance (self other : list nat) : option Z := set_distance_loop self other ERROR_DISTANCE.

  (** Feature.Set.add, lines 228-234 *)
  Definition set_add (s : list nat) (f : nat) : list nat := if has f s then s else s ++ [f].
  Definition to_set (fs : list nat) : list nat := fold_left set_add fs [].
  (** Feature.Set.group_by_aspect and Inventory.aspect_dict, lines 236-250, 708-711, for
      the features of one inventory *)
  Fixpoint dict_add (a f : nat) (d : list (nat * list nat)) : list (nat * list nat) :=
    match d with
    | [] => [(a, [f])]
    | (b, s) :: d' => if Nat.eqb a b then (b, set_add s f) :: d' else (b, s) :: dict_add a f d'
    end.
  Definition aspect_dict (inv : nat) (fs : list nat) : list (nat * list nat) :=
    fold_left (fun d f =>
      match aspect_of W f with
      | Some a => if Nat.eqb (inventory_of W a) inv then dict_add a f d else d
      | None => d
      end) (to_set fs) [].

  (** ** Profiles.  Value sets are mutable objects in a store. *)
  Record profile := Profile { p_inventory : nat; p_items : list (str * nat) }.
  (** Attributes of a Profile before its aspects are added: alias, text, value, _items,
      _item_type, item_aliases, suppl_aliases, inventory, max_dist *)
  Variable profile_attributes : list str.

  Definition read (h : list (list nat)) (r : nat) : list nat := nth r h [].
  Fixpoint write (h : list (list nat)) (r : nat) (s : list nat) : list (list nat) :=
    match h, r with
    | [], _ => []
    | _ :: h', 0 => s :: h'
    | x :: h', S r' => x :: write h' r' s
    end.

  (** Profile.__init__, lines 762-787, with Inventory.add_item *)
  Definition default_value (n_a : bool) (a : nat) : nat := if n_a then na_of W a else any_of W a.
  Fixpoint add_aspects (n_a : bool) (d : list (nat * list nat)) (as_ : list nat) (items : list (str * nat)) (h : list (list nat))
    : list (str * nat) * list (list nat) :=
    match as_ with
    | [] => (items, h)
    | a :: as' =>
      let s := match get a d with Some s => to_set s | None => [default_value n_a a] end in
      let h' := h ++ [s] in
      if has_name (aspect_alias W a) (profile_attributes ++ map fst items) then add_aspects n_a d as' items h'
      else add_aspects n_a d as' (items ++ [(aspect_alias W a, length h)]) h'
    end.
  Definition new_profile (n_a : bool) (inv : nat) (fs : list nat) (h : list (list nat)) : profile * list (list nat) :=
    let (items, h') := add_aspects n_a (aspect_dict inv fs) (aspects W inv) [] h in (Profile inv items, h').

  (** Profile.get, lines 808-817: the value set, or a new set with n_a *)
  Fixpoint lookup (s : str) (items : list (str * nat)) : option nat :=
    match items with [] => None | (t, r) :: items' => if str_eqb s t then Some r else lookup s items' end.
  Definition profile_get (p : profile) (a : nat) (h : list (list nat)) : list nat :=
    match lookup (aspect_alias W a) (p_items p) with Some r => read h r | None => [na_of W a] end.

  (** The features of a profile, as *self *)
  Definition features_of (p : profile) (h : list (list nat)) : list nat := flat_map (fun i => read h (snd i)) (p_items p).
  (** Profile.copy, lines 819-820 *)
  Definition copy_profile (p : profile) (h : list (list nat)) : profile * list (list nat) :=
    new_profile false (p_inventory p) (features_of p h) h.
  (** Profile.update, lines 855-857; Feature.Set.update replaces the items.  An update of
      a set that is not stored is lost. *)
  Definition update_profile (p : profile) (fs : list nat) (h : list (list nat)) : list (list nat) :=
    fold_left (fun h e =>
      match lookup (aspect_alias W (fst e)) (p_items p) with
      | Some r => write h r (to_set (snd e))
      | None => h
      end) (aspect_dict (p_inventory p) fs) h.

  (** Profile.compare, lines 877-904: numerator and denominator of the similarity; None:
      an exception (a division by zero, or from the distance) *)
  Fixpoint compare_loop (p q : profile) (h : list (list nat)) (as_ : list nat) (total max : Z) : option (Z * Z) :=
    match as_ with
    | [] => if (max =? 0)%Z then None else Some ((max - total)%Z, max)
    | a :: as' =>
      match sets_distance (profile_get p a h) (profile_get q a h) with
      | None => None
      | Some d => compare_loop p q h as' (total + d)%Z (max + max_dist (data W a))%Z
      end
    end.
  Definition compare (p q : profile) (h : list (list nat)) (as_ : option (list nat)) : option (Z * Z) :=
    if Nat.eqb (p_inventory q) (p_inventory p)
    then compare_loop p q h (match as_ with Some l => l | None => aspects W (p_inventory p) end) 0 0
    else Some (0%Z, 1%Z).

  (** ** Histories *)
  Inductive op := New (n_a : bool) (inv : nat) (fs : list nat) | Update (i : nat) (fs : list nat) | Copy (i : nat).
  Record state := State { profiles : list profile; store : list (list nat) }.
  (** None: there is no such profile *)
  Definition run_op (s : state) (o : op) : option state :=
    match o with
    | New n_a inv fs => let (p, h) := new_profile n_a inv fs (store s) in Some (State (profiles s ++ [p]) h)
    | Update i fs =>
      match nth_error (profiles s) i with
      | Some p => Some (State (profiles s) (update_profile p fs (store s)))
      | None => None
      end
    | Copy i =>
      match nth_error (profiles s) i with
      | Some p => let (q, h) := copy_profile p (store s) in Some (State (profiles s ++ [q]) h)
      | None => None
      end
    end.
  Fixpoint run_ops (s : state) (os : list op) : option state :=
    match os with
    | [] => Some s
    | o :: os' => match run_op s o with Some s' => run_ops s' os' | None => None end
    end.

  (** ** Multi-profiles *)
  (** The items of a MultiProfile with their aliases *)
  Variable inventory_alias : nat -> str.
  Variable multi_attributes : list str.
  Definition has_profile (inv : nat) (m : list (str * profile)) : bool :=
    existsb (fun e => Nat.eqb (p_inventory (snd e)) inv) m.
  Fixpoint multi_lookup (s : str) (m : list (str * profile)) : option profile :=
    match m with [] => None | (t, p) :: m' => if str_eqb s t then Some p else multi_lookup s m' end.
  (** MultiProfile.new_profile, lines 984-989, with the profile returned.  If there is
      a profile for the inventory, get finds it by the inventory's alias; None: it is
      not there (MISSING has no method update). *)
  Definition multi_new (p : profile) (m : list (str * profile)) (h : list (list nat))
    : option (profile * list (str * profile) * list (list nat)) :=
    let (new, h') := copy_profile p h in
    if has_profile (p_inventory p) m then
      match multi_lookup (inventory_alias (p_inventory p)) m with
      | Some old => Some (new, m, update_profile old (features_of new h') h')
      | None => None
      end
    else if has_name (inventory_alias (p_inventory p)) (multi_attributes ++ map fst m) then Some (new, m, h')
    else Some (new, m ++ [(inventory_alias (p_inventory p), new)], h').
End World.
