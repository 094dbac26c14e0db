(** Model of inventories, nisaba/scripts/natural_translit/utils/inventory.py.  Objects are
    those of ContainerModel; == on them is equality.  [None] is an exception. *)
From Coq Require Import Ascii String.
From Verif Require Import Base ContainerModel.
Local Open Scope list_scope.

Definition codes (s : string) : str := map (fun c => N.of_nat (nat_of_ascii c)) (list_ascii_of_string s).

Fixpoint obj_eqb (x y : obj) : bool :=
  match x, y with
  | Plain k i, Plain k' i' => N.eqb k k' && N.eqb i i'
  | Text s, Text t => str_eqb s t
  | Nought i, Nought j => N.eqb i j
  | Group k l, Group k' l' =>
    N.eqb k k' && (fix go l l' := match l, l' with
                   | [], [] => true
                   | a :: r, b :: r' => obj_eqb a b && go r r'
                   | _, _ => false
                   end) l l'
  | Ref a, Ref b => Nat.eqb a b
  | _, _ => false
  end.

(** A Thing to be added: the object, its alias, its value and its attributes *)
Record thing := Thing { t_self : obj; t_alias : str; t_value : obj; t_attrs : list (str * obj) }.
Fixpoint lookup {A} (k : str) (l : list (str * A)) : option A :=
  match l with
  | [] => None
  | (k', v) :: r => if str_eqb k k' then Some v else lookup k r
  end.
Definition has_str (k : str) (l : list str) : bool := existsb (str_eqb k) l.

(** type_op.MISSING *)
Definition MISSING : obj := Nought 2.

(** [i_reserved]: the attributes of the instance that are there from the start (alias,
    text, value, _items, _item_type, item_aliases, suppl_aliases and those of
    subclasses); [i_fields]: those added. *)
Record inv := Inv {
  i_container : container;
  i_reserved : list str;
  i_fields : list (str * obj);
  item_aliases : list str;
  suppl_aliases : list str
}.
(** Inventory.__init__, lines 48-52 *)
Definition new_inventory (cls : N) (typed : option (list N)) (reserved : list str) : inv :=
  Inv (Container cls typed []) reserved [] [] [].
Definition base_attributes : list str :=
  map codes ["alias"; "text"; "value"; "_items"; "_item_type"; "item_aliases"; "suppl_aliases"]%string.
Definition items_of (s : inv) : list obj := c_items (i_container s).

(** A method of the class is found unless the instance has an attribute of its name;
    calling the attribute instead is an exception. *)
Definition method (s : inv) (name : str) : bool := negb (has_str name (map fst (i_fields s))).

Section Heap.
  Variable h : heap.

  (** Inventory._add_field, lines 71-75 *)
  Definition add_field (s : inv) (alias : str) (v : obj) : bool * inv :=
    if has_str alias (i_reserved s) || has_str alias (map fst (i_fields s)) then (false, s)
    else (true, Inv (i_container s) (i_reserved s) (i_fields s ++ [(alias, v)]) (item_aliases s) (suppl_aliases s)).

  Definition append_item (s : inv) (alias : str) (v : obj) : inv :=
    let c := i_container s in
    Inv (Container (c_class c) (c_type c) (c_items c ++ [v])) (i_reserved s) (i_fields s) (item_aliases s ++ [alias]) (suppl_aliases s).
  Definition append_suppl (s : inv) (alias : str) : inv :=
    Inv (i_container s) (i_reserved s) (i_fields s) (item_aliases s) (suppl_aliases s ++ [alias]).

  (** Inventory.add_item, lines 85-93 *)
  Definition field_value (t : thing) (attr : str) : obj :=
    match attr with
    | [] => t_self t
    | _ => match lookup attr (t_attrs t) with Some v => v | None => MISSING end
    end.
  Definition add_item (s : inv) (t : thing) (attr : str) : option (bool * inv) :=
    if negb (method s (codes "add_item")) || negb (method s (codes "valid_item")) then None
    else
      let v := field_value t attr in
      match valid_item h (i_container s) v with
      | None => None
      | Some ok =>
        if negb ok || existsb (obj_eqb v) (items_of s) then Some (false, s)
        else if negb (method s (codes "_add_field")) then None
        else
          let '(added, s') := add_field s (t_alias t) v in
          Some (added, if added then append_item s' (t_alias t) v else s')
      end.

  (** Inventory.make_suppl and add_suppl, lines 95-104 *)
  Definition make_suppl (s : inv) (alias : str) (v : obj) : option (bool * inv) :=
    if negb (method s (codes "make_suppl")) || negb (method s (codes "_add_field")) then None
    else let '(added, s') := add_field s alias v in Some (added, if added then append_suppl s' alias else s').
  Definition add_suppl (s : inv) (t : thing) : option (bool * inv) :=
    if negb (method s (codes "add_suppl")) then None else make_suppl s (t_alias t) (t_value t).

  (** Inventory.get, lines 106-111.  getattr finds the fields first, then whatever the
      class has; aliases are always fields. *)
  Definition get (s : inv) (alias : str) (default : obj) : option obj :=
    if negb (method s (codes "get")) then None
    else if has_str alias (item_aliases s) || has_str alias (suppl_aliases s)
    then Some (match lookup alias (i_fields s) with Some v => v | None => default end)
    else Some default.

  (** Inventory.add does nothing, lines 81-83. *)
  Inductive inv_op :=
  | AddItem (t : thing) (attr : str)
  | AddSuppl (t : thing)
  | MakeSuppl (alias : str) (v : obj)
  | AddAny (xs : list obj)
  | Get (alias : str) (default : obj).
  Inductive answer := Added (b : bool) | Found (v : obj) | Self.

  Definition inv_step (s : inv) (o : inv_op) : option (answer * inv) :=
    match o with
    | AddItem t attr => option_map (fun r => (Added (fst r), snd r)) (add_item s t attr)
    | AddSuppl t => option_map (fun r => (Added (fst r), snd r)) (add_suppl s t)
    | MakeSuppl a v => option_map (fun r => (Added (fst r), snd r)) (make_suppl s a v)
    | AddAny _ => if method s (codes "add") then Some (Self, s) else None
    | Get a d => option_map (fun v => (Found v, s)) (get s a d)
    end.
  Fixpoint inv_run (s : inv) (os : list inv_op) : option (list answer * inv) :=
    match os with
    | [] => Some ([], s)
    | o :: r =>
      match inv_step s o with
      | None => None
      | Some (b, s') => option_map (fun q => (b :: fst q, snd q)) (inv_run s' r)
      end
    end.

  (** Inventory.from_list, lines 54-69 *)
  Definition from_list (cls : N) (typed : option (list N)) (reserved : list str) (items : list thing) (attr : str) (suppls : list thing) : option inv :=
    match for_each (fun s t => option_map snd (add_item s t attr)) (new_inventory cls typed reserved) items with
    | None => None
    | Some s => for_each (fun s t => option_map snd (add_suppl s t)) s suppls
    end.
End Heap.
