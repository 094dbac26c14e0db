(** Model of iterable things and of equality,
    nisaba/scripts/natural_translit/utils/type_op.py.  Python objects: things that are
    not iterable, strings, Nothing constants, built-in iterables (not changed once
    made), and IterableThings, which are references into a heap. *)
From Verif Require Import Base.

Inductive obj :=
| Plain (cls id : N)
| Text (s : str)
| Nought (id : N)
| Group (cls : N) (items : list obj)
| Ref (addr : nat).

Record container := Container { c_class : N; c_type : option (list N); c_items : list obj }.
Notation heap := (list container).

(** The classes of Nothing and str; other classes are other numbers. *)
Definition nothing_class : N := 0.
Definition str_class : N := 1.
Definition class_of (h : heap) (x : obj) : option N :=
  match x with
  | Plain k _ => Some k
  | Text _ => Some str_class
  | Nought _ => Some nothing_class
  | Group k _ => Some k
  | Ref a => option_map c_class (nth_error h a)
  end.

(** IterableThing.valid_item, lines 238-243.  [c_type] is None for Any, otherwise the
    classes whose instances are instances of the item type (with subclasses). *)
Definition valid_item (h : heap) (c : container) (x : obj) : option bool :=
  match class_of h x with
  | None => None
  | Some k =>
    Some (match c_type c with
          | None => negb (N.eqb k nothing_class) && negb (N.eqb (c_class c) k)
          | Some ks => memN k ks
          end)
  end.

(** What a for loop over an object gives, when isinstance(item, Iterable) and it is not
    a string *)
Definition iterate (h : heap) (x : obj) : option (list obj) :=
  match x with
  | Group _ items => Some items
  | Ref a => option_map c_items (nth_error h a)
  | _ => None
  end.

Fixpoint replace {A} (l : list A) (n : nat) (x : A) : list A :=
  match l, n with
  | [], _ => []
  | _ :: r, O => x :: r
  | y :: r, S n' => y :: replace r n' x
  end.
Definition append (h : heap) (a : nat) (x : obj) : option heap :=
  match nth_error h a with
  | None => None
  | Some c => Some (replace h a (Container (c_class c) (c_type c) (c_items c ++ [x])))
  end.

Fixpoint for_each {A B} (f : A -> B -> option A) (s : A) (xs : list B) : option A :=
  match xs with
  | [] => Some s
  | x :: r => match f s x with None => None | Some s' => for_each f s' r end
  end.

(** IterableThing.add, lines 245-251.  [depth] is how deep Python can call; None is a
    RecursionError. *)
Fixpoint add (depth : nat) (h : heap) (a : nat) (xs : list obj) : option heap :=
  match depth with
  | O => None
  | S d =>
    for_each (fun h x =>
      match nth_error h a with
      | None => None
      | Some c =>
        match valid_item h c x with
        | None => None
        | Some true => append h a x
        | Some false =>
          match iterate h x with
          | Some items => add d h a items
          | None => Some h
          end
        end
      end) h xs
  end.

(** IterableThing.item, lines 253-256.  [None]: an IndexError *)
Definition item (l : list obj) (index : Z) (default : obj) : option obj :=
  if ((- Z.of_nat (length l) <=? index) && (index <? Z.of_nat (length l)))%Z
  then nth_error l (Z.to_nat (if (index <? 0)%Z then index + Z.of_nat (length l) else index))
  else Some default.

(** Making and adding *)
Inductive container_op :=
| Make (cls : N) (typed : option (list N)) (xs : list obj)
| Add (a : nat) (xs : list obj).
Definition step (depth : nat) (h : heap) (o : container_op) : option heap :=
  match o with
  | Make k t xs => add depth (h ++ [Container k t []]) (length h) xs
  | Add a xs => add depth h a xs
  end.
Definition steps (depth : nat) (os : list container_op) : option heap := for_each (step depth) [] os.

(** ** Equality *)
Section Equality.
  (** Fsts; their string, if they have one; pynini.equal on Fsts or strings; Python's == *)
  Variable fst : Type.
  Inductive value :=
  | VFst (f : fst)
  | VStr (s : str)
  | VNothing (id : N)
  | VThing (id : N) (v : option value)   (** [None]: its value is the thing itself *)
  | VOther (id : N).
  Variable fst_string : fst -> option str.
  Variable pyn_equal : fst + str -> fst + str -> bool.
  Variable eq : value -> value -> bool.

  (** value_of, lines 259-261; the value of a Nothing is not asked for *)
  Definition value_of (x : value) : value :=
    match x with VThing _ (Some v) => v | _ => x end.
  Definition is_nothing (x : value) : bool := match x with VNothing _ => true | _ => false end.

  (** is_string and str_of_fstlike, lines 278-294 *)
  Definition string_of (x : fst + str) : option str :=
    match x with inl f => fst_string f | inr s => Some s end.
  Definition fstlike (x : value) : option (fst + str) :=
    match x with VFst f => Some (inl f) | VStr s => Some (inr s) | _ => None end.
  Definition is_fst (x : value) : bool := match x with VFst _ => true | _ => false end.

  (** is_equal, lines 297-330 *)
  Definition is_equal (x y : value) : bool :=
    if is_fst x || is_fst y then
      match fstlike x, fstlike y with
      | Some f, Some g =>
        match string_of f, string_of g with
        | Some s, Some t => str_eqb s t
        | _, _ => pyn_equal f g
        end
      | _, _ => false
      end
    else
      negb (is_nothing (value_of x) || is_nothing (value_of y) || negb (eq (value_of x) (value_of y))).
End Equality.
Arguments VFst {fst}. Arguments VStr {fst}. Arguments VNothing {fst}. Arguments VThing {fst}. Arguments VOther {fst}.
Arguments value_of {fst}. Arguments is_nothing {fst}. Arguments is_fst {fst}. Arguments fstlike {fst}. Arguments string_of {fst}. Arguments is_equal {fst}.

(** type_check, lines 267-272: [same] is isinstance(obj, type(default)) *)
Definition type_check {A} (isinstance : A -> N -> bool) (class : A -> N) (x default : A) : A :=
  if isinstance x (class default) then x else default.
