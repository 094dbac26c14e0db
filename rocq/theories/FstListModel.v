(** Model of nisaba/scripts/natural_translit/utils/fst_list.py: lists of transducers
    made of nested arguments.  Transducers are of any type; the operations of Pynini
    are parameters (optimize keeps what a transducer accepts and is left out, except
    within compositions). *)
From Verif Require Import Base RuleModel.

(** An argument: a transducer, a string, something iterable, or any other object *)
Inductive arg (F : Type) := AFst (f : F) | AStr (s : str) | AIter (l : list (arg F)) | AOther.
Arguments AFst {F}. Arguments AStr {F}. Arguments AIter {F}. Arguments AOther {F}.

Section FstList.
  Context {F : Type} (no_fst : F) (accep : str -> F) (union2 : list F -> F) (star : F -> F)
    (cat composed : F -> F -> F) (num_states : F -> nat) (EMPTY : F).

  (** lines 92-97: what one argument adds *)
  Fixpoint add_arg (items : list F) (a : arg F) : list F :=
    match a with
    | AFst f => items ++ [f]
    | AStr s => items ++ [accep s]
    | AIter l => fold_left add_arg l items
    | AOther => items
    end.
  (** lines 80-97 *)
  Definition add (items : list F) (args : list (arg F)) : list F := fold_left add_arg args items.
  (** lines 30-33 *)
  Definition FstList (args : list (arg F)) : list F := add [] args.
  (** lines 35-38 *)
  Definition accep_list (strings : list str) : list F := FstList [AIter (map (fun s => AFst (accep s)) strings)].

  (** lines 99-106; pyn.union of two or more *)
  Definition union (items : list F) : F :=
    match items with
    | [] => no_fst
    | [f] => f
    | _ => union2 items
    end.
  (** lines 112-114 *)
  Definition union_star (items : list F) : F := star (union items).
  (** lines 116-121 *)
  Definition concat (items : list F) : F := fold_left cat items (accep []).
  (** lines 123-125 *)
  Definition compose (items : list F) : option F := compose_fsts composed num_states EMPTY items.

  (** A value given to make: something, or a tuple or list of values *)
  Inductive value := VAtom (f : F) | VTuple (l : list value).
  (** lines 40-73: every argument is unpacked; unpacking what is no tuple is an error *)
  Fixpoint make_args (maker : list value -> F) (args : list value) : option (list F) :=
    match args with
    | [] => Some []
    | VTuple l :: args' => match make_args maker args' with Some fs => Some (maker l :: fs) | None => None end
    | VAtom _ :: _ => None
    end.
  Definition make (maker : list value -> F) (args : list value) : option (list F) :=
    match make_args maker args with Some fs => Some (FstList [AIter (map AFst fs)]) | None => None end.
End FstList.
Arguments value F : clear implicits.
Arguments VAtom {F}. Arguments VTuple {F}.
