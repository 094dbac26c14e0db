(** The iterator over the paths of an automaton,
    nisaba/interim/grm2/paths/paths.h.

    States are natural numbers (the value kNoStateId of the C++ code is only
    kept for the start state, as [None]; an arc always leads to a state, so
    the test of the loop at paths.h:185 is always true).  The weight type, its
    constants, its product and its equality test are parameters.  The vectors
    of the class are stacks: the head of a list is the back of the vector.
    Taking the last element of an empty vector is undefined behaviour in C++;
    here it is the value [Undefined].  The loop that walks forward can run for
    ever in a cyclic automaton; it has a fuel argument, and running out of
    fuel is the value [Diverges]. *)
From Coq Require Import List NArith ZArith Bool.
Import ListNotations.

Inductive outcome (A : Type) : Type :=
| Ok (a : A)
| Undefined
| Diverges.
Arguments Ok {A} a.
Arguments Undefined {A}.
Arguments Diverges {A}.

Definition bind {A B : Type} (o : outcome A) (f : A -> outcome B)
  : outcome B :=
  match o with
  | Ok a => f a
  | Undefined => Undefined
  | Diverges => Diverges
  end.

(** vector::pop_back *)
Definition pop_back {A : Type} (l : list A) : outcome (list A) :=
  match l with
  | [] => Undefined
  | _ :: rest => Ok rest
  end.

Section Paths.

Variable W : Type.
Variable wone wzero : W.
Variable wtimes : W -> W -> W.
Variable weqb : W -> W -> bool.

(** fst::ArcTpl *)
Record arc : Type := Arc
  { ilabel : N; olabel : N; arc_weight : W; nextstate : nat }.

(** fst::Fst: the parts that the iterator and its callers ask for.  The property kAcyclic is
    computed by OpenFst; it is a field here. *)
Record fst_t : Type := Fst
  { start : option nat;
    final : nat -> W;
    arcs : nat -> list arc;
    num_states : nat;
    acyclic_property : bool }.

(** paths.h:97-112 (the fields that change) *)
Record iterator : Type := Iterator
  { path_states : list nat;
    path_ilabels : list N;
    path_olabels : list N;
    path_weights : list W;
    offsets : list Z;
    pop_labels : bool }.

(** paths.h:41-42 *)
Definition initial_state_is_final : Z := (-2)%Z.
Definition new_state : Z := (-1)%Z.

(** paths.h:65 *)
Definition done (it : iterator) : bool :=
  match path_states it with [] => true | _ => false end.

(** paths.h:79-85 *)
Definition weight (it : iterator) : W :=
  fold_left wtimes (rev (path_weights it)) wone.

(** What a caller can read at a path: paths.h:71, 75, 79 *)
Definition observe (it : iterator) : list N * list N * W :=
  (rev (path_ilabels it), rev (path_olabels it), weight it).

(** paths.h:223-228 *)
Definition visit_arc (a : arc) (it : iterator) : iterator :=
  Iterator (path_states it)
    (ilabel a :: path_ilabels it)
    (olabel a :: path_olabels it)
    (arc_weight a :: path_weights it)
    (offsets it) (pop_labels it).

(** paths.h:230-238 *)
Definition maybe_pop_labels (it : iterator) : outcome iterator :=
  if pop_labels it then
    bind (pop_back (path_ilabels it)) (fun il =>
    bind (pop_back (path_olabels it)) (fun ol =>
    Ok (Iterator (path_states it) il ol (path_weights it) (offsets it) true)))
  else
    Ok (Iterator (path_states it) (path_ilabels it) (path_olabels it)
          (path_weights it) (offsets it) true).

(** ArcIterator: Seek and Value; [None] is Done. *)
Definition arc_at (m : fst_t) (s : nat) (offset : Z) : outcome (option arc) :=
  if (offset <? 0)%Z then Undefined
  else Ok (nth_error (arcs m s) (Z.to_nat offset)).

(** paths.h:159-182, the loop that goes back to a state with another arc.  Its
    first argument is the stack of states of the iterator; every round but the
    last one takes one of them away. *)
Fixpoint move_on (m : fst_t) (states : list nat) (it : iterator)
  : outcome (iterator * option nat) :=
  match states with
  | [] => Ok (it, None)
  | s :: rest =>
    match offsets it with
    | [] => Undefined
    | o :: os =>
      let offset := (o + 1)%Z in
      bind (arc_at m s offset) (fun found =>
      match found with
      | None =>
        bind (maybe_pop_labels it) (fun it1 =>
        bind (pop_back (path_weights it1)) (fun ws =>
        move_on m rest
          (Iterator rest (path_ilabels it1) (path_olabels it1) ws os
             (pop_labels it1))))
      | Some a =>
        bind (maybe_pop_labels it) (fun it1 =>
        bind (pop_back (path_weights it1)) (fun ws =>
        Ok (visit_arc a
              (Iterator (s :: rest) (path_ilabels it1) (path_olabels it1) ws
                 (offset :: os) (pop_labels it1)),
            Some (nextstate a))))
      end)
    end
  end.

(** paths.h:185-215, the loop that goes forward to a final state *)
Fixpoint forward (fuel : nat) (m : fst_t) (it : iterator) (n : nat)
  : outcome iterator :=
  match fuel with
  | O => Diverges
  | S fuel' =>
    if weqb (final m n) wzero then
      match arcs m n with
      | [] => Ok it
      | a :: _ =>
        let it1 := visit_arc a it in
        forward fuel' m
          (Iterator (n :: path_states it1) (path_ilabels it1)
             (path_olabels it1) (path_weights it1)
             (0%Z :: offsets it1) (pop_labels it1))
          (nextstate a)
      end
    else
      Ok (Iterator (n :: path_states it) (path_ilabels it) (path_olabels it)
            (final m n :: path_weights it) ((-1)%Z :: offsets it) false)
  end.

(** paths.h:147-216 *)
Definition next (fuel : nat) (m : fst_t) (it : iterator) : outcome iterator :=
  if done it then Ok it
  else
    match offsets it with
    | [] => Undefined
    | o :: os =>
      if (o =? initial_state_is_final)%Z then
        Ok (Iterator (path_states it) (path_ilabels it) (path_olabels it)
              (path_weights it) (new_state :: os) (pop_labels it))
      else
        bind (move_on m (path_states it) it) (fun r =>
        match r with
        | (it1, None) => Ok it1
        | (it1, Some n) => if done it1 then Ok it1 else forward fuel m it1 n
        end)
    end.

(** paths.h:129-145 *)
Definition reset (fuel : nat) (m : fst_t) (it : iterator) : outcome iterator :=
  match start m with
  | None =>
    Ok (Iterator (path_states it) (path_ilabels it) (path_olabels it)
          (path_weights it) (offsets it) false)
  | Some s =>
    next fuel m
      (Iterator (s :: path_states it) (path_ilabels it) (path_olabels it)
         (final m s :: path_weights it)
         ((if weqb (final m s) wzero then new_state
           else initial_state_is_final) :: offsets it)
         false)
  end.

Definition empty_iterator : iterator := Iterator [] [] [] [] [] false.

(** paths.h:118-127; the first component is error_ *)
Definition make (fuel : nat) (m : fst_t) (check_acyclic : bool)
  : outcome (bool * iterator) :=
  if check_acyclic && negb (acyclic_property m) then
    Ok (true, empty_iterator)
  else bind (reset fuel m empty_iterator) (fun it => Ok (false, it)).

(** The loop of the callers: for (; !paths.Done(); paths.Next()) ..., for
    example rewrite.h:220 or 241-245, with all that can be read at each path,
    and the iterator at the end.  The first argument bounds the number of
    paths. *)
Fixpoint collect (n fuel : nat) (m : fst_t) (it : iterator)
  : outcome (list (list N * list N * W) * iterator) :=
  if done it then Ok ([], it)
  else
    match n with
    | O => Diverges
    | S n' =>
      bind (next fuel m it) (fun it1 =>
      bind (collect n' fuel m it1) (fun r =>
      Ok (observe it :: Datatypes.fst r, snd r)))
    end.

End Paths.

Arguments Arc {W}.
Arguments ilabel {W}.
Arguments olabel {W}.
Arguments arc_weight {W}.
Arguments nextstate {W}.
Arguments Fst {W}.
Arguments start {W}.
Arguments final {W}.
Arguments arcs {W}.
Arguments num_states {W}.
Arguments acyclic_property {W}.
Arguments Iterator {W}.
Arguments path_states {W}.
Arguments path_ilabels {W}.
Arguments path_olabels {W}.
Arguments path_weights {W}.
Arguments offsets {W}.
Arguments pop_labels {W}.
Arguments done {W}.
Arguments weight {W}.
Arguments observe {W}.
Arguments visit_arc {W}.
Arguments maybe_pop_labels {W}.
Arguments arc_at {W}.
Arguments move_on {W}.
Arguments forward {W}.
Arguments next {W}.
Arguments reset {W}.
Arguments empty_iterator {W}.
Arguments make {W}.
Arguments collect {W}.
