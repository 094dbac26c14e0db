(** Acceptors built with pynini's union, concatenation and closure, as regular
    expressions over finite string sets, and nisaba/scripts/utils/file.py:47-63. *)
From Verif Require Import Base.

(** [Strs l] is the acceptor of a StringFile (projected to its input side). *)
Inductive re :=
| Strs (l : list str)
| Cat (a b : re)
| Alt (a b : re)
| Ques (a : re)
| Star (a : re).

Definition EPSILON : re := Strs [[]].

(** The strings accepted. *)
Inductive matches : re -> str -> Prop :=
| m_strs l s : In s l -> matches (Strs l) s
| m_cat a b s t : matches a s -> matches b t -> matches (Cat a b) (s ++ t)
| m_alt_l a b s : matches a s -> matches (Alt a b) s
| m_alt_r a b s : matches b s -> matches (Alt a b) s
| m_ques_none a : matches (Ques a) []
| m_ques_some a s : matches a s -> matches (Ques a) s
| m_star_nil a : matches (Star a) []
| m_star_cons a s t : matches a s -> matches (Star a) t -> matches (Star a) (s ++ t).

(** fst.start() == NO_STATE_ID: concatenation keeps the missing start state of
    its first argument, a union has one if one of its arguments has. *)
Fixpoint no_start (r : re) : bool :=
  match r with
  | Strs [] => true
  | Strs _ => false
  | Cat a _ => no_start a
  | Alt a b => no_start a && no_start b
  | Ques _ | Star _ => false
  end.

(** file.py:45-47 OnEmpty *)
Definition on_empty (fst return_if_empty : re) : re :=
  if no_start fst then return_if_empty else fst.

(** file.py:56-63 *)
Definition ques_safe (fst : re) : re := Ques (on_empty fst EPSILON).
Definition star_safe (fst : re) : re := Star (on_empty fst EPSILON).

(** The plain [.ques]; on an FST without states it is taken to give an empty
    FST again, which is what the comments in file.py:56-63 warn about. *)
Definition ques (fst : re) : re := if no_start fst then fst else Ques fst.

(** A computable matcher (derivatives). *)
Fixpoint nullable (r : re) : bool :=
  match r with
  | Strs l => existsb (fun s => match s with [] => true | _ => false end) l
  | Cat a b => nullable a && nullable b
  | Alt a b => nullable a || nullable b
  | Ques _ | Star _ => true
  end.

Fixpoint tails (c : N) (l : list str) : list str :=
  match l with
  | [] => []
  | (d :: s) :: l' => if N.eqb d c then s :: tails c l' else tails c l'
  | [] :: l' => tails c l'
  end.

Definition null_re (r : re) : bool := match r with Strs [] => true | _ => false end.
Definition cat (a b : re) : re := if null_re a then Strs [] else Cat a b.
Definition alt (a b : re) : re := if null_re a then b else if null_re b then a else Alt a b.

Fixpoint deriv (c : N) (r : re) : re :=
  match r with
  | Strs l => Strs (tails c l)
  | Cat a b => if nullable a then alt (cat (deriv c a) b) (deriv c b) else cat (deriv c a) b
  | Alt a b => alt (deriv c a) (deriv c b)
  | Ques a => deriv c a
  | Star a => cat (deriv c a) (Star a)
  end.

Fixpoint accepts (r : re) (s : str) : bool :=
  match s with
  | [] => nullable r
  | c :: s' => accepts (deriv c r) s'
  end.
