(** Specification of lists of transducers: what they accept. *)
From Verif Require Import Base FstListModel.

(** A weighted relation: input, output, cost *)
Definition relation := str -> str -> N -> Prop.

(** The transducers among the arguments, from left to right at all depths *)
Fixpoint flat {F} (accep : str -> F) (a : arg F) : list F :=
  match a with
  | AFst f => [f]
  | AStr s => [accep s]
  | AIter l => flat_map (flat accep) l
  | AOther => []
  end.

(** One after the other on parts of the text *)
Inductive in_sequence : list relation -> relation :=
| seq_none : in_sequence [] [] [] 0%N
| seq_one (r : relation) rs x y c x' y' c' : r x y c -> in_sequence rs x' y' c' -> in_sequence (r :: rs) (x ++ x') (y ++ y') (c + c')%N.
(** Each on the result of the one before *)
Inductive in_turn : list relation -> relation :=
| turn_none x : in_turn [] x x 0%N
| turn_one (r : relation) rs x y z c c' : r x y c -> in_turn rs y z c' -> in_turn (r :: rs) x z (c + c')%N.

(** What the operations of Pynini mean *)
Record semantics {F} (rel : F -> relation) (no_fst : F) (accep : str -> F) (union2 : list F -> F) (star : F -> F)
  (cat composed : F -> F -> F) (EMPTY : F) : Prop := {
  no_fst_none : forall x y c, ~ rel no_fst x y c;
  EMPTY_none : forall x y c, ~ rel EMPTY x y c;
  accep_one : forall s x y c, rel (accep s) x y c <-> x = s /\ y = s /\ c = 0%N;
  union2_any : forall l x y c, rel (union2 l) x y c <-> exists f, In f l /\ rel f x y c;
  star_any : forall f x y c, rel (star f) x y c <-> exists n, in_sequence (repeat (rel f) n) x y c;
  cat_two : forall f g x y c, rel (cat f g) x y c <-> in_sequence [rel f; rel g] x y c;
  composed_two : forall f g x y c, rel (composed f g) x y c <-> in_turn [rel f; rel g] x y c }.
