(** What expressions mean: sets of words over symbols. *)
From Verif Require Import Base ExpressionModel.

(** The words of an expression; the symbol eps is the empty word. *)
Inductive lang : item -> list sy -> Prop :=
| L_sym_eps : lang (ISym Eps) []
| L_atm_eps : lang (IAtm Eps) []
| L_sym : forall s, s <> Eps -> s <> Fresh -> lang (ISym s) [s]
| L_atm : forall s, s <> Eps -> s <> Fresh -> lang (IAtm s) [s]
| L_cat_nil : lang (ICat []) []
| L_cat_cons : forall x l u v, lang x u -> lang (ICat l) v -> lang (ICat (x :: l)) (u ++ v)
| L_or : forall x l w, In x l -> lang x w -> lang (IOr l) w.

(** The word that a symbol list of the program stands for. *)
Definition word_of (l : list sy) : list sy := match l with [Eps] => [] | _ => l end.

(** Concatenations of words of a list of parts. *)
Inductive words_of (P : item -> list sy -> Prop) : list item -> list sy -> Prop :=
| W_nil : words_of P [] []
| W_cons : forall x l u v, P x u -> words_of P l v -> words_of P (x :: l) (u ++ v).

(** What an argument brings to a concatenation or an alternation: control symbols are
    skipped. *)
Definition control_item (x : item) : bool := match x with ISym s | IAtm s => is_control s | _ => false end.
Definition in_cat (x : item) (w : list sy) : Prop := if control_item x then w = [] else lang x w.
Definition in_or (x : item) (w : list sy) : Prop := control_item x = false /\ lang x w.

(** Expressions that can be made with the constructors and the add methods. *)
Inductive built : item -> Prop :=
| B_sym : forall s, s <> Fresh -> built (ISym s)
| B_atm : forall s, s <> Fresh -> built (IAtm s)
| B_any : built IAny
| B_exp : built IExp
| B_cat : built (ICat [])
| B_or : built (IOr [])
| B_cat_add : forall acc l, built (ICat acc) -> Forall built l -> built (ICat (cat_list l acc))
| B_or_add : forall acc l, built (IOr acc) -> Forall built l -> built (IOr (or_list l acc))
| B_alg : forall l r, built l -> built r -> built (IAlg (set_side l) (set_side r)).

(** Occurrence of a word at the head, the tail, both or anywhere. *)
Definition occurs (head tail : bool) (s l : list sy) : Prop :=
  match head, tail with
  | true, true => l = s
  | true, false => exists b, l = s ++ b
  | false, true => exists a, l = a ++ s
  | false, false => exists a b, l = a ++ s ++ b
  end.
Definition no_fresh (x : item) : Prop := forall l, In l (symbols x) -> ~ In Fresh l.
Definition is_alg (x : item) : bool := match x with IAlg _ _ => true | _ => false end.

(** Expression._add_item of an alternation as written in the code, with [copy] and with
    the loop over several arguments. *)
Definition add_item_code (x : item) (acc : list item) : list item :=
  match x with
  | IOr l => or_list l acc
  | ISym s | IAtm s => if is_control s then acc else acc ++ [IAtm s]
  | ICat [y] => or_list [y] acc
  | _ => acc ++ [copy x]
  end.

(** Some symbols for the examples *)
Definition atm (n : nat) : item := IAtm (Let n).
(** Concatenations of n words *)
Inductive power (P : list sy -> Prop) : nat -> list sy -> Prop :=
| P_zero : power P 0 []
| P_succ : forall n u v, P u -> power P n v -> power P (S n) (u ++ v).
