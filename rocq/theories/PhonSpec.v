(** What phons and their inventory are meant to be. *)
From Coq Require Import String Ascii List NArith.
From Verif Require Import PhonTables PhonModel.
Import ListNotations.
Local Open Scope string_scope.
Local Open Scope list_scope.

(** Lists with a separator between *)
Fixpoint between {A} (sep : list A) (ls : list (list A)) : list A :=
  match ls with [] => [] | [l] => l | l :: ls' => l ++ sep ++ between sep ls' end.
(** The symbols of a sequence of machines, none of them empty *)
Inductive texts : list machine -> list string -> Prop :=
| texts_nil : texts [] []
| texts_cons l ms r : texts ms r -> texts (Text l :: ms) (l ++ r).
(** The part can be transliterated *)
Definition has_base (c : part) : Prop := exists m, In ("base", m) (tr_dict c).
(** A row of the documentation *)
Definition row_of (p : phon) : string * string * list string * list N * list string :=
  (alias (body p), txn (body p), ph (body p), ipa (body p), ftr (body p)).
(** Written with braces *)
Definition written (toks : list string) : string := String.concat "" (map (fun t => ("{" ++ t ++ "}")%string) toks).
Definition in_category (cat f : string) : Prop := In (f, cat) feature_table.
Definition exactly_one {A} (P : A -> Prop) (l : list A) : Prop := exists a x b, l = a ++ x :: b /\ P x /\ forall y, In y (a ++ b) -> ~ P y.
