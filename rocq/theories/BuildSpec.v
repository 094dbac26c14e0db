(** What the archives built for scripts and languages are meant to hold. *)
From Coq Require Import String.
From Verif Require Import Base GrammarModel GrammarSpec FarModel FarSpec.
Local Open Scope list_scope.

(** The language, or else the script *)
Definition tag (p : str * str) : str := match snd p with [] => fst p | l => l end.
Definition letters_only (s : str) : Prop := s <> [] /\ forall c, In c s -> (65 <= c <= 90 \/ 97 <= c <= 122)%N.
(** No tag begins another one, whatever the case of letters *)
Definition prefix_free (l : list (str * str)) : Prop :=
  forall p q, In p l -> In q l -> is_prefix (small (tag p)) (small (tag q)) -> p = q.
(** The order of strings *)
Inductive rises : str -> str -> Prop :=
| rises_nil s : rises [] s
| rises_less x y a b : (x < y)%N -> rises (x :: a) (y :: b)
| rises_same x a b : rises a b -> rises (x :: a) (x :: b).
Definition ascending (l : list str) : Prop := forall a x b y c, l = a ++ x :: b ++ y :: c -> rises x y.
(** A place for a value: a character, the word, a character, a comma and a blank, a character *)
Definition place (word s : str) : Prop := exists c x y b, s = c :: word ++ x :: 44%N :: 32%N :: y :: b.
(** A flag with a default value *)
Definition flag_line (before after : string) (value : str) : str := letters_of before ++ value ++ letters_of after.
