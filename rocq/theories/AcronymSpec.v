(** Acronyms: a word that consists of the Hindi names of English letters. *)
From Coq Require Import String.
From Verif Require Import Base NatModel NatSpec.
Local Open Scope string_scope.
Local Open Scope list_scope.

(** The names of the letters: for each place the characters that may stand there *)
Definition letter_names : list (string * list (list string)) := [
  ("A", [["e_i"; "ee_i"]]);
  ("B", [["b"]; ["i"; "ii"]]);
  ("C", [["s"]; ["i"; "ii"]]);
  ("D", [["dd"]; ["i"; "ii"]]);
  ("E", [["i_i"; "ii_i"]]);
  ("F", [["e_i"; "ee_i"]; ["f"; "ph"]; ["a"]]);
  ("G", [["j"]; ["i"; "ii"]]);
  ("H", [["e_i"; "ee_i"]; ["c"]; ["a"]]);
  ("I", [["a_i"; "aa_i"]; ["i_i"; "ii_i"]]);
  ("J", [["j"]; ["e"; "ee"]]);
  ("K", [["k"]; ["e"; "ee"]]);
  ("L", [["e_i"; "ee_i"]; ["l"]; ["a"]]);
  ("M", [["e_i"; "ee_i"]; ["m"]; ["a"]]);
  ("N", [["e_i"; "ee_i"]; ["n"]; ["a"]]);
  ("O", [["o_i"; "oo_i"]]);
  ("P", [["p"]; ["i"; "ii"]]);
  ("Q", [["k"]; ["y"]; ["u"; "uu"]]);
  ("R", [["a_i"; "aa_i"]; ["r"]; ["a"]]);
  ("S", [["e_i"; "ee_i"]; ["s"]; ["a"]]);
  ("T", [["tt"]; ["i"; "ii"]]);
  ("U", [["y"]; ["u"; "uu"]]);
  ("V", [["v"]; ["i"; "ii"]]);
  ("W", [["dd"]; ["a"]; ["b"]; ["l"]; ["u"; "uu"]]);
  ("W", [["dd"]; ["a"]; ["b"]; ["l"]; ["y"]; ["u"; "uu"]]);
  ("W", [["dd"]; ["a"]; ["b"]; ["a"]; ["l"]; ["y"]; ["u"; "uu"]]);
  ("W", [["dd"]; ["a"]; ["b"]; ["l"]; ["a"]; ["y"]; ["u"; "uu"]]);
  ("X", [["e_i"; "ee_i"]; ["k"]; ["s"]; ["a"]]);
  ("Y", [["v"]; ["a"; "aa"]; ["i_i"; "ii_i"]]);
  ("Z", [["j"; "z"]; ["e"; "ee"]; ["dd"]; ["a"]])].
Definition name_of (letter : string) (cs : list bchar) : Prop :=
  exists places, In (letter, places) letter_names /\ Forall2 (fun c p => In (btyp c) p) cs places.
(** The characters [cs] spell the letters [w] *)
Inductive acronym : list bchar -> list string -> Prop :=
| ac_end : acronym [] []
| ac_letter x cs rest w : name_of x cs -> acronym rest w -> acronym (cs ++ rest) (x :: w).
(** as text *)
Definition capitals (w : list string) : str := flat_map bytes w.
