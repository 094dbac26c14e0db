(** Independent descriptions for C14-C16. *)
From Verif Require Import Base.

(** [sp] is the name of the character [c], which is not a control character. *)
Definition names_char (lookup : str -> option str) (is_cc : N -> bool) (sp : str) (c : N) : Prop :=
  lookup sp = Some [c] /\ is_cc c = false.

(** Exactly one position of [l] satisfies [P], and it holds [x]. *)
Definition only {A} (P : A -> Prop) (l : list A) (x : A) : Prop :=
  exists a b, l = a ++ x :: b /\ P x /\ forall y, In y a \/ In y b -> ~ P y.

(** Text of a field that none of the readers treats specially. *)
Definition plain_field (s : str) : Prop :=
  forall c, In c s -> ~ In c [9; 10; 13; 34; 35; 92]%N.

(** Lines of a rule file: blanks, a comment, or one or two fields with a comment after
    them.  Characters that the reader treats specially are written after a backslash. *)
Inductive file_line := BlankLine (blanks : nat) | CommentLine (text : str) | DataLine (source : str) (dest : option str) (note : option str).
Definition escape_field (s : str) : str :=
  flat_map (fun c => if existsb (N.eqb c) [9; 34; 35; 92]%N then [92; c]%N else [c]) s.
Definition line_body (l : file_line) : str :=
  match l with
  | BlankLine n => repeat 32%N n
  | CommentLine t => 35%N :: t
  | DataLine s d n =>
    escape_field s ++ match d with Some t => 9%N :: escape_field t | None => [] end ++ match n with Some t => 35%N :: t | None => [] end
  end.
Definition line_rows (l : file_line) : list (str * str) :=
  match l with DataLine s d _ => [(s, match d with Some t => t | None => [] end)] | _ => [] end.
Definition no_line_end (s : str) : Prop := ~ In 10%N s /\ ~ In 13%N s.
Definition readable_line (l : file_line) : Prop :=
  match l with
  | BlankLine _ => True
  | CommentLine t => ~ In 10%N t
  | DataLine s d n =>
    no_line_end s /\ match d with Some t => no_line_end t | None => s <> [] end /\
    match n with Some t => ~ In 10%N t | None => d = None -> exists c, In c s /\ c <> 32%N end
  end.
(** All lines but the last one end with a line feed; that one may. *)
Definition file_text (ls : list file_line) (last : option file_line) : str :=
  flat_map (fun l => line_body l ++ [10%N]) ls ++ match last with Some l => line_body l | None => [] end.
Definition file_lines (ls : list file_line) (last : option file_line) : list file_line :=
  ls ++ match last with Some l => [l] | None => [] end.
