(** What the tester is to print. *)
From Coq Require Import String Ascii.
From Verif Require Import Base GrammarModel.
Local Open Scope list_scope.
Local Open Scope N_scope.

Definition words (s : string) : str := map N_of_ascii (list_ascii_of_string s).
Definition newline : str := [10].
(** Strings with a separator between them *)
Fixpoint joined (separator : str) (l : list str) : str :=
  match l with [] => [] | [x] => x | x :: r => x ++ separator ++ joined separator r end.
(** The bytes of labels: zeros stand for nothing, of other labels a byte has eight bits *)
Definition bytes_of (labels : str) : str := map (fun c => c mod 256) (filter (fun c => negb (c =? 0)) labels).
(** The best outputs of a lattice: different strings, each with its least cost, at most n;
    if there are fewer than n, all strings; none that is left out is cheaper. *)
Definition least_cost (l : lattice) (s : str) (w : N) : Prop := In (s, w) l /\ forall v, In (s, v) l -> w <= v.
Definition best (n : N) (l b : lattice) : Prop :=
  NoDup (map fst b) /\ (forall s w, In (s, w) b -> least_cost l s w) /\
  N.of_nat (List.length b) <= n /\
  (forall s v, In (s, v) l -> ~ In s (map fst b) -> N.of_nat (List.length b) = n /\ forall p, In p b -> snd p <= v).
(** A rule can be used: its names are in the archive *)
Definition named (m : archive) (t : triple) : Prop :=
  get_fst m (main_rule t) <> None /\ (parens_rule t <> [] -> get_fst m (parens_rule t) <> None) /\ (assign_rule t <> [] -> get_fst m (assign_rule t) <> None).
(** Messages *)
Definition failed (input : str) : str := words "Rewrite failed for " ++ [34] ++ input ++ [34].
Definition unable : str := words "Unable to parse input string.".
Definition output_line (prefix : bool) (s : str) : str := (if prefix then words "Output string: " else []) ++ s ++ newline.
(** With the cost, if it is not zero *)
Definition costly_line (show_cost : N -> str) (prefix : bool) (s : str) (w : N) : str :=
  (if prefix then words "Output string: " else []) ++ s ++ (if w =? 0 then [] else words " <cost=" ++ show_cost w ++ words ">") ++ newline.
Definition detail_line (name s : str) : str := words "output of rule[" ++ name ++ words "] is: " ++ s ++ newline.
(** A mode of input or output *)
Definition readable {A} (read_text : str -> option A) (mode : str) : Prop := mode = words "byte" \/ mode = words "utf8" \/ read_text mode <> None.
