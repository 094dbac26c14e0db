(** C76: the tester of rewrite grammars. *)
From Coq Require Import String Ascii.
From Verif Require Import Base GrammarModel GrammarSpec SymtabModel TesterModel TesterSpec TesterProofs TesterResults.
Local Open Scope list_scope.
Local Open Scope N_scope.

(** It starts exactly if the archive can be read and is not empty, all rules are in it and the modes are readable. *)
Theorem C76_start : forall files read_text utf8_compiler symbol_compiler input_symbols far f,
  (exists t, initialize files read_text utf8_compiler symbol_compiler input_symbols far f = inr t) <->
  exists entries, files far = Some entries /\ entries <> [] /\
    (forall r, In r (str_split 44 (rules_flag f)) -> named (snd (read_archive entries)) (parse_triple r)) /\ readable read_text (input_mode f) /\ readable read_text (output_mode f).
Proof. exact starts. Qed.
(** The rules are those between commas. *)
Theorem C76_rules : forall s, joined [44] (str_split 44 s) = s /\ forall w, In w (str_split 44 s) -> ~ In 44 w.
Proof. exact (fun s => conj (split_joined 44 s) (split_free 44 s)). Qed.
(** The complaint that no rules are given is never made; without rules there is one, with an empty name. *)
Theorem C76_missing_refuted : forall files read_text utf8_compiler symbol_compiler input_symbols far f,
  initialize files read_text utf8_compiler symbol_compiler input_symbols far f <> inl No_rules.
Proof. exact never_without_rules. Qed.
(** After that no rewriting fails for want of a rule. *)
Theorem C76_no_want : forall files read_text utf8_compiler symbol_compiler input_symbols pdt far f t input,
  initialize files read_text utf8_compiler symbol_compiler input_symbols far f = inr t ->
  cascade_rewrite pdt (t_archive t) (map parse_triple (t_rules t)) input [] <> None.
Proof. exact no_want. Qed.
(** One output of bytes: that of the cascade of all rules *)
Theorem C76_cascade : forall files read_text utf8_compiler symbol_compiler input_symbols pdt best_paths show_cost far f t input p,
  byte_tester files read_text utf8_compiler symbol_compiler input_symbols far f t -> noutput f = 1 -> show_details f = false ->
  process_input pdt best_paths show_cost t f input p = match cascade_bytes pdt (t_archive t) (map parse_triple (t_rules t)) input with
    | Some s => output_line p (bytes_of s) | None => failed input end.
Proof. exact one. Qed.
(** ... which is an output of least cost, and failure says that there is none. *)
Theorem C76_least : forall files read_text utf8_compiler symbol_compiler input_symbols pdt best_paths show_cost far f t fs input p,
  byte_tester files read_text utf8_compiler symbol_compiler input_symbols far f t -> noutput f = 1 -> show_details f = false ->
  Forall2 (plain (t_archive t)) (map parse_triple (t_rules t)) fs ->
  (exists s w, through fs (compile_bytes input) s w /\ (forall s' w', through fs (compile_bytes input) s' w' -> w <= w') /\
     process_input pdt best_paths show_cost t f input p = output_line p (bytes_of s)) \/
  (forall s w, ~ through fs (compile_bytes input) s w) /\ process_input pdt best_paths show_cost t f input p = failed input.
Proof. exact one_least. Qed.
(** More outputs: the best ones, with costs that are not zero *)
Theorem C76_many : forall files read_text utf8_compiler symbol_compiler input_symbols pdt best_paths show_cost far f t fs input p,
  (forall n l, best n l (best_paths n l)) -> byte_tester files read_text utf8_compiler symbol_compiler input_symbols far f t -> noutput f <> 1 -> show_details f = false ->
  Forall2 (plain (t_archive t)) (map parse_triple (t_rules t)) fs ->
  exists l b, (forall s w, In (s, w) l <-> through fs (compile_bytes input) s w) /\ best (noutput f) l b /\
    ((b = [] /\ process_input pdt best_paths show_cost t f input p = failed input) \/
     (b <> [] /\ process_input pdt best_paths show_cost t f input p = flat_map (fun q => costly_line show_cost p (bytes_of (fst q)) (snd q)) b)).
Proof. exact many. Qed.
(** There is such a search. *)
Theorem C76_best_exists : exists f, forall n l, best n l (f n l).
Proof. exact best_exists. Qed.
(** Details: before the output, what the first rule gives, what the first two give, and so on *)
Theorem C76_details : forall files read_text utf8_compiler symbol_compiler input_symbols pdt best_paths show_cost far f t input p,
  byte_tester files read_text utf8_compiler symbol_compiler input_symbols far f t -> noutput f = 1 -> show_details f = true -> (1 < List.length (t_rules t))%nat ->
  process_input pdt best_paths show_cost t f input p = match cascade_bytes pdt (t_archive t) (map parse_triple (t_rules t)) input with
    | Some s => flat_map (fun i => match cascade_bytes pdt (t_archive t) (map parse_triple (firstn (S i) (t_rules t))) input with
        | Some u => detail_line (main_rule (parse_triple (nth i (t_rules t) []))) (bytes_of u) | None => [] end) (seq 0 (List.length (t_rules t))) ++ output_line p (bytes_of s)
    | None => failed input end.
Proof. exact details. Qed.
(** Outputs end in a new line, failures do not. *)
Theorem C76_told_apart : forall pdt best_paths show_cost t f input p, let r := process_input pdt best_paths show_cost t f input p in
  ((exists x, r = x ++ newline) /\ r <> failed input /\ r <> unable) \/ (r = failed input \/ r = unable) /\ ~ exists x, r = x ++ newline.
Proof. exact told_apart. Qed.
Theorem C76_unparsed : forall pdt best_paths show_cost t f input p, t_compile t input = None -> process_input pdt best_paths show_cost t f input p = unable.
Proof. exact unparsed. Qed.
(** ** Labels as text *)
Theorem C76_bytes : forall sep l, append_labels None BYTE sep l [] = Some (bytes_of l).
Proof. exact (fun sep l => append_bytes sep l []). Qed.
(** Different characters give different text. *)
Theorem C76_utf8 : forall sep l, ~ In 0 l -> append_labels None UTF8 sep l [] = Some (flat_map utf8_label l).
Proof. exact (fun sep l => append_utf8 sep l []). Qed.
Theorem C76_utf8_faithful : forall l l', Forall (fun c => c < 0x10000) l -> Forall (fun c => c < 0x10000) l' -> flat_map utf8_label l = flat_map utf8_label l' -> l = l'.
Proof. exact utf8_faithful. Qed.
(** Symbols have the separator between them; one that is missing makes it fail. *)
Theorem C76_symbols : forall t sep l, ~ In 0 l -> (forall c, In c l -> t c <> []) -> append_labels None (SYMBOL t) sep l [] = Some (joined sep (map t l)).
Proof. exact (fun t sep l => append_symbols t sep l []). Qed.
Theorem C76_symbol_missing : forall t sep l p, (exists c, In c l /\ c <> 0 /\ t c = []) -> append_labels None (SYMBOL t) sep l p = None.
Proof. exact append_missing. Qed.
(** Generated symbols are in brackets, without separators. *)
Theorem C76_generated : forall g type sep l p, ~ In 0 l -> (forall c, In c l -> g c <> []) ->
  append_labels (Some g) type sep l p = Some (p ++ flat_map (fun c => words "[" ++ g c ++ words "]") l).
Proof. exact append_generated. Qed.
(** The text does not tell the labels: labels over 255 lose bits, brackets may be letters, symbols may hold separators. *)
Theorem C76_truncated_refuted : exists a b : str, a <> b /\ ~ In 0 a /\ ~ In 0 b /\ forall sep, append_labels None BYTE sep a [] = append_labels None BYTE sep b [].
Proof. exact truncated. Qed.
Theorem C76_brackets_refuted : exists g a b, a <> b /\ Forall (fun c => 0 < c) a /\ Forall (fun c => 0 < c < 256) b /\ (forall c, c < 256 -> g c = []) /\
  forall sep, append_labels (Some g) BYTE sep a [] = append_labels (Some g) BYTE sep b [].
Proof. exact brackets. Qed.
Theorem C76_separators_refuted : exists t a b, a <> b /\ ~ In 0 a /\ ~ In 0 b /\ append_labels None (SYMBOL t) (words " ") a [] = append_labels None (SYMBOL t) (words " ") b [] /\
  append_labels None (SYMBOL t) (words " ") a [] <> None.
Proof. exact unseparated. Qed.

(** ** Examples: two rules, the first with two outputs *)
Example C76_example :
  let files (p : str) : option archive := if str_eqb p (words "a.far") then Some [(words "ADD", fun s => [(s ++ words "x", 2); (s ++ words "y", 1)]);
    (words "END", fun s => if str_eqb s (words "bx") then [(words "c", 0)] else if str_eqb s (words "by") then [(words "d", 3)] else [])] else None in
  let start rules n details := initialize files (fun _ => None) (fun _ => None) (fun _ _ => None) (fun _ _ => []) (words "a.far") (Flags rules (words "byte") (words "byte") n details (words " ")) in
  let try_ rules n details input := match start rules n details with
    | inr t => process_input (fun l _ _ _ => l) (fun _ l => l) (fun _ => words "n") t (Flags rules (words "byte") (words "byte") n details (words " ")) input true
    | inl _ => words "fatal" end in
  try_ (words "ADD,END") 1 false (words "b") = words "Output string: c" ++ newline /\
  try_ (words "ADD,END") 1 true (words "b") = words "output of rule[ADD] is: by" ++ newline ++ words "output of rule[END] is: c" ++ newline ++ words "Output string: c" ++ newline /\
  try_ (words "ADD,END") 2 false (words "b") = words "Output string: c <cost=n>" ++ newline ++ words "Output string: d <cost=n>" ++ newline /\
  try_ (words "ADD,END") 1 true (words "e") = words "Rewrite failed for " ++ [34] ++ words "e" ++ [34] /\
  try_ (words "ADD,OTHER") 1 true (words "e") = words "fatal" /\ start [] 1 false = inl (No_rule []).
Proof. vm_compute. repeat split. Qed.
(** The separator flag is documented as a set of characters, but all of it is printed. *)
Example C76_separator_example : append_labels (Some (fun c => if c =? 9 then words "G" else [])) (SYMBOL (fun c => [96 + c])) (words "; ") [1; 2; 9; 3; 0] [] = Some (words "a; b[G]; c").
Proof. vm_compute. reflexivity. Qed.

Print Assumptions C76_start.
Print Assumptions C76_rules.
Print Assumptions C76_missing_refuted.
Print Assumptions C76_no_want.
Print Assumptions C76_cascade.
Print Assumptions C76_least.
Print Assumptions C76_many.
Print Assumptions C76_best_exists.
Print Assumptions C76_details.
Print Assumptions C76_told_apart.
Print Assumptions C76_unparsed.
Print Assumptions C76_bytes.
Print Assumptions C76_utf8.
Print Assumptions C76_utf8_faithful.
Print Assumptions C76_symbols.
Print Assumptions C76_symbol_missing.
Print Assumptions C76_generated.
Print Assumptions C76_truncated_refuted.
Print Assumptions C76_brackets_refuted.
Print Assumptions C76_separators_refuted.
