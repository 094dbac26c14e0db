(** C76: the modes that the flags of the tester choose. *)
From Coq Require Import String Ascii.
From Verif Require Import Base GrammarModel SymtabModel TesterModel TesterSpec TesterResults TesterModeSpec TesterModes.
Local Open Scope list_scope.
Local Open Scope N_scope.

(** Bytes, characters, or the symbols of a file; for the input and for the output; with the
    generated symbols of the archive and the rules between the commas. *)
Theorem C76_modes : forall files read_text utf8_compiler symbol_compiler input_symbols far f t,
  initialize files read_text utf8_compiler symbol_compiler input_symbols far f = inr t ->
  mode_kind read_text (input_mode f) (fun s => Some (compile_bytes s)) utf8_compiler
            symbol_compiler (t_compile t) /\
  mode_kind read_text (output_mode f) BYTE UTF8 SYMBOL (t_type t) /\
  t_generated t = option_map input_symbols (get_fst (t_archive t) (words "*StringFstSymbolTable")) /\
  t_rules t = str_split 44 (rules_flag f).
Proof. exact started_modes. Qed.
Print Assumptions C76_modes.

(** The dialogue: for every line a prompt, the output or the failure, and a new line *)
Theorem C76_dialogue : forall files read_text utf8_compiler symbol_compiler input_symbols pdt best_paths show_cost far f t,
  byte_tester files read_text utf8_compiler symbol_compiler input_symbols far f t ->
  noutput f = 1 -> show_details f = false -> forall lines,
  run pdt best_paths show_cost t f lines =
  flat_map (fun s => words "Input string: " ++
    match cascade_bytes pdt (t_archive t) (map parse_triple (t_rules t)) s with
    | Some o => output_line true (bytes_of o) | None => failed s end ++ newline) lines
  ++ words "Input string: ".
Proof. exact dialogue. Qed.
Print Assumptions C76_dialogue.

(** Characters in, the symbols of a file out *)
Example C76_modes_example :
  let files (p : str) : option archive := Some [(words "R", fun s => [(s, 0)])] in
  let read (p : str) := if str_eqb p (words "s.txt") then Some (fun c => [c; c]) else None in
  match initialize files read (fun s => Some (0 :: s)) (fun _ _ => None) (fun _ _ => []) (words "a")
          (Flags (words "R,R") (words "utf8") (words "s.txt") 1 false []) with
  | inr t => t_compile t [7] = Some [0; 7] /\ t_rules t = [words "R"; words "R"] /\
             match t_type t with SYMBOL g => g 5 = [5; 5] | _ => False end
  | inl _ => False
  end.
Proof. vm_compute. auto. Qed.

(** Two lines, of which the rule takes one *)
Example C76_dialogue_example :
  let files (p : str) : option archive :=
    Some [(words "R", fun s => if str_eqb s [98] then [] else [(s, 0)])] in
  match initialize files (fun _ => None) (fun _ => None) (fun _ _ => None) (fun _ _ => []) (words "a")
          (Flags (words "R") (words "byte") (words "byte") 1 false []) with
  | inr t => run (fun _ _ _ _ => []) (fun _ _ => []) (fun _ => []) t
               (Flags (words "R") (words "byte") (words "byte") 1 false []) [[97]; [98]]
             = words "Input string: Output string: a" ++ [10; 10] ++
               words "Input string: Rewrite failed for " ++ [34; 98; 34; 10] ++ words "Input string: "
  | inl _ => False
  end.
Proof. vm_compute. reflexivity. Qed.
