(** The interactive tester of grammars, nisaba/interim/grm2/thrax/rewrite-tester.{h,cc}.
    Strings are lists of bytes, FSTs are as in GrammarModel.v.  Symbol tables carried by the
    FSTs of the archive (byte_symtab_, utf8_symtab_) are left out: they only go onto the
    input.  Flags are arguments.  The archives on disk, text files with symbol tables, the
    string compilers other than that for bytes, composition with pushdown rules, the search
    for more than one path, and the printing of costs are parameters. *)
From Coq Require Import String Ascii.
From Verif Require Import Base GrammarModel SymtabModel.
Local Open Scope list_scope.
Local Open Scope N_scope.

(** SymbolTable::Find of a label; empty if there is none *)
Notation symbols := (N -> str).
(** fst::TokenType of the output, with output_symtab_ *)
Inductive token := BYTE | UTF8 | SYMBOL (t : symbols).

(** rewrite-tester.cc:239-272 AppendLabel.  A char keeps the last eight bits of a label.  None: returns false *)
Definition append_label (generated : option symbols) (type : token) (separator : str) (label : N) (path : str) : option str :=
  if label =? 0 then Some path else
  match match generated with Some g => g label | None => [] end with
  | (_ :: _) as sym => Some (path ++ (chars "[" ++ sym ++ chars "]"))
  | [] =>
    match type with
    | SYMBOL t =>
      match t label with
      | [] => None
      | sym => Some ((match path with [] => path | _ => path ++ separator end) ++ sym)
      end
    | BYTE => Some (path ++ [label mod 256])
    | UTF8 => Some (path ++ utf8_label label)
    end
  end.
Fixpoint append_labels (generated : option symbols) (type : token) (separator : str) (labels path : str) : option str :=
  match labels with
  | [] => Some path
  | l :: r => match append_label generated type separator l path with Some p => append_labels generated type separator r p | None => None end
  end.

(** absl::StrSplit at a character *)
Fixpoint str_split (c : N) (s : str) : list str :=
  match s with
  | [] => [[]]
  | x :: r => if x =? c then [] :: str_split c r else match str_split c r with [] => [[x]] | w :: l => (x :: w) :: l end
  end.

Record flags := Flags { rules_flag : str; input_mode : str; output_mode : str; noutput : N; show_details : bool; field_separator : str }.
Record tester := Tester { t_archive : archive; t_rules : list str; t_compile : str -> option str; t_generated : option symbols; t_type : token }.
(** What ends the program while it starts *)
Inductive fatal := No_archive | No_rules | No_rule (name : str) | Bad_mode.

Section Tester.
Variable files : str -> option archive.
Variable read_text : str -> option symbols.
Variable utf8_compiler : str -> option str.
Variable symbol_compiler : symbols -> str -> option str.
(** The input symbols of the FST of that name (grm-manager.h:69-75) *)
Variable input_symbols : wfst -> symbols.
Variable pdt_compose : lattice -> wfst -> wfst -> option wfst -> lattice.
(** Project, RmEpsilon and ShortestPath with unique=true *)
Variable best_paths : N -> lattice -> lattice.
(** operator<< of a float *)
Variable show_cost : N -> str.

(** 83-117: all names of the rules *)
Fixpoint check_rules (m : archive) (rules : list str) : option fatal :=
  match rules with
  | [] => None
  | r :: rest =>
    let t := parse_triple r in
    match get_fst m (main_rule t) with
    | None => Some (No_rule (main_rule t))
    | Some _ =>
      match (match parens_rule t with [] => true | p => has_fst m p end) with
      | false => Some (No_rule (parens_rule t))
      | true =>
        match (match assign_rule t with [] => true | a => has_fst m a end) with
        | false => Some (No_rule (assign_rule t))
        | true => check_rules m rest
        end
      end
    end
  end.
(** grm-manager.h:69-75 *)
Definition generated_symbols (m : archive) : option symbols := option_map input_symbols (get_fst m (chars "*StringFstSymbolTable")).
(** 119-131, 132-144 *)
Definition input_compiler (mode : str) : option (str -> option str) :=
  if str_eqb mode (chars "byte") then Some (fun s => Some (compile_bytes s))
  else if str_eqb mode (chars "utf8") then Some utf8_compiler
  else option_map symbol_compiler (read_text mode).
Definition output_type (mode : str) : option token :=
  if str_eqb mode (chars "byte") then Some BYTE
  else if str_eqb mode (chars "utf8") then Some UTF8
  else option_map SYMBOL (read_text mode).
(** 77-145 Initialize *)
Definition initialize (far : str) (f : flags) : fatal + tester :=
  match load_file files far [] with
  | (false, _) => inl No_archive
  | (true, m) =>
    let rules := str_split 44 (rules_flag f) in
    match rules with
    | [] => inl No_rules
    | _ =>
      match check_rules m rules with
      | Some e => inl e
      | None =>
        match input_compiler (input_mode f) with
        | None => inl Bad_mode
        | Some c =>
          match output_type (output_mode f) with
          | None => inl Bad_mode
          | Some t => inr (Tester m rules c (generated_symbols m) t)
          end
        end
      end
    end
  end.

(** 213-237 FstToStrings: the strings found until the first failure, and whether there was none *)
Fixpoint print_paths (t : tester) (separator : str) (l : lattice) : list (str * N) * bool :=
  match l with
  | [] => ([], true)
  | (labels, w) :: r =>
    match append_labels (t_generated t) (t_type t) separator labels [] with
    | None => ([], false)
    | Some s => let (a, ok) := print_paths t separator r in ((s, w) :: a, ok)
    end
  end.
Definition fst_to_strings (t : tester) (separator : str) (n : N) (l : lattice) : list (str * N) * bool :=
  match (if n =? 1 then match shortest l with Some p => [p] | None => [] end else best_paths n l) with
  | [] => ([], false)
  | paths => print_paths t separator paths
  end.
Definition endl : str := [10].
(** 176-194: the rules one after the other; the text printed so far; false: a rewrite failed.  [out] is output_fst. *)
Fixpoint run_rules (t : tester) (f : flags) (details : bool) (rules : list str) (input out : lattice) (text : str) : str * lattice * bool :=
  match rules with
  | [] => (text, out, true)
  | r :: rest =>
    let triple := parse_triple r in
    match rewrite_lattice pdt_compose (t_archive t) triple input with
    | None => (text, out, false)
    | Some l =>
      let text' := if details then
          text ++ flat_map (fun p => chars "output of rule[" ++ main_rule triple ++ chars "] is: " ++ fst p ++ endl) (fst (fst_to_strings t (field_separator f) (noutput f) l))
        else text in
      run_rules t f details rest l l text'
    end
  end.
(** 153-206 ProcessInput *)
Definition process_input (t : tester) (f : flags) (input : str) (prepend_output : bool) : str :=
  match t_compile t input with
  | None => chars "Unable to parse input string."
  | Some labels =>
    let '(text, out, succeeded) := run_rules t f (show_details f && (1 <? N.of_nat (List.length (t_rules t)))) (t_rules t) [(labels, 0)] [] [] in
    let (outputs, ok) := fst_to_strings t (field_separator f) (noutput f) out in
    if succeeded && ok then
      text ++ flat_map (fun p =>
        (if prepend_output then chars "Output string: " else []) ++ fst p ++
        (if negb (noutput f =? 1) && negb (snd p =? 0) then chars " <cost=" ++ show_cost (snd p) ++ chars ">" else []) ++ endl) outputs
    else chars "Rewrite failed for " ++ [34] ++ input ++ [34]
  end.
(** 148-151, 208-211 Run and ReadInput: the inputs are lines; the last prompt is not answered *)
Fixpoint run (t : tester) (f : flags) (lines : list str) : str :=
  match lines with
  | [] => chars "Input string: "
  | s :: r => chars "Input string: " ++ process_input t f s true ++ endl ++ run t f r
  end.
End Tester.
