(** The modes of the started tester. *)
From Coq Require Import String Ascii.
From Verif Require Import Base GrammarModel SymtabModel TesterModel TesterSpec TesterProofs TesterResults TesterModeSpec.
Local Open Scope list_scope.
Local Open Scope N_scope.

Section Modes.
Variable files : str -> option archive.
Variable read_text : str -> option symbols.
Variable utf8_compiler : str -> option str.
Variable symbol_compiler : symbols -> str -> option str.
Variable input_symbols : wfst -> symbols.

Lemma output_kind mode t : output_type read_text mode = Some t ->
  mode_kind read_text mode BYTE UTF8 SYMBOL t.
Proof.
  unfold output_type, mode_kind. change chars with words.
  destruct (str_eqb mode (words "byte")) eqn:E1.
  - apply str_eqb_eq in E1. intros [= <-]. auto.
  - apply str_eqb_neq in E1. destruct (str_eqb mode (words "utf8")) eqn:E2.
    + apply str_eqb_eq in E2. intros [= <-]. auto.
    + apply str_eqb_neq in E2. destruct (read_text mode) as [s|] eqn:E; [|discriminate].
      intros [= <-]. right. right. split; [assumption|]. split; [assumption|]. exists s. auto.
Qed.

Lemma input_kind mode c : input_compiler read_text utf8_compiler symbol_compiler mode = Some c ->
  mode_kind read_text mode (fun s => Some (compile_bytes s)) utf8_compiler symbol_compiler c.
Proof.
  unfold input_compiler, mode_kind. change chars with words.
  destruct (str_eqb mode (words "byte")) eqn:E1.
  - apply str_eqb_eq in E1. intros [= <-]. auto.
  - apply str_eqb_neq in E1. destruct (str_eqb mode (words "utf8")) eqn:E2.
    + apply str_eqb_eq in E2. intros [= <-]. auto.
    + apply str_eqb_neq in E2. destruct (read_text mode) as [s|] eqn:E; [|discriminate].
      intros [= <-]. right. right. split; [assumption|]. split; [assumption|]. exists s. auto.
Qed.

Lemma started_modes far f t :
  initialize files read_text utf8_compiler symbol_compiler input_symbols far f = inr t ->
  mode_kind read_text (input_mode f) (fun s => Some (compile_bytes s)) utf8_compiler
            symbol_compiler (t_compile t) /\
  mode_kind read_text (output_mode f) BYTE UTF8 SYMBOL (t_type t) /\
  t_generated t = option_map input_symbols (get_fst (t_archive t) (words "*StringFstSymbolTable")) /\
  t_rules t = str_split 44 (rules_flag f).
Proof.
  unfold TesterModel.initialize. destruct (load_file files far []) as [[] m]; [|discriminate].
  destruct (str_split 44 (rules_flag f)) as [|r l] eqn:E; [discriminate|].
  destruct (check_rules m (r :: l)) as [e|]; [discriminate|].
  destruct (input_compiler read_text utf8_compiler symbol_compiler (input_mode f)) as [c|] eqn:Ei;
    [|discriminate].
  destruct (output_type read_text (output_mode f)) as [o|] eqn:Eo; [|discriminate].
  intros K. injection K as <-. cbn [t_rules t_archive t_compile t_type t_generated].
  split; [now apply input_kind|]. split; [now apply output_kind|]. split; reflexivity.
Qed.
End Modes.

(** The dialogue *)
Lemma dialogue files read_text utf8_compiler symbol_compiler input_symbols pdt best_paths show_cost far f t :
  byte_tester files read_text utf8_compiler symbol_compiler input_symbols far f t ->
  noutput f = 1 -> show_details f = false -> forall lines,
  run pdt best_paths show_cost t f lines =
  flat_map (fun s => words "Input string: " ++
    match cascade_bytes pdt (t_archive t) (map parse_triple (t_rules t)) s with
    | Some o => output_line true (bytes_of o) | None => failed s end ++ newline) lines
  ++ words "Input string: ".
Proof.
  intros B N1 D lines. induction lines as [|s r IH]; [reflexivity|].
  cbn [run flat_map]. rewrite IH.
  rewrite (one files read_text utf8_compiler symbol_compiler input_symbols pdt best_paths show_cost far f t s true B N1 D).
  change chars with words. change endl with newline. rewrite <- !app_assoc. reflexivity.
Qed.
