(** The tester from its start on. *)
From Coq Require Import String Ascii.
From Verif Require Import Base GrammarModel GrammarSpec GrammarProofs SymtabModel SymtabSpec SymtabProofs TesterModel TesterSpec TesterProofs.
Local Open Scope list_scope.
Local Open Scope N_scope.
Section Results.
Variable files : str -> option archive.
Variable read_text : str -> option symbols.
Variable utf8_compiler : str -> option str.
Variable symbol_compiler : symbols -> str -> option str.
Variable input_symbols : wfst -> symbols.
Variable pdt_compose : lattice -> wfst -> wfst -> option wfst -> lattice.
Variable best_paths : N -> lattice -> lattice.
Variable show_cost : N -> str.
Notation initialize := (initialize files read_text utf8_compiler symbol_compiler input_symbols).
Notation process_input := (process_input pdt_compose best_paths show_cost).
(** A tester for bytes that has started, with an archive without generated symbols *)
Definition byte_tester (far : str) (f : flags) (t : tester) : Prop :=
  initialize far f = inr t /\ input_mode f = words "byte" /\ output_mode f = words "byte" /\ get_fst (t_archive t) (words "*StringFstSymbolTable") = None.
Lemma byte_tester_ok far f t : byte_tester far f t -> clean t /\ (t_compile t = fun s => Some (compile_bytes s)) /\
  t_rules t <> [] /\ forallb (valid_triple (t_archive t)) (map parse_triple (t_rules t)) = true.
Proof.
  intros (I' & A & B & G). destruct (started files read_text utf8_compiler symbol_compiler input_symbols far f t I') as (R & V & C & O & Ge).
  split; [split; auto|]. split; [auto|]. split; [rewrite R; apply split_some|exact V].
Qed.
Lemma one far f t input p : byte_tester far f t -> noutput f = 1 -> show_details f = false ->
  process_input t f input p = match cascade_bytes pdt_compose (t_archive t) (map parse_triple (t_rules t)) input with
    | Some s => output_line p (bytes_of s) | None => failed input end.
Proof. intros B N1 D. destruct (byte_tester_ok far f t B) as (C & Co & _). apply one_output; auto. Qed.
Lemma one_least far f t fs input p : byte_tester far f t -> noutput f = 1 -> show_details f = false -> Forall2 (plain (t_archive t)) (map parse_triple (t_rules t)) fs ->
  (exists s w, through fs (compile_bytes input) s w /\ (forall s' w', through fs (compile_bytes input) s' w' -> w <= w') /\ process_input t f input p = output_line p (bytes_of s)) \/
  (forall s w, ~ through fs (compile_bytes input) s w) /\ process_input t f input p = failed input.
Proof.
  intros B N1 D F. rewrite (one far f t input p B N1 D). destruct (byte_tester_ok far f t B) as (_ & _ & Ne & _).
  assert (L := cascade_least pdt_compose (t_archive t) _ fs input F ltac:(destruct (t_rules t); [congruence|discriminate])).
  destruct (cascade_bytes _ _ _ _) as [s|]; [left; destruct L as (w & L1 & L2); exists s, w; auto|right; auto].
Qed.
Lemma many far f t fs input p : (forall n l, best n l (best_paths n l)) -> byte_tester far f t -> noutput f <> 1 -> show_details f = false ->
  Forall2 (plain (t_archive t)) (map parse_triple (t_rules t)) fs ->
  exists l b, (forall s w, In (s, w) l <-> through fs (compile_bytes input) s w) /\ best (noutput f) l b /\
    ((b = [] /\ process_input t f input p = failed input) \/ (b <> [] /\ process_input t f input p = flat_map (fun q => costly_line show_cost p (bytes_of (fst q)) (snd q)) b)).
Proof.
  intros Best B N1 D F. destruct (byte_tester_ok far f t B) as (C & Co & Ne & _).
  destruct (outputs_through pdt_compose (t_archive t) _ fs (compile_bytes input) F ltac:(destruct (t_rules t); [congruence|discriminate])) as (l & E & H).
  exists l, (best_paths (noutput f) l). split; [exact H|]. split; [apply Best|]. rewrite (more_outputs pdt_compose best_paths show_cost t f input p C Co N1 (or_introl D)), E.
  destruct (best_paths (noutput f) l) as [|q b]; [left; auto|right; split; [discriminate|reflexivity]].
Qed.
Lemma details far f t input p : byte_tester far f t -> noutput f = 1 -> show_details f = true -> (1 < List.length (t_rules t))%nat ->
  process_input t f input p = match cascade_bytes pdt_compose (t_archive t) (map parse_triple (t_rules t)) input with
    | Some s => flat_map (fun i => match cascade_bytes pdt_compose (t_archive t) (map parse_triple (firstn (S i) (t_rules t))) input with
        | Some u => detail_line (main_rule (parse_triple (nth i (t_rules t) []))) (bytes_of u) | None => [] end) (seq 0 (List.length (t_rules t))) ++ output_line p (bytes_of s)
    | None => failed input end.
Proof. intros B N1 D L. destruct (byte_tester_ok far f t B) as (C & Co & _ & V). apply with_details; auto. Qed.
(** A tester that has started never fails for want of a rule. *)
Lemma no_want far f t input : initialize far f = inr t -> cascade_rewrite pdt_compose (t_archive t) (map parse_triple (t_rules t)) input [] <> None.
Proof.
  intros I'. destruct (started files read_text utf8_compiler symbol_compiler input_symbols far f t I') as (R & V & _). apply (cascade_valid pdt_compose). exact V.
Qed.
End Results.
Lemma told_apart pdt best_paths show_cost t f input p :
  let r := process_input pdt best_paths show_cost t f input p in
  ((exists x, r = x ++ newline) /\ r <> failed input /\ r <> unable) \/ (r = failed input \/ r = unable) /\ ~ exists x, r = x ++ newline.
Proof.
  cbn zeta. destruct (ends_newline pdt best_paths show_cost t f input p) as [(x & E)|[E|E]].
  - left. split; [eauto|]. rewrite E. split; intros K; [symmetry in K; exact (failed_fails _ _ K)|].
    unfold unable in K. apply (f_equal (@rev N)) in K. unfold newline in K. rewrite rev_app_distr in K. discriminate.
  - right. split; [auto|]. rewrite E. intros (x & K). exact (failed_fails _ _ K).
  - right. split; [auto|]. rewrite E. intros (x & K). apply (f_equal (@rev N)) in K. unfold newline in K. rewrite rev_app_distr in K. discriminate.
Qed.
