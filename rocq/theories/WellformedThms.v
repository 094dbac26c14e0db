(** C10: the acceptor of well-formed text. *)
From Verif Require Import Base RuleModel VisualModel ScriptData ScriptTables WellformedModel
  WellformedSpec WellformedProofs.

Theorem C10_exactly_unit_sequences : forall d,
  sd_no_inherent_vowel d = true \/ sd_vowel_sign d <> [] ->
  forall s, well_formed d s = true <-> unit_sequence d s.
Proof. exact well_formed_spec. Qed.
Print Assumptions C10_exactly_unit_sequences.

Theorem C10_accepts_empty : forall d, well_formed d [] = true.
Proof. exact well_formed_empty. Qed.
Print Assumptions C10_accepts_empty.

Theorem C10_closed_under_concatenation : forall d s t,
  well_formed d s = true -> well_formed d t = true -> well_formed d (s ++ t) = true.
Proof. exact well_formed_app. Qed.
Print Assumptions C10_closed_under_concatenation.

Theorem C10_monotone_in_tables : forall d e s,
  sd_no_inherent_vowel d = true \/ sd_vowel_sign d <> [] ->
  sd_no_inherent_vowel e = true \/ sd_vowel_sign e <> [] ->
  tables_included d e -> well_formed d s = true -> well_formed e s = true.
Proof. exact well_formed_mono. Qed.
Print Assumptions C10_monotone_in_tables.

Theorem C10_starts_with_starter : forall d s,
  sd_no_inherent_vowel d = true \/ sd_vowel_sign d <> [] ->
  no_empty_entry d -> s <> [] -> well_formed d s = true ->
  exists x t, starter d x /\ s = x ++ t.
Proof. exact well_formed_start. Qed.
Print Assumptions C10_starts_with_starter.

(** For the shipped tables: no text that starts with a vowel sign, coda,
    virama, length sign, dead or subjoined consonant or joiner is accepted,
    apart from six entries that are also standalones or exceptions. *)
Theorem C10_shipped_reject_dependent_start : forall d x t, In d all_scripts ->
  dependent d x -> ~ In x also_starters -> well_formed d (x ++ t) = false.
Proof. exact shipped_dependent_start. Qed.
Print Assumptions C10_shipped_reject_dependent_start.

(** For the shipped tables with no_inherent_vowel (Thaana): no text ending in
    a consonant is accepted. *)
Theorem C10_shipped_no_bare_consonant : forall d t c, In d all_scripts ->
  sd_no_inherent_vowel d = true -> listed (sd_consonant d) c ->
  well_formed d (t ++ c) = false.
Proof. exact shipped_no_bare_consonant. Qed.
Print Assumptions C10_shipped_no_bare_consonant.

Theorem C10_shipped_tables_good : forall d, In d all_scripts ->
  no_empty_entry d /\ (sd_no_inherent_vowel d = true \/ sd_vowel_sign d <> []).
Proof. exact shipped_tables. Qed.
Print Assumptions C10_shipped_tables_good.

(** KA VIRAMA KA I ANUSVARA is accepted, I alone or KA I I is not. *)
Example C10_example :
  In data_Deva all_scripts /\ In data_Thaa all_scripts /\ sd_no_inherent_vowel data_Thaa = true /\
  well_formed data_Deva [2325; 2381; 2325; 2367; 2306]%N = true /\
  well_formed data_Deva [2367]%N = false /\
  well_formed data_Deva [2325; 2367; 2367]%N = false.
Proof.
  split; [unfold all_scripts; simpl; tauto|]. split; [unfold all_scripts; simpl; tauto|].
  vm_compute. auto.
Qed.

(** Each of the six exceptions really can start accepted text. *)
Example C10_exceptions_needed :
  forallb (fun x => existsb (fun d => well_formed d x ||
                       existsb (fun a => prefixb x a && well_formed d a) (inputs (sd_accept d)))
                     all_scripts) also_starters = true.
Proof. vm_compute. reflexivity. Qed.
