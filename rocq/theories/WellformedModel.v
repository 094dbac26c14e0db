(** Model of nisaba/scripts/brahmic/wellformed.py. *)
From Verif Require Import Base RuleModel VisualModel ScriptData RegexModel.

(** wellformed.py:38-41 _input_string_file *)
Definition input_string_file (f : string_file) : re := Strs (inputs f).

(** wellformed.py:100-123 accept_well_formed *)
Definition accept_well_formed (d : script_data) : re :=
  let core_consonant := input_string_file (sd_consonant d) in
  let dead_consonant := input_string_file (sd_dead_consonant d) in
  let subjoined_consonant := input_string_file (sd_subjoined_consonant d) in
  let vowel_sign := input_string_file (sd_vowel_sign d) in
  let independent_vowel := input_string_file (sd_vowel d) in
  let vowel_length_sign := input_string_file (sd_vowel_length_sign d) in
  let coda := input_string_file (sd_coda d) in
  let standalone := input_string_file (sd_standalone d) in
  let virama := input_string_file (sd_virama d) in
  let accept := input_string_file (sd_accept d) in
  let preserve := Strs (map pseq (sd_preserve d)) in
  let consonant := Cat core_consonant (ques_safe subjoined_consonant) in
  let cluster := Cat (star_safe (Cat consonant (Alt virama preserve))) consonant in
  let cluster_and_virama := Cat (Cat cluster virama) (ques_safe dead_consonant) in
  let cluster_with_vowel :=
    if sd_no_inherent_vowel d then Cat cluster vowel_sign else Cat cluster (ques vowel_sign) in
  let cluster_or_vowel_with_coda :=
    Cat (Alt independent_vowel cluster_with_vowel)
        (Cat (Cat (ques_safe vowel_length_sign) (ques_safe coda)) (ques_safe dead_consonant)) in
  let akshara := Alt cluster_or_vowel_with_coda cluster_and_virama in
  star_safe (Alt (Alt akshara standalone) accept).

(** grammar.cc:98-103 / far.py Accept: the acceptor as a predicate. *)
Definition well_formed (d : script_data) (s : str) : bool := accepts (accept_well_formed d) s.
