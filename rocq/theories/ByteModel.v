(** Grammars compiled with token type 'byte' (brahmic/util.py:50-57 OpenSigma,
    pynini.default_token_type): every string of the tables is taken as its UTF-8
    bytes, sigma is byte.BYTE (all bytes except 0).  A generated symbol such as
    [VIRAMA,ZWNJ] is one label in either mode; it is a number above the code
    points. *)
From Verif Require Import Base RuleModel VisualModel ScriptData RegexModel WellformedModel
  ScriptModel Utf8Model.

(** The labels of a code point or generated symbol in byte mode. *)
Definition labels (c : N) : str := match append c with Some b => b | None => [c] end.
Definition bytes (s : str) : str := flat_map labels s.

Definition byte_rule (r : rule) : rule := Rule (bytes (lhs r)) (bytes (rhs r)).
Definition byte_rules (rs : list rule) : list rule := map byte_rule rs.
Definition byte_item (p : preserve_item) : preserve_item := Preserve (bytes (pseq p)) (psym p).

(** pynini.lib.byte.BYTE *)
Definition BYTE : list N := map N.of_nat (seq 1 255).

(** char_util.py:55-59 in byte mode: the mark is a string of bytes. *)
Definition byte_dedup (c : str) : fst_t :=
  rewrite_ctx [Rule c []] BYTE (after_consonant [c]) always.

Definition byte_dedup_chars (ns : fst_t -> nat) (chars : list N) : option fst_t :=
  compose_fsts compose ns EMPTY (map (fun c => byte_dedup (bytes [c])) chars).

(** visual_norm.py:83-84 in byte mode *)
Definition byte_clean_joiner (P : list preserve_item) : fst_t :=
  rewrite (map (fun j => Rule (bytes [j]) []) [ZWNJ; ZWJ; ZWS]) (intermediate_sigma P BYTE).

(** visual_norm.py:75-113 in byte mode *)
Definition byte_visual_norm (ns : fst_t -> nat) (nfc dedup rewrite_fst : fst_t)
    (P : list preserve_item) (K : list str) : option fst_t :=
  let P' := map byte_item P in
  compose_fsts compose ns EMPTY
    ([nfc; dedup] ++ [rewrite_fst; mark_preserve P' (map bytes K) BYTE; byte_clean_joiner P';
                      reinstate P' BYTE; sigma_star BYTE]).

Definition byte_script_visual_norm (ns : fst_t -> nat) (is_mn : N -> bool) (d : script_data)
  : option fst_t :=
  match fst_from_rules ns (byte_rules (sd_nfc d)) BYTE,
        byte_dedup_chars ns (mark_chars (script_chars d) is_mn),
        fst_from_rules ns (byte_rules (sd_visual_rewrite d)) BYTE with
  | Some nfc, Some dedup, Some rw =>
    byte_visual_norm ns nfc dedup rw (sd_preserve d) (inputs (sd_consonant d))
  | _, _, _ => None
  end.

(** wellformed.py in byte mode *)
Definition byte_file (f : string_file) : string_file := map (fun p => (bytes (fst p), snd p)) f.
Definition byte_data (d : script_data) : script_data := {|
  sd_accept := byte_file (sd_accept d);
  sd_coda := byte_file (sd_coda d);
  sd_consonant := byte_file (sd_consonant d);
  sd_dead_consonant := byte_file (sd_dead_consonant d);
  sd_inherent_vowel := byte_file (sd_inherent_vowel d);
  sd_standalone := byte_file (sd_standalone d);
  sd_subjoined_consonant := byte_file (sd_subjoined_consonant d);
  sd_virama := byte_file (sd_virama d);
  sd_vowel := byte_file (sd_vowel d);
  sd_vowel_length_sign := byte_file (sd_vowel_length_sign d);
  sd_vowel_sign := byte_file (sd_vowel_sign d);
  sd_nfc := byte_rules (sd_nfc d);
  sd_reading_norm := byte_rules (sd_reading_norm d);
  sd_visual_rewrite := byte_rules (sd_visual_rewrite d);
  sd_preserve := map byte_item (sd_preserve d);
  sd_no_inherent_vowel := sd_no_inherent_vowel d |}.
