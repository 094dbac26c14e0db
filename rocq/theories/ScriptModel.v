(** The grammars built for one script from its tables. *)
From Verif Require Import Base RuleModel VisualModel ScriptData.

(** nfc.py:34-50, the FST of one script. *)
Definition script_nfc (ns : fst_t -> nat) (d : script_data) : option fst_t :=
  fst_from_rules ns (sd_nfc d) (script_sigma d).

(** char_util.py:62-80 mark_chars and dedup_marks_fst. [is_mn] is
    [unicodedata.category(c) == 'Mn']. *)
Definition script_dedup (ns : fst_t -> nat) (is_mn : N -> bool) (d : script_data) : option fst_t :=
  dedup_chars ns (mark_chars (script_chars d) is_mn) (script_sigma d).

(** visual_norm.py:95-113 generator_main without a language. *)
Definition script_visual_norm (ns : fst_t -> nat) (is_mn : N -> bool) (d : script_data)
  : option fst_t :=
  match script_nfc ns d, script_dedup ns is_mn d,
        fst_from_rules ns (sd_visual_rewrite d) (script_sigma d) with
  | Some nfc, Some dedup, Some rw =>
    visual_norm ns nfc dedup rw (sd_preserve d) (inputs (sd_consonant d)) (script_sigma d)
  | _, _, _ => None
  end.

(** reading_norm.py:44-68 without a language. *)
Definition script_reading_norm (ns : fst_t -> nat) (d : script_data) : option fst_t :=
  fst_from_rules ns (sd_reading_norm d) (script_sigma d).
