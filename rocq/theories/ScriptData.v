(** The per-script component files read by brahmic/wellformed.py, visual_norm.py,
    iso.py and char_util.py.  A pair is a line of a StringFile; [None] stands
    for a missing second column. *)
From Verif Require Import Base RuleModel VisualModel.

Definition string_file := list (str * option str).

Record script_data := ScriptData {
  sd_accept : string_file;
  sd_coda : string_file;
  sd_consonant : string_file;
  sd_dead_consonant : string_file;
  sd_inherent_vowel : string_file;
  sd_standalone : string_file;
  sd_subjoined_consonant : string_file;
  sd_virama : string_file;
  sd_vowel : string_file;
  sd_vowel_length_sign : string_file;
  sd_vowel_sign : string_file;
  sd_nfc : list rule;
  sd_reading_norm : list rule;
  sd_visual_rewrite : list rule;
  sd_preserve : list preserve_item;
  sd_no_inherent_vowel : bool
}.

(** Input side of a StringFile. *)
Definition inputs (f : string_file) : list str := map fst f.

(** char_util.py:26-47 script_chars: both sides of the rule files, input sides
    of the others, as characters (utils/char.py:29-73). *)
Definition script_chars (d : script_data) : list N :=
  flat_map (fun f => concat (inputs f))
    [sd_accept d; sd_coda d; sd_consonant d; sd_dead_consonant d; sd_standalone d;
     sd_subjoined_consonant d; sd_virama d; sd_vowel d; sd_vowel_length_sign d;
     sd_vowel_sign d] ++
  flat_map (fun rs => flat_map (fun r => lhs r ++ rhs r) rs)
    [sd_nfc d; sd_reading_norm d; sd_visual_rewrite d].

(** utils/char.py:76-86 derive_sigma *)
Definition script_sigma (d : script_data) : list N :=
  script_chars d ++ [ZWNJ; ZWJ; ZWS].
