(** Model of visual and reading normalization of languages in Arabic script:
    nisaba/scripts/abjad_alphabet/visual_norm.py, visual_norm_common.py,
    reading_norm.py and util.py.  Transducers are those of RuleModel: functions from
    words to lists of outputs.  A string map is a list of rules without repetition;
    the empty map stands for the map of the empty string to itself that
    return_if_empty gives. *)
From Verif Require Import Base RuleModel RomanModel VisualModel RomanTables NfcTables ArabTables.

(** uf.StringFile: each pair once *)
Definition string_file (rs : list rule) : list rule := add_nodes [] rs.
(** Contexts: a character of sigma before or after, [BOS], [EOS] *)
Definition after_char (sigma : list N) (outr : str) : bool := match outr with [] => false | c :: _ => memN c sigma end.
Definition before_char (sigma : list N) (s : str) : bool := match s with [] => false | c :: _ => memN c sigma end.
Definition at_bos (outr : str) : bool := match outr with [] => true | _ :: _ => false end.
Definition at_eos (s : str) : bool := match s with [] => true | _ :: _ => false end.

(** visual_norm_common.py, lines 22-24, with the prefix of visual_norm.py, line 81 *)
Definition script_common_fsts (ns : fst_t -> nat) (presentation nfc common : list rule) (sigma : list N) : option (list fst_t) :=
  match fst_from_rules ns presentation sigma, fst_from_rules ns nfc sigma, fst_from_rules ns common sigma with
  | Some a, Some b, Some c => Some [a; b; c]
  | _, _, _ => None
  end.
(** visual_norm.py, lines 46-72 *)
Definition nonfinal_rewrite (l : lang_rules) (sigma : list N) : fst_t :=
  rewrite_ctx (string_file (nonfinal_tsv l)) sigma always (before_char sigma).
Definition final_rewrite (l : lang_rules) (sigma : list N) : fst_t :=
  rewrite_ctx (string_file (final_isolated_tsv l)) sigma (after_char sigma) at_eos.
Definition isolated_rewrite (l : lang_rules) (sigma : list N) : fst_t :=
  rewrite_ctx (string_file (final_isolated_tsv l ++ isolated_tsv l)) sigma at_bos at_eos.
Definition lang_fsts (ns : fst_t -> nat) (l : lang_rules) (sigma : list N) : option (list fst_t) :=
  match fst_from_rules ns (visual_norm_tsv l) sigma with
  | Some anywhere => Some [anywhere; nonfinal_rewrite l sigma; final_rewrite l sigma; isolated_rewrite l sigma]
  | None => None
  end.
(** visual_norm.py, lines 79-84 *)
Definition arab_visual (ns : fst_t -> nat) (presentation nfc common : list rule) (l : lang_rules) (sigma : list N) : option fst_t :=
  match script_common_fsts ns presentation nfc common sigma, lang_fsts ns l sigma with
  | Some a, Some b => compose_fsts compose ns EMPTY (a ++ b)
  | _, _ => None
  end.
(** reading_norm.py, lines 48-52 *)
Definition arab_reading (ns : fst_t -> nat) (l : lang_rules) (sigma : list N) : option fst_t :=
  fst_from_rules ns (reading_norm_tsv l) sigma.

(** util.py, lines 33-51; string.printable without brackets, and the joiners of
    derive_sigma in utils/char.py *)
Definition rule_chars (rs : list rule) : list N := flat_map (fun r => lhs r ++ rhs r) rs.
Definition lang_chars (l : lang_rules) : list N :=
  rule_chars (reading_norm_tsv l) ++ rule_chars (visual_norm_tsv l) ++ rule_chars (final_isolated_tsv l) ++
  rule_chars (isolated_tsv l) ++ rule_chars (nonfinal_tsv l).
Definition printable : list N :=
  filter (fun c => negb (N.eqb c 91 || N.eqb c 93)) (map N.of_nat (seq 9 5 ++ seq 32 95)).
Definition arab_sigma (langs : list lang_rules) (presentation nfc : list rule) (roman : table) : list N :=
  flat_map lang_chars langs ++ rule_chars nfc ++ rule_chars presentation ++ flat_map (fun p => fst p ++ snd p) roman ++
  printable ++ [ZWNJ; ZWJ; ZWS].
(** visual_norm.py, lines 79-84, and reading_norm.py, lines 48-52: the transducer of a language *)
Definition full_sigma : list N := arab_sigma arab_langs presentation_forms nfc_ARAB roman_table.
Definition lang_visual (ns : fst_t -> nat) (l : lang_rules) : option fst_t :=
  arab_visual ns presentation_forms nfc_ARAB arab_visual_norm l full_sigma.
Definition lang_reading (ns : fst_t -> nat) (l : lang_rules) : option fst_t := arab_reading ns l full_sigma.
