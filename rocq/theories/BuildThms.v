(** C91: building archives for scripts and languages. *)
From Coq Require Import String.
From Verif Require Import Base GrammarModel GrammarSpec FarModel FarSpec BuildModel BuildSpec BuildProofs BuildUseProofs BuildNamesProofs.
Local Open Scope list_scope.

(** If no tag begins another one, the archive has every transducer under its language or
    else its script, in the order of the names. *)
Theorem C91_archive : forall export_name fst_of l, NoDup l -> prefix_free l -> (forall p, In p l -> letters_only (tag p)) ->
  (forall p, In p l -> export_name p = capital (tag p)) ->
  exists a, aggregated export_name fst_of l = Some a /\ Permutation a (map (fun p => (capital (tag p), fst_of p)) l) /\ ascending (map fst a).
Proof. exact archive_built. Qed.
Print Assumptions C91_archive.
(** What the grammars export *)
Theorem C91_export : forall p, brahmic_export p = capital (tag p).
Proof. exact tag_export. Qed.
Print Assumptions C91_export.
Theorem C91_export_abjad : forall p, snd p <> [] -> abjad_export p = capital (tag p).
Proof. exact tag_abjad. Qed.
Print Assumptions C91_export_abjad.
(** All shipped lists can be built. *)
Theorem C91_shipped : forall fst_of : str * str -> wfst,
  (forall l, In l [visual_script_langs; READING_NORM_LANGS] -> exists a, aggregated brahmic_export fst_of l = Some a /\
    Permutation a (map (fun p => (capital (tag p), fst_of p)) l) /\ ascending (map fst a)) /\
  exists a, aggregated abjad_export fst_of NORM_SCRIPT_LANGS = Some a /\
    Permutation a (map (fun p => (capital (tag p), fst_of p)) NORM_SCRIPT_LANGS) /\ ascending (map fst a).
Proof. exact shipped_built. Qed.
Print Assumptions C91_shipped.
(** Different tags are not enough: "ksh" for one script and "ks" for a later one are put in
    the wrong order. *)
Theorem C91_archive_refuted : exists l fst_of, NoDup l /\ (forall p, In p l -> letters_only (tag p)) /\ NoDup (map (fun p => capital (tag p)) l) /\
  aggregated brahmic_export fst_of l = None.
Proof. exact prefix_fails. Qed.
Print Assumptions C91_archive_refuted.
(** A language with two scripts: the second transducer is lost. *)
Theorem C91_two_scripts_refuted : exists l fst_of a p, NoDup l /\ (forall p, In p l -> letters_only (tag p)) /\
  aggregated brahmic_export fst_of l = Some a /\ In p l /\ forall n f, In (n, f) a -> f [] <> fst_of p [].
Proof. exact second_script_lost. Qed.
Print Assumptions C91_two_scripts_refuted.
(** The archive has the name that the Python readers look for. *)
Theorem C91_file : forall name t s, ~ is_infix (letters_of "_byte"%string) name -> suffix_of t s -> far_out name t = py_file name s.
Proof. exact out_read. Qed.
Print Assumptions C91_file.
Theorem C91_file_refuted : exists name t s, suffix_of t s /\ far_out name t <> py_file name s.
Proof. exact out_read_fails. Qed.
Print Assumptions C91_file_refuted.
(** sed puts the value into every place, from the left, and changes nothing else. *)
Theorem C91_sed_place : forall word value a c x y b,
  (forall a1 a2, a = a1 ++ a2 -> a2 <> [] -> ~ place word (a2 ++ c :: word ++ x :: 44%N :: 32%N :: y :: b)) ->
  sed word value (a ++ c :: word ++ x :: 44%N :: 32%N :: y :: b) 0 = a ++ c :: word ++ x :: 44%N :: 32%N :: y :: value ++ sed word value b 0.
Proof. exact sed_place. Qed.
Print Assumptions C91_sed_place.
Theorem C91_sed_none : forall word value s, (forall a b, s = a ++ b -> ~ place word b) -> sed word value s 0 = s.
Proof. exact sed_none. Qed.
Print Assumptions C91_sed_none.
(** The flags get their values. *)
Theorem C91_flags : forall p t, In p (visual_script_langs ++ READING_NORM_LANGS ++ NORM_SCRIPT_LANGS) ->
  In t [letters_of "byte"%string; letters_of "utf8"%string] ->
  map (make_py p t) flag_lines =
    [flag_line "_SCRIPT = flags.DEFINE_string('script', '" "', 'ISO 15924 script tag.')" (fst p);
     flag_line "_LANG = flags.DEFINE_string('lang', '" "', 'ISO 639-2/3 language tag.')" (snd p);
     flag_line "_TOKEN_TYPE = flags.DEFINE_enum('token_type', '" "', ['byte', 'utf8']," t].
Proof. exact flags_made. Qed.
Print Assumptions C91_flags.
(** The C++ normalizer supports exactly the scripts and the languages that have one. *)
Theorem C91_supports : forall fst_of acc v locate files far_path name pv pw,
  aggregated brahmic_export fst_of visual_script_langs = Some v ->
  locate (far_file_path far_path visual_norm_name) = Some pv -> files pv = Some v ->
  locate (far_file_path far_path wellformed_name) = Some pw -> files pw = Some (wellformed_archive acc) ->
  supports locate files far_path name = true <->
    (exists s, In s SCRIPTS /\ small name = small s) \/ exists lang script, In (lang, script) scripts_of_languages /\ small name = letters_of lang.
Proof. exact supports_names. Qed.
Print Assumptions C91_supports.
(** Not every visual normalization that is built can be used: not that of Assamese. *)
Theorem C91_supports_refuted : exists name, forall fst_of acc v locate files far_path pv pw,
  aggregated brahmic_export fst_of visual_script_langs = Some v ->
  locate (far_file_path far_path visual_norm_name) = Some pv -> files pv = Some v ->
  locate (far_file_path far_path wellformed_name) = Some pw -> files pw = Some (wellformed_archive acc) ->
  In (capital name) (map fst v) /\ supports locate files far_path name = false.
Proof. exact normalized_not_supported. Qed.
Print Assumptions C91_supports_refuted.
(** Reading normalization loads for six names. *)
Theorem C91_reading : forall fst_of fst_of' v r locate files far_path name pv pr,
  aggregated brahmic_export fst_of visual_script_langs = Some v -> aggregated brahmic_export fst_of' READING_NORM_LANGS = Some r ->
  locate (far_file_path far_path visual_norm_name) = Some pv -> files pv = Some v ->
  locate (far_file_path far_path reading_norm_name) = Some pr -> files pr = Some r ->
  fst (load_both locate files (make_reading_norm far_path name)) = Ok <-> In (small name) (map letters_of ["beng"; "lepc"; "mlym"; "bn"; "hi"; "ml"]%string).
Proof. exact reading_names. Qed.
Print Assumptions C91_reading.
(** The Python acceptor takes exactly the scripts, in any case. *)
Theorem C91_acceptor : forall fst_of acc v w pv pw script,
  aggregated brahmic_export fst_of visual_script_langs = Some v -> has_archive w pv v -> has_archive w pw (wellformed_archive acc) ->
  ((exists s, In s SCRIPTS /\ small script = small s) -> normalizing_acceptor w pv pw script = Some true) /\
  (~ (exists s, In s SCRIPTS /\ small script = small s) -> normalizing_acceptor w pv pw script = Some false).
Proof. exact acceptor_names. Qed.
Print Assumptions C91_acceptor.
(** So it refuses languages that are in the archive. *)
Theorem C91_acceptor_refuted : exists script, forall fst_of acc v w pv pw,
  aggregated brahmic_export fst_of visual_script_langs = Some v -> has_archive w pv v -> has_archive w pw (wellformed_archive acc) ->
  In (capital script) (map fst v) /\ normalizing_acceptor w pv pw script = Some false.
Proof. exact language_not_accepted. Qed.
Print Assumptions C91_acceptor_refuted.

(** The names in the shipped archives of normalizers *)
Theorem C91_names : forall fst_of : str * str -> wfst,
  option_map (map fst) (aggregated brahmic_export fst_of visual_script_langs) =
    Some (map letters_of ["AS"; "BENG"; "BN"; "BUGI"; "DEVA"; "GUJR"; "GURU"; "KNDA"; "LEPC"; "LIMB"; "MLYM"; "MTEI"; "NEWA"; "ORYA"; "SINH";
      "SYLO"; "TAKR"; "TAML"; "TELU"; "TGLG"; "THAA"; "TIRH"]%string) /\
  option_map (map fst) (aggregated brahmic_export fst_of READING_NORM_LANGS) = Some (map letters_of ["BENG"; "HI"; "LEPC"; "MLYM"]%string) /\
  option_map (map fst) (aggregated abjad_export fst_of NORM_SCRIPT_LANGS) =
    Some (map letters_of ["AR"; "AZB"; "BAL"; "CKB"; "FA"; "KS"; "MS"; "PA"; "PRS"; "PS"; "SD"; "UG"; "UR"; "UZ"]%string).
Proof. exact shipped_names. Qed.
Print Assumptions C91_names.

Example C91_example :
  option_map (map fst) (aggregated brahmic_export (fun p s => [(s, 0%N)]) READING_NORM_LANGS) = Some (map letters_of ["BENG"; "HI"; "LEPC"; "MLYM"]%string) /\
  option_map (map fst) (aggregated abjad_export (fun p s => [(s, 0%N)]) NORM_SCRIPT_LANGS) =
    Some (map letters_of ["AR"; "AZB"; "BAL"; "CKB"; "FA"; "KS"; "MS"; "PA"; "PRS"; "PS"; "SD"; "UG"; "UR"; "UZ"]%string) /\
  option_map (map fst) (aggregated brahmic_export (fun p s => [(s, 0%N)]) visual_script_langs) =
    Some (map letters_of ["AS"; "BENG"; "BN"; "BUGI"; "DEVA"; "GUJR"; "GURU"; "KNDA"; "LEPC"; "LIMB"; "MLYM"; "MTEI"; "NEWA"; "ORYA"; "SINH";
      "SYLO"; "TAKR"; "TAML"; "TELU"; "TGLG"; "THAA"; "TIRH"]%string).
Proof. repeat split; vm_compute; reflexivity. Qed.
Example C91_file_example :
  far_out (letters_of "visual_norm"%string) (letters_of "byte"%string) = letters_of "visual_norm.far"%string /\
  far_out (letters_of "visual_norm"%string) (letters_of "utf8"%string) = letters_of "visual_norm_utf8.far"%string.
Proof. split; reflexivity. Qed.
Example C91_sed_example :
  sed (letters_of "lang"%string) (letters_of "hi"%string) (letters_of "f('lang', '') g(""lang"", """", lang)"%string) 0 =
    letters_of "f('lang', 'hi') g(""lang"", ""hi"", lang)"%string.
Proof. vm_compute. reflexivity. Qed.
