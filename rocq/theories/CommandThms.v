(** C87: what the command-line programs do with their flags. *)
From Coq Require Import String Ascii.
From Verif Require Import Base CommandModel CommandSpec CommandProofs.
Local Open Scope list_scope.

Theorem C87_rejoin read_number read_truth l i s k o :
  rejoin_main read_number read_truth l = Works (i, s, k, o) <->
  sound_args rejoin_options (can_read read_number read_truth) l /\
  says as_it_is l (text "ifile") [] i /\ says as_it_is l (text "split_file") [] s /\
  says read_number l (text "kbest") (-1)%Z k /\ says as_it_is l (text "ofile") [] o /\
  i <> [] /\ s <> [] /\ o <> [].
Proof. exact (rejoin_works read_number read_truth l i s k o). Qed.

Theorem C87_ensemble read_number read_truth l i n k o :
  ensemble_main read_number read_truth l = Works (i, n, k, o) <->
  sound_args ensemble_options (can_read read_number read_truth) l /\
  says as_it_is l (text "ifiles") [] i /\ says as_it_is l (text "input_length_file") [] n /\
  says read_number l (text "kbest") 20%Z k /\ says as_it_is l (text "ofile") [] o /\
  i <> [] /\ o <> [].
Proof. exact (ensemble_works read_number read_truth l i n k o). Qed.

Theorem C87_extract read_number read_truth l i o k b1 b2 :
  extract_main read_number read_truth l = Works (i, o, k, b1, b2) <->
  sound_args extract_options (can_read read_number read_truth) l /\
  says as_it_is l (text "ifile") [] i /\ says as_it_is l (text "ofile") [] o /\
  says read_number l (text "kbest") 20%Z k /\ says read_truth l (text "show_score") false b1 /\
  says read_truth l (text "show_full_input_string") false b2 /\
  i <> [] /\ o <> [].
Proof. exact (extract_works read_number read_truth l i o k b1 b2). Qed.

Theorem C87_error_rate read_number read_truth l r t o b1 b2 :
  error_rate_main read_number read_truth l = Works (r, t, o, b1, b2) <->
  sound_args error_rate_options (can_read read_number read_truth) l /\
  says as_it_is l (text "reference") [] r /\ says as_it_is l (text "testfile") [] t /\
  says as_it_is l (text "ofile") [] o /\ says read_truth l (text "split_chars") true b1 /\
  says read_truth l (text "pairwise_edits") false b2 /\
  r <> [] /\ t <> [] /\ o <> [].
Proof. exact (error_rate_works read_number read_truth l r t o b1 b2). Qed.

(** The decoder: where its configuration comes from, which files it uses, and its exit code *)
Theorem C87_decoder read_number read_truth others parse_config read_file decoder_ok l c k w i o e :
  decoder_main read_number read_truth others parse_config read_file decoder_ok l = Works (c, k, w, i, o, e) <->
  sound_args decoder_options (can_read read_number read_truth) l /\
  exists t c0 pair lm, config_source read_file l t /\ parse_config t = Some c0 /\
    says as_it_is l (text "input_pairlm_fst_file") [] pair /\
    says as_it_is l (text "input_lm_fst_file") [] lm /\
    lm_file _ c = lm_file _ c0 /\ other_fields _ c = other_fields _ c0 /\
    model_used pair lm (pairlm_file _ c0) (pairlm_file _ c) /\
    says read_number l (text "kbest") 1%Z k /\ says read_number l (text "num_workers") 1%Z w /\
    says as_it_is l (text "ifile") [] i /\ says as_it_is l (text "ofile") [] o /\
    e = (if decoder_ok c k w i o then 0%Z else 1%Z).
Proof. exact (decoder_works read_number read_truth others parse_config read_file decoder_ok l c k w i o e). Qed.

Theorem C87_pairlm_flag read_number read_truth others parse_config read_file decoder_ok l c k w i o e pair :
  decoder_main read_number read_truth others parse_config read_file decoder_ok l = Works (c, k, w, i, o, e) ->
  says as_it_is l (text "input_pairlm_fst_file") [] pair -> pair <> [] ->
  says as_it_is l (text "input_lm_fst_file") [] [] -> pairlm_file _ c = pair.
Proof. exact (pairlm_flag read_number read_truth others parse_config read_file decoder_ok l c k w i o e pair). Qed.

(** The flag for the language model replaces the file of the pair model; the file of the language
    model is always that of the configuration. *)
Theorem C87_lm_flag read_number read_truth others parse_config read_file decoder_ok l c k w i o e lm :
  decoder_main read_number read_truth others parse_config read_file decoder_ok l = Works (c, k, w, i, o, e) ->
  says as_it_is l (text "input_lm_fst_file") [] lm -> lm <> [] ->
  pairlm_file _ c = lm /\
  exists t c0, config_source read_file l t /\ parse_config t = Some c0 /\ lm_file _ c = lm_file _ c0.
Proof. exact (lm_flag_lost read_number read_truth others parse_config read_file decoder_ok l c k w i o e lm). Qed.

(** One would expect that flag to set the file of the language model. *)
Theorem C87_lm_flag_refuted :
  exists read_number read_truth others parse_config read_file decoder_ok l c k w i o e lm,
    decoder_main read_number read_truth others parse_config read_file decoder_ok l = Works (c, k, w, i, o, e) /\
    given l (text "input_lm_fst_file") lm /\ lm <> [] /\ lm_file _ c <> lm.
Proof. exact lm_flag_refuted. Qed.

(** The usage texts *)
Theorem C87_usage program name : simple_name program ->
  (usage_names (ensemble_usage program) name -> In name (map fst ensemble_options)) /\
  (usage_names (error_rate_usage program) name -> In name (map fst error_rate_options)).
Proof. exact (fun H => conj (ensemble_usage_known program name H) (error_rate_usage_known program name H)). Qed.

Theorem C87_rejoin_usage_refuted : (forall program, usage_names (rejoin_usage program) (text "ifiles")) /\
  forall read_number read_truth l, In (text "ifiles") (map fst l) ->
    rejoin_main read_number read_truth l = Bad_arguments.
Proof. exact rejoin_usage_unknown. Qed.

Theorem C87_extract_usage_refuted : (forall program, usage_names (extract_usage program) (text "ifiles")) /\
  usage_names extract_sample (text "show_scores") /\
  forall read_number read_truth l,
    In (text "ifiles") (map fst l) \/ In (text "show_scores") (map fst l) ->
    extract_main read_number read_truth l = Bad_arguments.
Proof. exact extract_usage_unknown. Qed.

Print Assumptions C87_rejoin.
Print Assumptions C87_ensemble.
Print Assumptions C87_extract.
Print Assumptions C87_error_rate.
Print Assumptions C87_decoder.
Print Assumptions C87_pairlm_flag.
Print Assumptions C87_lm_flag.
Print Assumptions C87_lm_flag_refuted.
Print Assumptions C87_usage.
Print Assumptions C87_rejoin_usage_refuted.
Print Assumptions C87_extract_usage_refuted.

(** The pair model p.fst and the language model l.fst are given; the decoder is run with l.fst as
    the pair model and without a language model. *)
Example C87_example :
  decoder_main (fun v => match v with [d] => Some (Z.of_N d - 48)%Z | _ => None end) (fun _ => None) unit
    (fun t => Some (Config unit t [] tt)) (fun _ => None) (fun _ _ _ _ _ => true)
    [(text "input_pairlm_fst_file", text "p.fst"); (text "kbest", text "3"); (text "kbest", text "5");
     (text "input_lm_fst_file", text "l.fst"); (text "ifile", text "in")] =
  Works (Config unit (text "l.fst") [] tt, 5%Z, 1%Z, text "in", [], 0%Z).
Proof. reflexivity. Qed.
Example C87_example_missing :
  rejoin_main (fun _ => None) (fun _ => None) [(text "ifile", text "a"); (text "ofile", text "b")] = Required /\
  rejoin_main (fun _ => None) (fun _ => None)
    [(text "ifile", text "a"); (text "split_file", text "s"); (text "ofile", text "b")] =
  Works (text "a", text "s", (-1)%Z, text "b").
Proof. split; reflexivity. Qed.
