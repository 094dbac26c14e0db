(** Pair language model decoder: caches and configuration. *)
From Verif Require Import Base Utf8Spec DelimModel DelimSpec KbestModel KbestSpec ErrorRateModel PairlmModel LatticeModel
  CacheModel DecoderSpec CacheSpec CacheProofs CacheMore DecoderExamples.

(** ** C46 *)
(** The same word again in the same line gives the same candidates. *)
Theorem C46_repeated_word : forall pair_lm push mix join segment b b' w k k' d c r d' c' r2 d2 c2, proper segment w ->
  TransliterateWord pair_lm push mix join segment b w k d c = Fine (r, d', c') ->
  TransliterateWord pair_lm push mix join segment b' w k' d' c' = Fine (r2, d2, c2) -> r2 = r /\ d2 = d'.
Proof. exact word_repeated. Qed.
Print Assumptions C46_repeated_word.
(** Without add_to_cache, lines do not influence each other. *)
Theorem C46_no_caching : forall pair_lm push mix join segment ws k d c rs d' c',
  TransliterateWords pair_lm push mix join segment false ws k d c = Fine (rs, d', c') -> d' = d.
Proof. exact words_no_caching. Qed.
Print Assumptions C46_no_caching.
(** A word whose external candidates override the model gets exactly these. *)
Theorem C46_override : forall pair_lm push mix join segment b w k d c cs, In w (overrides d) -> lookup w (global d) = Some cs ->
  lookup w (word_cache c) = None -> exists c', TransliterateWord pair_lm push mix join segment b w k d c = Fine (push cs, d, c').
Proof. exact override_spec. Qed.
Print Assumptions C46_override.
(** A new word is decoded in one piece or segment by segment, in order, and mixed with its
    external candidates. *)
Theorem C46_first_time : forall pair_lm push mix join segment b w k d c, lookup w (word_cache c) = None -> ~ In w (overrides d) ->
  (forall v, In v (parts segment w) -> pair_lm v k <> [] \/ lookup v (global d) = None) -> decoded pair_lm join segment w k <> [] ->
  exists d' c', TransliterateWord pair_lm push mix join segment b w k d c =
    Fine (mix (decoded pair_lm join segment w k) (match lookup w (global d) with Some cs => push cs | None => [] end), d', c').
Proof. exact first_time. Qed.
Print Assumptions C46_first_time.
(** "a1" in two segments, of which the model knows the first *)
Example C46_first_time_example : exists d c,
  TransliterateWord (fun w _ => match w with [97%N] => [([112%N], 1%Z)] | _ => [] end) same (fun a b => a ++ b) (fun _ l => concat l)
    (fun w => match w with [x; y] => [[x]; [y]] | _ => [w] end) false [97; 49]%N 1 (Caches [([97; 49]%N, [([113%N], 2%Z)])] []) fresh_context =
  Fine ([([112%N], 1%Z); ([49%N], 0%Z); ([113%N], 2%Z)], d, c).
Proof. eexists. eexists. vm_compute. reflexivity. Qed.
(** Every word in mix_overrides_ has candidates in the global cache. *)
Theorem C46_sound : forall pair_lm push mix join segment, (forall a b, a <> [] -> mix a b <> []) -> (forall a, a <> [] -> push a <> []) ->
  forall b w k d c r d' c', sound d -> TransliterateWord pair_lm push mix join segment b w k d c = Fine (r, d', c') -> sound d'.
Proof. exact word_sound. Qed.
Print Assumptions C46_sound.
(** With add_to_cache, later lines get the candidates of the first line, whatever
    number they ask for. *)
Theorem C46_remembered : forall pair_lm push mix join segment, (forall a b, a <> [] -> mix a b <> []) -> (forall a, a <> [] -> push a <> []) ->
  forall w k d c r d' c', sound d -> proper segment w -> lookup w (word_cache c) = None -> lookup w (global d) = None ->
  TransliterateWord pair_lm push mix join segment true w k d c = Fine (r, d', c') -> NoDup (map fst r) ->
  forall b k2 c2, lookup w (word_cache c2) = None -> exists c3, TransliterateWord pair_lm push mix join segment b w k2 d' c2 = Fine (push r, d', c3).
Proof. exact word_remembered. Qed.
Print Assumptions C46_remembered.
(** Every word of a line has an input symbol, if none is a segment of another. *)
Theorem C46_symbols : forall pair_lm push mix join segment b ws k d rs d' c', no_segments segment ws ->
  TransliterateWords pair_lm push mix join segment b ws k d fresh_context = Fine (rs, d', c') -> incl ws (input_syms c').
Proof. exact words_have_symbols. Qed.
Print Assumptions C46_symbols.
(** "The result depends on the line and k only" is false. *)
Theorem C46_history_refuted : exists d1 c1,
  TransliterateWord two_cands same left_one no_join one_piece true [97%N] 1 (Caches [] []) fresh_context = Fine (two_cands [97%N] 1, d1, c1) /\
  (exists d2 c2, TransliterateWord two_cands same left_one no_join one_piece true [97%N] 2 (Caches [] []) fresh_context = Fine (two_cands [97%N] 2, d2, c2)) /\
  (exists d3 c3, TransliterateWord two_cands same left_one no_join one_piece true [97%N] 2 d1 fresh_context = Fine (two_cands [97%N] 1, d3, c3)) /\
  two_cands [97%N] 1 <> two_cands [97%N] 2.
Proof. exact history. Qed.
Print Assumptions C46_history_refuted.
(** A word that was a segment before ("a1 1") has no input symbol, and the program
    aborts. *)
Theorem C46_symbols_refuted : exists d rs d' c',
  TransliterateWords only_letters same left_one no_join (segments_of letter_a) false [[97; 49]; [49]]%N 1 d fresh_context = Fine (rs, d', c') /\
  sound d /\ find_input (input_syms c') [49%N] = Check.
Proof. exact segment_symbol_missing. Qed.
Print Assumptions C46_symbols_refuted.
(** The word "<epsilon>" aborts the program. *)
Theorem C46_epsilon_refuted : forall pair_lm push mix join segment b k d rs d' c',
  TransliterateWords pair_lm push mix join segment b [epsilon_token] k d fresh_context = Fine (rs, d', c') -> proper segment epsilon_token ->
  find_input (input_syms c') epsilon_token = Check.
Proof. exact epsilon_word. Qed.
Print Assumptions C46_epsilon_refuted.

(** The word "a" twice *)
Example C46_example : exists d c,
  TransliterateWords two_cands same left_one no_join one_piece true [[97]; [97]]%N 2 (Caches [] []) fresh_context =
  Fine ([[([112%N], 1%Z); ([113%N], 2%Z)]; [([112%N], 1%Z); ([113%N], 2%Z)]], d, c) /\
  d = Caches [([97%N], [([112%N], 1%Z); ([113%N], 2%Z)])] [[97%N]].
Proof. eexists. eexists. split; vm_compute; reflexivity. Qed.

(** ** C48 *)
Theorem C48_settings : forall atod mix_cost cfg st d, InitializePairLMDecoder atod mix_cost cfg = Fine (st, d) ->
  add_to_cache_ st = default_to (cfg_add_to_cache cfg) true /\ max_parallel_tokens_ st = default_to (cfg_max_parallel_tokens cfg) 4 /\
  oov_cost_ st = default_to (cfg_oov_cost cfg) 10%Z /\ max_word_cands_ st = default_to (cfg_max_word_cands cfg) 100 /\
  word_cand_thresh_ st = default_to (cfg_word_cand_thresh cfg) 12%Z /\ min_cand_posterior_ st = default_to (cfg_min_cand_posterior cfg) 0%Z /\
  pairlm_translit_weight_ st = Some 0%Z.
Proof. exact init_settings. Qed.
Print Assumptions C48_settings.
Theorem C48_external : forall atod mix_cost cfg lines es, cfg_cands cfg = Some lines -> Forall2 (external_entry atod) lines es ->
  exists st d, InitializePairLMDecoder atod mix_cost cfg = Fine (st, d) /\
    (forall a b, cost_in d a b = last_cost es a b) /\
    (forall w, In w (overrides d) <-> cfg_cands_override cfg = true /\ exists e, In e es /\ fst (fst e) = w).
Proof. exact init_external. Qed.
Print Assumptions C48_external.
Theorem C48_covers : forall atod mix_cost cfg st d, InitializePairLMDecoder atod mix_cost cfg = Fine (st, d) -> covers d.
Proof. exact init_covers. Qed.
Print Assumptions C48_covers.
(** The configured mixing weight is overwritten with the default. *)
Theorem C48_weight_refuted : exists cfg w, cfg_translit_weight cfg = Some w /\ (forall atod mix_cost, exists st d,
  InitializePairLMDecoder atod mix_cost cfg = Fine (st, d) /\ pairlm_translit_weight_ st = Some kDefaultMixWeight) /\
  forall mix_cost, mix_cost w <> kDefaultMixWeight -> forall atod st d, InitializePairLMDecoder atod mix_cost cfg = Fine (st, d) ->
    pairlm_translit_weight_ st <> Some (mix_cost w).
Proof. exact weight_ignored. Qed.
Print Assumptions C48_weight_refuted.
(** The check for malformed text accepts malformed text, *)
Theorem C48_utf8_refuted : exists s, ~ well_formed_utf8 s /\ Utf8Check s = Fine true.
Proof. exact malformed_accepted. Qed.
Print Assumptions C48_utf8_refuted.
(** indeed everything. *)
Theorem C48_utf8_always : forall s, exists b, Utf8Check s = Fine b /\ b = true.
Proof. exact utf8_check_always. Qed.
Print Assumptions C48_utf8_always.

(** "a x 5", "a y 6", "a x 7": the last line counts *)
Example C48_example : let atod := fun s => match s with [c] => Some (Z.of_N c - 48)%Z | _ => None end in
  exists st d, InitializePairLMDecoder atod (fun w => w)
    (Config true (Some false) None None (Some [[97; 9; 120; 9; 53]; [97; 9; 121; 9; 54]; [97; 9; 120; 9; 55]]%N) true None None (Some 9%Z) None) =
  Fine (st, d) /\ global d = [([97%N], [([120%N], 7%Z); ([121%N], 6%Z)])] /\ add_to_cache_ st = false /\ word_cand_thresh_ st = 9%Z.
Proof. eexists. eexists. split; [vm_compute; reflexivity|]. split; [reflexivity|]. split; reflexivity. Qed.
