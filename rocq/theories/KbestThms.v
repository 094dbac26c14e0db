From Verif Require Import Base Utf8Spec DelimSpec KbestModel KbestSpec KbestProofs RejoinProofs SearchProofs ExtractProofs.

(** ** C34 *)
Theorem C34_most_frequent : forall l, l <> [] -> exists v, MostFreqValue l = Fine v /\ mode l v.
Proof. exact most_frequent. Qed.
Print Assumptions C34_most_frequent.
Theorem C34_mode_unique : forall l v w, mode l v -> mode l w -> v = w.
Proof. exact mode_unique. Qed.
Print Assumptions C34_mode_unique.

(** Word counts differ: the hypotheses of the given or most frequent length are
    kept, in order. *)
Theorem C34_pruned : forall n lists wss v, Forall2 hyp_words lists wss -> ~ uniform wss ->
  (if 0 <? n then v = n else mode (map (@length str) wss) v) ->
  exists a, SimpleAlign n lists = Fine a /\ kept a = map fst (with_count v lists wss).
Proof. exact kept_pruned. Qed.
Print Assumptions C34_pruned.
(** Word counts agree: nothing is pruned. *)
Theorem C34_uniform_kept : forall n lists wss, Forall2 hyp_words lists wss -> uniform wss ->
  exists a, SimpleAlign n lists = Fine a /\ kept a = lists.
Proof. exact kept_uniform. Qed.
Print Assumptions C34_uniform_kept.

(** The alignment accepts a sequence of words if each of them stands at its
    position in some kept hypothesis. *)
Theorem C34_alignment : forall n lists a, SimpleAlign n lists = Fine a -> kept a <> [] ->
  (forall h ts, In h (kept a) -> hyp_words h ts -> ts <> []) ->
  exists v wss arcs, Forall2 hyp_words (kept a) wss /\ BuildAlign a = Fine (v, arcs) /\
    forall ws, path arcs 0 ws v <-> length ws = v /\
      forall i w, nth_error ws i = Some w -> exists ts, In ts wss /\ nth_error ts i = Some w.
Proof. exact alignment_language. Qed.
Print Assumptions C34_alignment.

(** Systems are combined item by item, if they have equally many items. *)
Theorem C34_combined : forall A (s : list (list A)) systems, (forall x, In x systems -> length x = length s) ->
  exists r, VerifyCombineEnsembleInputs (s :: systems) = Fine r /\ length r = length s /\
    forall j, j < length s -> nth j r [] = items_at (s :: systems) j.
Proof. exact @combined. Qed.
Print Assumptions C34_combined.
Theorem C34_combined_checked : forall A (s : list (list A)) systems,
  (exists x, In x systems /\ length x <> length s) -> VerifyCombineEnsembleInputs (s :: systems) = Check.
Proof. exact @combined_bad. Qed.
Print Assumptions C34_combined_checked.

(** The given length is not enforced when all hypotheses have another one. *)
Theorem C34_given_length_enforced_refuted : exists hyps a, SimpleAlign 1 hyps = Fine a /\ kept a = hyps /\
  exists h, In h (kept a) /\ GetWordCount (fst h) <> Fine 1.
Proof. exact length_ignored. Qed.
Print Assumptions C34_given_length_enforced_refuted.
Theorem C34_some_hypothesis_left_refuted : exists hyps a, hyps <> [] /\ SimpleAlign 3 hyps = Fine a /\ kept a = [].
Proof. exact nothing_left. Qed.
Print Assumptions C34_some_hypothesis_left_refuted.
(** A hypothesis of white space only aborts the program. *)
Theorem C34_blank_hypothesis_refuted : exists hyps a, SimpleAlign 0 hyps = Fine a /\ kept a <> [] /\ BuildAlign a = Check.
Proof. exact blank_aborts. Qed.
Print Assumptions C34_blank_hypothesis_refuted.

(** Counts 3 1 3 2 1: tie of 3 and 1, 3 wins.  "a b", "c", "d  e": the second is
    dropped, the acceptor has "a e" although no hypothesis is that. *)
Example C34_example :
  MostFreqValue [3; 1; 3; 2; 1] = Fine 3 /\
  exists a arcs, SimpleAlign 0 [([97; 32; 98]%N, 1%Z); ([99]%N, 0%Z); ([100; 32; 32; 101]%N, 2%Z)] = Fine a /\
    kept a = [([97; 32; 98]%N, 1%Z); ([100; 32; 32; 101]%N, 2%Z)] /\
    BuildAlign a = Fine (2, arcs) /\
    arcs = [(0, 1, [97%N]); (1, 2, [98%N]); (0, 1, [100%N]); (1, 2, [101%N])].
Proof. split; [reflexivity|]. eexists _, _. repeat split; vm_compute; reflexivity. Qed.

(** ** C35 *)
(** What the rejoiner accepts is grouped by output index: every maximal run of
    lines with the same input is a segment, and segment n is in the list of the
    n-th index.  The automatic k looks at all lists but the last. *)
Theorem C35_grouping : forall stod lines first rest kbest lists k, lines <> [] -> (0 <= first)%Z ->
  InitializeKbestRejoiner stod lines (first :: rest) kbest = Fine (lists, k) ->
  exists es segs, Forall2 (entry_of stod) lines es /\ runs es segs /\ length segs <= length (first :: rest) /\
    first = 0%Z /\ steps (first :: rest) /\ grouped (first :: rest) segs lists /\
    k = if 0 <? kbest then kbest else longest (concat (removelast lists)).
Proof. exact init_sound. Qed.
Print Assumptions C35_grouping.
Theorem C35_runs_unique : forall K V (a b : list (K * list V)) l, runs l a -> runs l b -> a = b.
Proof. exact @runs_unique. Qed.
Print Assumptions C35_runs_unique.
(** Lines with as many runs as indices are accepted. *)
Theorem C35_accepts : forall stod lines es segs rest kbest, lines <> [] -> Forall2 (entry_of stod) lines es ->
  runs es segs -> steps (0%Z :: rest) -> length segs = length (0%Z :: rest) ->
  exists lists k, InitializeKbestRejoiner stod lines (0%Z :: rest) kbest = Fine (lists, k) /\
    grouped (0%Z :: rest) segs lists.
Proof. exact init_complete. Qed.
Print Assumptions C35_accepts.

(** Rejoined candidates are combinations of one candidate per segment, joined by
    blanks, with the sum of the scores; at most k; no combination left out is
    better; and the best combination is found. *)
Theorem C35_rejoined : forall search lists k, k_shortest search -> 2 <= length lists ->
  Forall (fun l => l <> []) lists -> 1 <= k ->
  exists out, RejoinList search lists k = Fine out /\ out <> [] /\ length out <= k /\
    (forall h, In h out -> exists hs, choice lists hs /\ h = joined hs) /\
    forall hs, choice lists hs -> In (joined hs) out \/
      (length out = k /\ forall h, In h out -> (snd h <= total (map snd hs))%Z).
Proof. exact rejoin_spec. Qed.
Print Assumptions C35_rejoined.
Theorem C35_best_found : forall search lists k out, k_shortest search -> 2 <= length lists ->
  Forall (fun l => l <> []) lists -> 1 <= k -> RejoinList search lists k = Fine out ->
  exists h, In h out /\ forall hs, choice lists hs -> (snd h <= total (map snd hs))%Z.
Proof. exact rejoin_best. Qed.
Print Assumptions C35_best_found.
(** White space normalization puts single blanks between the words. *)
Theorem C35_white_space : forall s ts, text_words s ts -> norm_ws s = Fine (spaced ts) /\ text_words (spaced ts) ts.
Proof. exact normalized. Qed.
Print Assumptions C35_white_space.

(** "The automatic k is the largest list size" is false: the last list is not
    looked at, and with one list k = 0 aborts the program. *)
Theorem C35_automatic_k_refuted : exists lines indices lists k,
  InitializeKbestRejoiner zero_stod lines indices 0 = Fine (lists, k) /\ k <> longest (concat lists) /\
  forall search, k_shortest search -> GetRejoinedList search (lists, k) 0 = Check.
Proof. exact auto_k. Qed.
Print Assumptions C35_automatic_k_refuted.
(** An input of one segment keeps more than k candidates. *)
Theorem C35_at_most_k_refuted : exists lists out, forall search, RejoinList search lists 1 = Fine out /\ 1 < length out.
Proof. exact limit_ignored. Qed.
Print Assumptions C35_at_most_k_refuted.
(** Two successive segments with the same text are taken for one. *)
Theorem C35_repeated_input_refuted : exists lines es segs indices lists k,
  Forall2 (entry_of zero_stod) lines es /\ spread segs = es /\ Forall (fun s => snd s <> []) segs /\
  length segs = length indices /\
  InitializeKbestRejoiner zero_stod lines indices 1 = Fine (lists, k) /\ ~ grouped indices segs lists.
Proof. exact repeated_input. Qed.
Print Assumptions C35_repeated_input_refuted.
(** Indices may start below zero, and then lists are misnumbered. *)
Theorem C35_negative_index_refuted : exists lines indices lists k,
  InitializeKbestRejoiner zero_stod lines indices 1 = Fine (lists, k) /\
  ~ exists es segs, Forall2 (entry_of zero_stod) lines es /\ runs es segs /\ grouped indices segs lists.
Proof. exact negative_index. Qed.
Print Assumptions C35_negative_index_refuted.

(** Inputs x (a, b), y (c), z (d); x and y are the first output. *)
Example C35_example :
  InitializeKbestRejoiner zero_stod
    [[120; 9; 97; 9; 48]; [120; 9; 98; 9; 48]; [121; 9; 99; 9; 48]; [122; 9; 100; 9; 48]]%N [0; 0; 1]%Z 0 =
  Fine ([[[([97]%N, 0%Z); ([98]%N, 0%Z)]; [([99]%N, 0%Z)]]; [[([100]%N, 0%Z)]]], 2).
Proof. vm_compute. reflexivity. Qed.

(** ** C42 *)
Theorem C42_extractor : forall stod stoi lines es, Forall2 (line_entry_of stod stoi) lines es ->
  Forall (fun e => (0 <= fst (fst e))%Z) es ->
  (keys_good (map fst es) /\ exists r, InitializeKbestExtractor stod stoi lines = Fine r /\ extract_result es r) \/
  (~ keys_good (map fst es) /\ InitializeKbestExtractor stod stoi lines = Check).
Proof. exact extract_spec. Qed.
Print Assumptions C42_extractor.
Theorem C42_accepted_lines : forall stod stoi lines r, InitializeKbestExtractor stod stoi lines = Fine r ->
  exists es, Forall2 (line_entry_of stod stoi) lines es.
Proof. exact extract_accepted. Qed.
Print Assumptions C42_accepted_lines.
(** Lines of a negative index are filed under the next index. *)
Theorem C42_negative_index_refuted : exists stoi lines es r, Forall2 (line_entry_of zero_stod stoi) lines es /\
  InitializeKbestExtractor zero_stod stoi lines = Fine r /\ ~ extract_result es r.
Proof. exact negative_example. Qed.
Print Assumptions C42_negative_index_refuted.

(** Example 7 has the words x (a, b) and y (c), example 9 the word z (d). *)
Example C42_example : exists f g,
  InitializeKbestExtractor f g
    [[55; 9; 48; 9; 120; 9; 97; 9; 48]; [55; 9; 48; 9; 120; 9; 98; 9; 48]; [55; 9; 49; 9; 121; 9; 99; 9; 48];
     [57; 9; 48; 9; 122; 9; 100; 9; 48]]%N =
  Fine ([[[([97]%N, 0%Z); ([98]%N, 0%Z)]; [([99]%N, 0%Z)]]; [[([100]%N, 0%Z)]]], [[[120]; [121]]; [[122]]]%N, [7; 9]%Z).
Proof.
  exists zero_stod, (fun s => match s with [c] => Some (Z.of_N c - 48)%Z | _ => None end). vm_compute. reflexivity.
Qed.
