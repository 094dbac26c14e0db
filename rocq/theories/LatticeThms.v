(** Pair language model decoder: lattices of candidates. *)
From Coq Require Import Sorting.Sorted.
From Verif Require Import Base Utf8Spec DelimModel DelimSpec KbestModel KbestSpec ErrorRateModel PairlmModel LatticeModel LatticeSpec
  CacheModel DecoderSpec LatticeProofs RunnerProofs PrintProofs PairProofs DecoderExamples.
From Verif Require PoolModel.

(** ** C29 *)
Theorem C29_threshold : forall arcs k bound costs scores, map_run (arc_score costs) arcs = Fine scores -> k < length arcs ->
  exists keep, ApplyArcScoreThresh arcs k bound costs = Fine keep /\ length keep = length arcs /\
    forall i, nth i keep false = true <-> i < length arcs /\ chosen scores k bound i.
Proof. exact thresh_spec. Qed.
Print Assumptions C29_threshold.
Theorem C29_at_most_k : forall (A : Type) scores k bound (l out : list A), length scores = length l -> picks (chosen scores k bound) l out ->
  length out <= k /\ (bound = None -> k <= length l -> length out = k).
Proof. exact @picks_count. Qed.
Print Assumptions C29_at_most_k.
Theorem C29_best_kept : forall (A : Type) (score : A -> Z) k bound (l out : list A), 0 < k -> l <> [] ->
  picks (chosen (map score l) k bound) l out -> exists a, In a out /\ forall b, In b l -> (score a <= score b)%Z.
Proof. exact @picks_best. Qed.
Print Assumptions C29_best_kept.
(** Every position of the lattice is pruned by itself. *)
Theorem C29_lattice : forall k bound l, k <> 0%Z -> good_positions l ->
  exists l', ApplyFinalKBestFilter k bound l = Fine (Some l') /\ Forall2 (pruned weight k bound) l l'.
Proof. exact final_filter_spec. Qed.
Print Assumptions C29_lattice.
(** With limit 0 nothing at all remains. *)
Theorem C29_no_candidates : forall bound l, l <> [] -> good_positions l -> ApplyFinalKBestFilter 0 bound l = Fine None.
Proof. exact final_filter_zero. Qed.
Print Assumptions C29_no_candidates.
(** "The result is ordered by score" is false: candidates stay in their order. *)
Theorem C29_ordered_refuted : exists l l', ApplyFinalKBestFilter 2 None [l] = Fine (Some [l']) /\ ~ Sorted (fun a b => (weight a <= weight b)%Z) l'.
Proof. exact not_sorted. Qed.
Print Assumptions C29_ordered_refuted.
(** "Candidates are kept by their distance from the best" is false: the bound is
    absolute. *)
Theorem C29_relative_bound_refuted : exists k bound l l' l2 l2',
  ApplyFinalKBestFilter k (Some bound) [l] = Fine (Some [l']) /\ map weight l = [100; 101; 102]%Z /\ map weight l' = [100]%Z /\
  ApplyFinalKBestFilter k (Some bound) [l2] = Fine (Some [l2']) /\ map weight l2 = [0; 50; 51]%Z /\ map weight l2' = [0; 50]%Z.
Proof. exact bound_absolute. Qed.
Print Assumptions C29_relative_bound_refuted.
(** The bound is not applied to a list that is not longer than the limit. *)
Theorem C29_bound_refuted : exists l, ApplyFinalKBestFilter 3 (Some 5%Z) [l] = Fine (Some [l]) /\ ~ Forall (fun a => (weight a <= 5)%Z) (tl l).
Proof. exact bound_ignored. Qed.
Print Assumptions C29_bound_refuted.

Example C29_example : ApplyFinalKBestFilter 3 (Some 6%Z) [[Arc 1 7 9; Arc 1 8 5; Arc 1 9 1; Arc 1 5 2]; [Arc 2 4 80]] =
  Fine (Some [[Arc 1 8 5; Arc 1 9 1; Arc 1 5 2]; [Arc 2 4 80]]).
Proof. vm_compute. reflexivity. Qed.

(** ** C45 *)
(** With workers, any schedule of the threads writes what sequential decoding writes. *)
Theorem C45_parallel : forall T num_workers lines ms s, num_workers > 0 ->
  PoolModel.run (fun _ => []) ms (PoolModel.initial (started_ops num_workers lines)) = Some s -> PoolModel.own s = PoolModel.Done ->
  written T (schedule_loop 0 lines) (PoolModel.finished s) = SequentialDecoding T lines.
Proof. exact parallel_started. Qed.
Print Assumptions C45_parallel.
(** As coded, workers are never started: parallel decoding writes nothing. *)
Theorem C45_as_coded_refuted : forall T lines ms s, PoolModel.run (fun _ => []) ms (PoolModel.initial (parallel_ops lines)) = Some s ->
  written T (schedule_loop 0 lines) (PoolModel.finished s) = [].
Proof. exact parallel_as_written. Qed.
Print Assumptions C45_as_coded_refuted.
Theorem C45_as_coded_ends : forall lines, exists ms s, PoolModel.run (fun _ => []) ms (PoolModel.initial (parallel_ops lines)) = Some s /\
  PoolModel.own s = PoolModel.Done.
Proof. exact parallel_completes. Qed.
Print Assumptions C45_as_coded_ends.

(** Two lines and a comment; the output of a line is the line and an end of line. *)
Example C45_example : SequentialDecoding (fun l i => l ++ [N.of_nat (48 + i); 10]%N) [[97]; [35; 98]; [99]]%N = [97; 48; 10; 99; 49; 10]%N /\
  written (fun l i => l ++ [N.of_nat (48 + i); 10]%N) (schedule_loop 0 [[97]; [35; 98]; [99]]%N) [1; 0] = [97; 48; 10; 99; 49; 10]%N.
Proof. split; vm_compute; reflexivity. Qed.

(** ** C47 *)
(** What the runner prints for a list of lattices is read by the k-best extractor as
    the candidates of every word of every line. *)
Theorem C47_round_trip : forall show_int show_weight stoi stod,
  (forall n, field (show_int n) /\ stoi (show_int n) = Some (Z.of_nat n)) ->
  (forall w, field (show_weight w) /\ stod (show_weight w) = Some w) ->
  forall examples, Forall (fun e => printable (fst (fst e)) (snd (fst e)) (snd e)) examples ->
  exists outs lines r,
    Forall2 (fun p out => PrintTransliterations show_int show_weight (show_int (fst p)) (fst (fst (snd p))) (snd (fst (snd p)))
                            (Some (snd (snd p))) true = Fine out) (combine (seq 0 (length examples)) examples) outs /\
    concat outs = unlines lines /\ Forall (fun s => ~ In 10%N s) lines /\
    runs (spread (segments examples)) (segments examples) /\
    InitializeKbestExtractor stod stoi lines = Fine r /\ extract_result (spread (segments examples)) r.
Proof. exact round_trip. Qed.
Print Assumptions C47_round_trip.
(** A candidate with no text makes a line the extractor rejects. *)
Theorem C47_empty_text_refuted : exists in_syms out_syms l out,
  PrintTransliterations zero_text (fun _ => [48%N]) [48%N] in_syms out_syms (Some l) false = Fine out /\
  ~ In 10%N out /\ InitializeKbestExtractor as_zero as_zero [out] = Check.
Proof. exact empty_candidate. Qed.
Print Assumptions C47_empty_text_refuted.

(** Line 0 with the word a (candidates x, y with cost 3 and 4) *)
Example C47_example : PrintTransliterations (fun n => [N.of_nat (48 + n)]) (fun w => [Z.to_N (48 + w)]) [48%N] [[60]; [97]]%N [[60]; [120]; [121]]%N
  (Some [[Arc 1 1 3; Arc 1 2 4]]) true = Fine [48; 9; 48; 9; 97; 9; 120; 9; 51; 10; 48; 9; 48; 9; 97; 9; 121; 9; 52; 10]%N.
Proof. vm_compute. reflexivity. Qed.

(** ** C49 *)
Theorem C49_input_side : forall atoi syms inv, pair_table atoi syms -> exists arcs, BuildUnicodeToPairTransducer atoi syms inv false = Fine arcs /\
  forall ins labels, relates arcs ins labels <->
    exists xys, Forall2 (pair_of atoi syms) labels xys /\ ins = nonzero (map (if inv then snd else fst) xys).
Proof. exact relates_in. Qed.
Print Assumptions C49_input_side.
Theorem C49_output_side : forall atoi syms inv, pair_table atoi syms -> exists arcs, BuildUnicodeToPairTransducer atoi syms inv true = Fine arcs /\
  forall labels outs, relates arcs labels outs <->
    exists xys, Forall2 (pair_of atoi syms) labels xys /\ outs = nonzero (map (if inv then snd else fst) xys).
Proof. exact relates_out. Qed.
Print Assumptions C49_output_side.
Theorem C49_pairs_unique : forall atoi syms labels xys, Forall2 (pair_of atoi syms) labels xys -> forall zs, Forall2 (pair_of atoi syms) labels zs -> xys = zs.
Proof. exact pairs_unique. Qed.
Print Assumptions C49_pairs_unique.
Theorem C49_not_a_number : forall atoi (syms : list str) (inv flip : bool) i a b, nth_error syms (S i) = Some (a ++ 59%N :: b) -> a <> [] -> b <> [] ->
  ~ In 59%N a -> ~ In 59%N b -> atoi (if inv then b else a) = None -> BuildUnicodeToPairTransducer atoi syms inv flip = Check.
Proof. exact bad_pair. Qed.
Print Assumptions C49_not_a_number.

(** Symbols 1 "1;2", 2 "u", 3 "0;3" *)
Example C49_example : let atoi := fun s => match s with [c] => Some (Z.of_N c - 48)%Z | _ => None end in
  BuildUnicodeToPairTransducer atoi [[60]; [49; 59; 50]; [117]; [48; 59; 51]]%N false false = Fine [(1, 1); (0, 3)]%Z /\
  BuildUnicodeToPairTransducer atoi [[60]; [49; 59; 50]; [117]; [48; 59; 51]]%N true true = Fine [(1, 2); (3, 3)]%Z.
Proof. split; vm_compute; reflexivity. Qed.

(** ** C50 *)
Theorem C50_with_model : forall syms words results executed, (forall i, i < length words -> In i executed) ->
  (forall i, i < length words -> results i <> []) ->
  exists l ids, BuildTransliterationFst true syms words results executed = Fine (l, ids) /\
    Forall2 (position_of ids) l (map results (seq 0 (length words))) /\ NoDup (map ilabel (concat l)).
Proof. exact build_spec. Qed.
Print Assumptions C50_with_model.
Theorem C50_without_model : forall syms words results executed, (forall i, i < length words -> In i executed) ->
  (forall i, i < length words -> results i <> []) -> Forall (input_word_of syms) words ->
  exists l, BuildTransliterationFst false syms words results executed = Fine (l, [kNoLabel]) /\
    Forall2 (fun q p => exists n, find_sym (snd q) syms = Some n /\ StronglySorted olabel_le p /\
      Permutation p (map (fun a => Arc (Z.of_nat n) (olabel a) (weight a)) (results (fst q))))
      (combine (seq 0 (length words)) words) l.
Proof. exact build_no_lm_spec. Qed.
Print Assumptions C50_without_model.
Theorem C50_labels : forall syms ids costs k bound line ws l, k <> 0%Z -> tokens line = Fine ws -> Forall (input_word_of syms) ws ->
  Forall (fun p => p <> [] /\ Forall (in_tables ids costs) p) l -> length ws = length l ->
  exists l', AssignLabelsAndCostsToTranslitLattice syms ids costs k bound line l = Fine (Some l') /\
    Forall2 (fun p out => assigned syms ids costs k bound (fst p) (snd p) out) (combine ws l) l'.
Proof. exact assign_spec. Qed.
Print Assumptions C50_labels.
(** As coded, workers are never started: for every line with words the FST of a word
    is read which was never written. *)
Theorem C50_as_coded_refuted : forall with_lm syms words results ms s, words <> [] ->
  PoolModel.run (fun _ => []) ms (PoolModel.initial (pool_ops (length words))) = Some s ->
  BuildTransliterationFst with_lm syms words results (PoolModel.finished s) = OutOfRange.
Proof. exact build_as_written. Qed.
Print Assumptions C50_as_coded_refuted.

Example C50_example : BuildTransliterationFst true [[60]; [97]; [98]]%N [[97]; [98]]%N
  (fun i => match i with 0 => [Arc 5 8 1; Arc 6 7 2] | _ => [Arc 7 9 3] end) [1; 0] =
  Fine ([[Arc 2 7 2; Arc 1 8 1]; [Arc 3 9 3]], [-1; 5; 6; 7]%Z).
Proof. vm_compute. reflexivity. Qed.
