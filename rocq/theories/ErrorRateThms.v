(** C26, C27: edit counts and error rates. *)
From Verif Require Import Base KbestModel ErrorRateModel ErrorRateSpec EditProofs ErrorRateProofs MultiRefProofs.

Notation alignment_search := (list mod_arc -> list nat -> list nat -> list (nat * nat)).
Notation "'correct' search" := (forall n, finds_best (align_mod n) (search (align_mod n))) (at level 10, only parsing).

(** The counts describe an edit script, and no script is shorter. *)
Theorem C26_levenshtein : forall search : alignment_search, correct search ->
  forall ref test, ~ In epsilon_token ref -> ~ In epsilon_token test ->
  let e := CalculatePairEditDistance search ref test in
  script ref test (substitutions e) (insertions e) (deletions e) /\ distance ref test (Edits e) /\
  reference_length e = length ref.
Proof. exact pair_distance. Qed.
Print Assumptions C26_levenshtein.

(** ref + insertions = hyp + deletions *)
Theorem C26_lengths : forall search : alignment_search, correct search ->
  forall ref test, ~ In epsilon_token ref -> ~ In epsilon_token test ->
  let e := CalculatePairEditDistance search ref test in
  reference_length e = length ref /\ reference_length e + insertions e = length test + deletions e.
Proof. exact lengths_consistent. Qed.
Print Assumptions C26_lengths.

(** Zero exactly for equal sequences, symmetric, triangle inequality. *)
Theorem C26_metric : forall search : alignment_search, correct search ->
  forall a b c, ~ In epsilon_token a -> ~ In epsilon_token b -> ~ In epsilon_token c ->
  let D := CalculatePairEditDistanceValue search in
  (D a b = 0 <-> a = b) /\ D a b = D b a /\ D a c <= D a b + D b c.
Proof. exact edits_metric. Qed.
Print Assumptions C26_metric.

(** The token "<epsilon>" counts as nothing: different sequences without edits. *)
Theorem C26_epsilon_refuted : forall search : alignment_search, correct search ->
  exists ref test, ref <> test /\ CalculatePairEditDistanceValue search ref test = 0.
Proof. exact epsilon_ignored. Qed.
Print Assumptions C26_epsilon_refuted.

(** The assumption on the search can be met. *)
Theorem C26_search_exists : exists search : alignment_search, correct search.
Proof. exact search_exists. Qed.
Print Assumptions C26_search_exists.

(** "kitten" and "sitting" *)
Example C26_example :
  CalculatePairEditDistance (fun _ => lev)
    [[107]; [105]; [116]; [116]; [101]; [110]]%N [[115]; [105]; [116]; [116]; [105]; [110]; [103]]%N
  = EditDistance 6 2 1 0.
Proof. vm_compute. reflexivity. Qed.
Example C26_example_reversed :
  CalculatePairEditDistanceValue (fun _ => lev)
    [[115]; [105]; [116]; [116]; [105]; [110]; [103]]%N [[107]; [105]; [116]; [116]; [101]; [110]]%N = 3.
Proof. vm_compute. reflexivity. Qed.

(** Among non-blank references the reported one has the least edits per token, and
    is the first such. *)
Theorem C27_best_reference : forall (search : alignment_search) split_chars refs tests test rs, refs <> [] ->
  GetTokenizedString split_chars tests (min_cost_item tests) = Fine test ->
  Forall2 (fun i r => GetTokenizedString split_chars refs i = Fine r) (seq 0 (length refs)) rs ->
  (forall r, In r rs -> r <> []) ->
  exists e k, CalculateMinErrorRate search split_chars refs tests = Fine e /\
    first_minimum (fun a b => rate_le (Edits a) (reference_length a) (Edits b) (reference_length b))
                  (fun a b => rate_lt (Edits a) (reference_length a) (Edits b) (reference_length b))
      (map (fun r => CalculatePairEditDistance search r test) rs) k e.
Proof. exact min_error. Qed.
Print Assumptions C27_best_reference.

(** It need not have the fewest edits. *)
Theorem C27_fewest_edits_refuted : exists search : alignment_search, correct search /\
  exists refs tests e r test, CalculateMinErrorRate search true refs tests = Fine e /\
    GetTokenizedString true tests (min_cost_item tests) = Fine test /\
    GetTokenizedString true refs 0 = Fine r /\ r <> [] /\ CalculatePairEditDistanceValue search r test < Edits e.
Proof. exact reference_with_more_edits. Qed.
Print Assumptions C27_fewest_edits_refuted.

(** A blank reference is not chosen although it equals the (blank) hypothesis. *)
Theorem C27_blank_reference_refuted : exists search : alignment_search, correct search /\
  exists refs tests e, CalculateMinErrorRate search true refs tests = Fine e /\
    GetTokenizedString true tests (min_cost_item tests) = Fine [] /\
    GetTokenizedString true refs 1 = Fine [] /\ Edits e = 1.
Proof. exact blank_reference_ignored. Qed.
Print Assumptions C27_blank_reference_refuted.

(** The hypothesis is the first one of least cost. *)
Theorem C27_best_hypothesis : forall items : list item, items <> [] ->
  exists x, first_minimum (fun a b => (snd a <= snd b)%Z) (fun a b => (snd a < snd b)%Z) items (min_cost_item items) x.
Proof. exact min_cost_first. Qed.
Print Assumptions C27_best_hypothesis.

(** Totals are sums. *)
Theorem C27_totals : forall l, reference_length (totals l) = sum_of reference_length l /\
  substitutions (totals l) = sum_of substitutions l /\ insertions (totals l) = sum_of insertions l /\
  deletions (totals l) = sum_of deletions l /\ Edits (totals l) = sum_of Edits l.
Proof. exact totals_sum. Qed.
Print Assumptions C27_totals.

(** Lines are grouped by index, in order. *)
Theorem C27_reading : forall lines n, nth n (ReadInputs lines) [] = lines_at lines n.
Proof. exact read_lines. Qed.
Print Assumptions C27_reading.
Theorem C27_reading_length : forall lines n,
  n < length (ReadInputs lines) <-> exists i x, In (i, x) lines /\ n <= i.
Proof. exact read_length. Qed.
Print Assumptions C27_reading_length.

(** A corpus is scored exactly if both sides have the same size and no hypothesis
    lacks a reference; every example with references gives one value. *)
Theorem C27_corpus : forall (search : alignment_search) split_chars references test_input l,
  CalculateErrorRate search split_chars references test_input = Fine l <->
  length references = length test_input /\
  (forall p, In p (combine references test_input) -> fst p = [] -> snd p = []) /\
  Forall2 (fun p e => CalculateMinErrorRate search split_chars (fst p) (or_one (epsilon_token, 0%Z) (snd p)) = Fine e)
    (filter (fun p => non_empty (fst p)) (combine references test_input)) l.
Proof. exact corpus_spec. Qed.
Print Assumptions C27_corpus.

(** Pairwise distances: one row per hypothesis. *)
Theorem C27_pairwise : forall (search : alignment_search) split_chars refs tests ts rs,
  Forall2 (fun i t => GetTokenizedString split_chars tests i = Fine t) (seq 0 (length tests)) ts ->
  Forall2 (fun i r => GetTokenizedString split_chars refs i = Fine r) (seq 0 (length refs)) rs ->
  CalculatePairwiseErrors search split_chars refs tests =
    Fine (map (fun t => map (fun r => CalculatePairEditDistanceValue search r t) rs) ts).
Proof. exact pairwise_spec. Qed.
Print Assumptions C27_pairwise.

(** The printed matrix is square and symmetric, with zeros among hypotheses and
    among references. *)
Theorem C27_distance_matrix : forall dists c, dists <> [] -> rectangular dists c ->
  exists m, GetDistances dists = Fine m /\ length m = length dists + c /\ rectangular m (length dists + c) /\
    (forall i j, i < length dists -> j < c -> entry m i (length dists + j) = entry dists i j /\
                                             entry m (length dists + j) i = entry dists i j) /\
    (forall i j, i < length dists -> j < length dists -> entry m i j = Some 0) /\
    (forall i j, i < c -> j < c -> entry m (length dists + i) (length dists + j) = Some 0).
Proof. exact distances_spec. Qed.
Print Assumptions C27_distance_matrix.

(** An example without references shifts the matrices: the program reads beyond
    the end of its table, after printing the next example's matrix. *)
Theorem C27_printing_refuted : exists search : alignment_search, correct search /\
  exists references test_input edits, CalculatePairwise search true references test_input = Fine edits /\
    printed_matrices references edits = OutOfRange.
Proof. exact printing_skips. Qed.
Print Assumptions C27_printing_refuted.
Theorem C27_shifted_matrix_refuted : exists search : alignment_search, correct search /\
  exists references test_input edits, CalculatePairwise search true references test_input = Fine edits /\
    nth_error references 0 = Some [] /\ exists m, bind (at_ edits 0) GetDistances = Fine m /\ m <> [].
Proof. exact empty_example_gets_next. Qed.
Print Assumptions C27_shifted_matrix_refuted.

(** two references, three hypotheses *)
Example C27_example_matrix : GetDistances [[1; 2]; [0; 3]; [5; 6]] =
  Fine [[0; 0; 0; 1; 2]; [0; 0; 0; 0; 3]; [0; 0; 0; 5; 6]; [1; 0; 5; 0; 0]; [2; 3; 6; 0; 0]].
Proof. reflexivity. Qed.
(** "abd", cost 2, is preferred to "x", cost 7; "abcd" to "ab" *)
Example C27_example_best :
  CalculateMinErrorRate (fun _ => lev) true [([97; 98], 0%Z); ([97; 98; 99; 100], 0%Z)]%N [([120], 7%Z); ([97; 98; 100], 2%Z)]%N
  = Fine (EditDistance 4 0 0 1).
Proof. vm_compute. reflexivity. Qed.
Example C27_example_corpus : exists l,
  CalculateErrorRate (fun _ => lev) true [[([97; 98], 0%Z)]; []; [([99], 0%Z)]]%N [[([97], 0%Z)]; []; []]%N = Fine l /\
  totals l = EditDistance 3 0 0 2.
Proof. eexists. split; vm_compute; reflexivity. Qed.
Example C27_example_reading :
  ReadInputs [(2%nat, ([97], 1%Z)); (0%nat, ([98], 2%Z)); (2%nat, ([99], 3%Z))]%N = [[([98], 2%Z)]; []; [([97], 1%Z); ([99], 3%Z)]]%N.
Proof. reflexivity. Qed.
