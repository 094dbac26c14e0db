(** C78: character error rates by the earth mover's distance. *)
From Coq Require Import QArith.
From Verif Require Import Base Utf8Model Utf8Spec DelimSpec KbestModel ErrorRateModel ErrorRateSpec
  EmdModel EmdSpec EmdProofs EmdResults.
Local Open Scope Q_scope.

(** Weights become positive probabilities with sum 1, in the same proportions. *)
Theorem C78_probabilities : forall w, w <> [] -> all_positive w ->
  length (probabilities w) = length w /\ all_positive (probabilities w) /\
  sum (length w) (at_pos (probabilities w)) == 1 /\
  forall i j, at_pos (probabilities w) i * at_pos w j == at_pos (probabilities w) j * at_pos w i.
Proof. exact probabilities_spec. Qed.
Print Assumptions C78_probabilities.
(** A constant added to all costs changes nothing. *)
Theorem C78_shift : forall w k, w <> [] -> all_positive w -> 0 < k ->
  forall i, at_pos (probabilities (map (Qmult k) w)) i == at_pos (probabilities w) i.
Proof. exact probabilities_shift. Qed.
Print Assumptions C78_shift.

(** If the solver is right about the line that is written, then the edits are the
    least expected number of edits when the probability of the hypotheses is moved
    to the references, and the length is the mean length of the references, whatever
    the flow. *)
Theorem C78_edits_and_length : forall emd hyp ref edits lens,
  hyp <> [] -> length edits = length hyp -> rectangular edits (length ref) -> length lens = length ref ->
  exists l, pairwise_line hyp ref edits lens = Fine l /\
    (best_flow (p1 l) (p2 l) (D l) (emd (p1 l) (p2 l) (D l)) ->
     least_cost (length hyp) (length ref) (share hyp) (share ref) (edits_at edits) (fst (emd_error_and_length emd l)) /\
     snd (emd_error_and_length emd l) == sum (length ref) (fun j => share ref j * length_at lens j)).
Proof. exact emd_spec. Qed.
Print Assumptions C78_edits_and_length.
Theorem C78_unique : forall n m a b E c c', least_cost n m a b E c -> least_cost n m a b E c' -> c == c'.
Proof. exact least_unique. Qed.
Print Assumptions C78_unique.

(** With one hypothesis, or one reference, it is the expected number of edits. *)
Theorem C78_one_hypothesis : forall m a b E c, least_cost 1 m a b E c -> c == sum m (fun j => b j * E 0%nat j).
Proof. exact least_one_hypothesis. Qed.
Print Assumptions C78_one_hypothesis.
Theorem C78_one_reference : forall n a b E c, least_cost n 1 a b E c -> c == sum n (fun i => a i * E i 0%nat).
Proof. exact least_one_reference. Qed.
Print Assumptions C78_one_reference.

(** At most the expected number for independent choices; at least the expected
    number for the nearest reference, or the nearest hypothesis, in general any
    bound by prices. *)
Theorem C78_at_most : forall n m hyp ref E c, hyp <> [] -> ref <> [] -> all_positive hyp -> all_positive ref ->
  n = length hyp -> m = length ref -> least_cost n m (share hyp) (share ref) E c ->
  c <= sum n (fun i => sum m (fun j => share hyp i * share ref j * E i j)).
Proof. exact least_independent. Qed.
Print Assumptions C78_at_most.
Theorem C78_at_least : forall n m a b E c low, least_cost n m a b E c ->
  (forall i j, (i < n)%nat -> (j < m)%nat -> low i <= E i j) -> sum n (fun i => a i * low i) <= c.
Proof. exact least_nearest. Qed.
Print Assumptions C78_at_least.
Theorem C78_at_least_reference : forall n m a b E c low, least_cost n m a b E c ->
  (forall i j, (i < n)%nat -> (j < m)%nat -> low j <= E i j) -> sum m (fun j => b j * low j) <= c.
Proof. exact least_nearest_ref. Qed.
Print Assumptions C78_at_least_reference.
Theorem C78_prices : forall n m a b E c u v, least_cost n m a b E c ->
  (forall i j, (i < n)%nat -> (j < m)%nat -> u i + v j <= E i j) ->
  sum n (fun i => a i * u i) + sum m (fun j => b j * v j) <= c.
Proof. exact least_dual. Qed.
Print Assumptions C78_prices.

(** No edits exactly if probability moves only between equal texts; in particular
    if both sides are the same texts with the same probabilities. *)
Theorem C78_zero : forall n m a b E c, (forall i j, (i < n)%nat -> (j < m)%nat -> 0 <= E i j) ->
  least_cost n m a b E c ->
  (c == 0 <-> exists g, moves n m a b g /\ forall i j, (i < n)%nat -> (j < m)%nat -> 0 < g i j -> E i j == 0).
Proof. exact least_zero. Qed.
Print Assumptions C78_zero.
Theorem C78_same : forall n a E c, (forall i, (i < n)%nat -> 0 <= a i) ->
  (forall i j, (i < n)%nat -> (j < n)%nat -> 0 <= E i j) -> (forall i, (i < n)%nat -> E i i == 0) ->
  least_cost n n a a E c -> c == 0.
Proof. exact least_same. Qed.
Print Assumptions C78_same.

(** References are counted by their characters; texts that are not empty give a
    mean length of at least 1, hence a rate. *)
Theorem C78_lengths : forall (cands : list item) (css : list (list N)),
  Forall2 (fun (cand : item) cs => encoding cs (fst cand)) cands css -> GetLengths cands = Fine (map (@length N) css).
Proof. exact lengths_spec. Qed.
Print Assumptions C78_lengths.
Theorem C78_mean_length : forall ref lens, ref <> [] -> all_positive ref -> length lens = length ref ->
  (forall n, In n lens -> (1 <= n)%nat) -> 1 <= sum (length ref) (fun j => share ref j * length_at lens j).
Proof. exact mean_length. Qed.
Print Assumptions C78_mean_length.
(** That is the length the edits refer to if there is no white space ... *)
Theorem C78_same_length : forall text cs z, encoding cs text -> cs <> [] -> Forall (fun c => ~ white_space c) cs ->
  text <> epsilon_token ->
  exists toks, GetTokenizedString true [(text, z)] 0 = Fine toks /\ length toks = length cs.
Proof. exact tokens_word. Qed.
Print Assumptions C78_same_length.
(** ... but not in general: "<epsilon>" stands for no text and counts as 9
    characters; blanks count one by one but are read as one. *)
Theorem C78_same_length_refuted : exists (cand : item) n toks cand' n' toks',
  GetLengths [cand] = Fine [n] /\ GetTokenizedString true [cand] 0 = Fine toks /\ n = 9%nat /\ toks = [] /\
  GetLengths [cand'] = Fine [n'] /\ GetTokenizedString true [cand'] 0 = Fine toks' /\
  n' = 4%nat /\ length toks' = 3%nat.
Proof. exact lengths_differ. Qed.
Print Assumptions C78_same_length_refuted.

(** The rates of the lines, and the overall rate, the mean weighted by length. *)
Theorem C78_overall : forall emd lines lo hi, lines <> [] ->
  (forall l, In l lines -> 0 < snd (emd_error_and_length emd l)) ->
  (forall l, In l lines -> lo <= fst (emd_error_and_length emd l) / snd (emd_error_and_length emd l) <= hi) ->
  map snd (fst (fst (main emd lines))) =
    map (fun l => Rate (fst (emd_error_and_length emd l) / snd (emd_error_and_length emd l))) lines /\
  exists q, snd (main emd lines) = Some (Rate q) /\ lo <= q <= hi /\
    q * sum (length lines) (at_pos (map (fun l => snd (emd_error_and_length emd l)) lines)) ==
    sum (length lines) (at_pos (map (fun l => fst (emd_error_and_length emd l)) lines)).
Proof. exact main_spec. Qed.
Print Assumptions C78_overall.
(** An empty file ends with an exception. *)
Theorem C78_no_lines : forall emd, snd (main emd []) = None.
Proof. exact main_none. Qed.
Print Assumptions C78_no_lines.

(** The text of a line: candidates and vectors are read back as JSON ... *)
Theorem C78_text : forall cands, cands <> [] ->
  Forall (fun c => Forall plain_char (fst c) /\ number_text (snd c)) cands ->
  members number_text (cands_text true cands) cands.
Proof. exact cands_read. Qed.
Print Assumptions C78_text.
Theorem C78_vector : forall a b, a <> [] -> b <> [] -> Forall number_text a -> Forall number_text b ->
  array (GetBracketedVectorString a b) (a ++ b).
Proof. exact bracketed_array. Qed.
Print Assumptions C78_vector.
(** ... but a word with quotes may be read as two, and without references the
    vectors are not arrays. *)
Theorem C78_text_refuted : exists word prob w1 v1 w2 v2,
  number_text prob /\ members number_text (cands_text true [(word, prob)]) [(w1, v1); (w2, v2)].
Proof. exact cands_misread. Qed.
Print Assumptions C78_text_refuted.
Theorem C78_vector_refuted : forall a l, ~ array (GetBracketedVectorString a []) l.
Proof. exact bracketed_not_array. Qed.
Print Assumptions C78_vector_refuted.

(** emd_cer_test.py, testCalcEditsRefLen3: 1.437 edits and length 2; the weights are
    those of asa, asha, osh, ash, os, as, aso and oso, the references as and os. *)
Example C78_example : exists l flow,
  pairwise_line [410; 228; 106; 80; 52; 45; 43; 36] [1; 1]
    [[1; 2]; [2; 3]; [2; 1]; [1; 2]; [1; 0]; [0; 1]; [1; 2]; [2; 1]]%nat [2; 2]%nat = Fine l /\
  best_flow (p1 l) (p2 l) (D l) (1437 # 1000, flow) /\
  snd (emd_error_and_length (fun _ _ _ => (1437 # 1000, flow)) l) == 2.
Proof.
  eexists. exists [repeat 0 8 ++ [104 # 1000; 306 # 1000]; repeat 0 8 ++ [228 # 1000; 0]; repeat 0 9 ++ [106 # 1000];
    repeat 0 8 ++ [80 # 1000; 0]; repeat 0 9 ++ [52 # 1000]; repeat 0 8 ++ [45 # 1000; 0];
    repeat 0 8 ++ [43 # 1000; 0]; repeat 0 9 ++ [36 # 1000]; repeat 0 10; repeat 0 10]%list.
  split; [vm_compute; reflexivity|]. split; [|vm_compute; reflexivity].
  apply flow_ok_spec with (u := [1; 2; 0; 1; -(1); 0; 1; 0; -(9); -(9)]) (v := [-(9); -(9); -(9); -(9); -(9); -(9); -(9); -(9); 0; 1]).
  vm_compute. reflexivity.
Qed.
(** One word of 3 characters, two references of 2 and 4 characters at distance 1
    and 3, with counts 3 and 1; and two such lines *)
Example C78_example_one : exists l,
  pairwise_line [5] [3; 1] [[1; 3]]%nat [2; 4]%nat = Fine l /\
  best_flow (p1 l) (p2 l) (D l) (3 # 2, [[0; 3 # 4; 1 # 4]; [0; 0; 0]; [0; 0; 0]]) /\
  exists r e t q q', main (fun _ _ _ => (3 # 2, [[0; 3 # 4; 1 # 4]; [0; 0; 0]; [0; 0; 0]])) [l; l] =
    ([(r, 3 # 2, Rate q); (r, 3 # 2, Rate q)], (e, t), Some (Rate q')) /\
    r == 5 # 2 /\ e == 3 /\ t == 5 /\ q == 3 # 5 /\ q' == 3 # 5.
Proof.
  eexists. split; [vm_compute; reflexivity|]. split.
  - apply flow_ok_spec with (u := [0; -(9); -(9)]) (v := [-(9); 1; 3]). vm_compute. reflexivity.
  - do 5 eexists. split; [vm_compute; reflexivity|]. repeat split.
Qed.
(** {"ab": 0.5, "c": 0.5} and [1, 0, 0] *)
Example C78_example_text :
  cands_text true [([97; 98], [48; 46; 53]); ([99], [48; 46; 53])]%N =
    [34; 97; 98; 34; 58; 32; 48; 46; 53; 44; 32; 34; 99; 34; 58; 32; 48; 46; 53]%N /\
  GetBracketedVectorString [[49]]%N [[48]; [48]]%N = [91; 49; 44; 32; 48; 44; 32; 48; 93]%N /\
  GetBracketedVectorString [[49]]%N [] = [91; 49; 44; 32; 93]%N.
Proof. repeat split. Qed.
