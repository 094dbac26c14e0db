(** Pair language model decoder: segments of words, word pieces, backoff. *)
From Verif Require Import Base Utf8Spec DelimModel DelimSpec KbestModel KbestSpec PairlmModel PairlmSpec PairlmProofs LatticeModel
  CacheModel DecoderSpec BackoffProofs DecoderExamples.

(** ** C28 *)
(** The texts of the maximal runs of covered and of uncovered characters; none if
    there is only one run. *)
Theorem C28_segments : forall covered cs word segs, encoding cs word -> runs (map (fun c => (covered c, c)) cs) segs ->
  exists ts, Forall2 encoding (map snd segs) ts /\ concat ts = word /\
    SegmentCoveredChars covered word = Fine (if length segs <=? 1 then [] else ts).
Proof. exact segment_spec. Qed.
Print Assumptions C28_segments.
Theorem C28_runs_exist : forall covered cs, exists segs : list (bool * list N), runs (map (fun c => (covered c, c)) cs) segs.
Proof. exact segments_exist. Qed.
Print Assumptions C28_runs_exist.
Theorem C28_malformed : forall covered word, ~ well_formed_utf8 word -> SegmentCoveredChars covered word = Fine [].
Proof. exact segment_malformed. Qed.
Print Assumptions C28_malformed.
(** A word is never one of several segments of itself. *)
Theorem C28_proper : forall covered w, proper (segments_of covered) w.
Proof. exact segments_proper. Qed.
Print Assumptions C28_proper.

(** "ab12c" with covered letters *)
Example C28_example : SegmentCoveredChars (fun c => N.leb 97 c) [97; 98; 49; 50; 99]%N = Fine [[97; 98]; [49; 50]; [99]]%N /\
  SegmentCoveredChars (fun c => N.leb 97 c) [97; 98]%N = Fine [].
Proof. split; vm_compute; reflexivity. Qed.

(** ** C43 *)
Theorem C43_pieces : forall syms oov prefix, NoDup syms -> forall trie pcs, encoding pcs prefix ->
  InitializeWordPieceTrie syms oov prefix = Fine trie -> forall cs word, encoding cs word ->
  exists ps, greedy (in_vocabulary syms oov prefix) (in_vocabulary syms oov []) cs ps /\
    ((forall p, In p ps -> is_unknown p = true -> exists o, oov = Some o /\ 0 < o) ->
      exists labels, ParseCandWordPiece syms oov prefix trie word = Some (Fine (labels, length (filter is_unknown ps))) /\
        all_labelled syms oov prefix ps labels) /\
    ((exists p, In p ps /\ is_unknown p = true) -> ~ (exists o, oov = Some o /\ 0 < o) ->
      ParseCandWordPiece syms oov prefix trie word = Some Check).
Proof. exact parse_spec. Qed.
Print Assumptions C43_pieces.
Theorem C43_pieces_text : forall Q P s ps, greedy Q P s ps -> concat (map piece_text ps) = s.
Proof. exact greedy_text. Qed.
Print Assumptions C43_pieces_text.
Theorem C43_pieces_unique : forall Q P s ps, greedy Q P s ps -> forall qs, greedy Q P s qs -> ps = qs.
Proof. exact greedy_unique. Qed.
Print Assumptions C43_pieces_unique.
(** The path of a word reads back as the word, with the sum of the costs. *)
Theorem C43_text : forall cs word arcs final, encoding cs word -> ~ In 0%N cs -> map fst arcs = cs ->
  WordToFst word = Fine cs /\ GetTextString arcs final = Fine (word, (fold_right Z.add 0 (map snd arcs) + final)%Z).
Proof. exact text_round_trip. Qed.
Print Assumptions C43_text.

(** Symbols: 1 "ab", 2 "_b", 3 "_", 4 "<unk>"; prefix "_".  "abbc" is ab, _b and unknown. *)
Example C43_example : exists trie, InitializeWordPieceTrie [[60]; [97; 98]; [95; 98]; [95]; [117]]%N (Some 4) [95%N] = Fine trie /\
  ParseCandWordPiece [[60]; [97; 98]; [95; 98]; [95]; [117]]%N (Some 4) [95%N] trie [97; 98; 98; 99]%N = Some (Fine ([1; 2; 4], 1)).
Proof. eexists. split; [vm_compute; reflexivity|vm_compute; reflexivity]. Qed.

(** ** C44 *)
Theorem C44_phi : forall rank start m, has_arcs m -> ranked rank m ->
  exists m', MakePhiMatcherLM start m = Done m' /\ length m' = length m /\
    forall q s, nth_error m q = Some s -> exists s', nth_error m' q = Some s' /\
      lm_arcs s' = phi_first (lm_arcs s) /\
      (lm_final s' = lm_final s \/ via_lm m q (lm_final s')) /\ (q <> start -> via_lm m q (lm_final s')).
Proof. exact make_phi_spec. Qed.
Print Assumptions C44_phi.
Theorem C44_cost_unique : forall first final q c, via first final q c -> forall d, via first final q d -> c = d.
Proof. exact via_unique. Qed.
Print Assumptions C44_cost_unique.
(** A state without arcs, even a final one, makes the decoder read outside an array. *)
Theorem C44_arcless_refuted : exists start m, MakePhiMatcherLM start m = Undefined /\ final_of m 1 = Some 0%Z.
Proof. exact arcless_undefined. Qed.
Print Assumptions C44_arcless_refuted.
(** A circle of backoff arcs is followed for ever. *)
Theorem C44_circle_refuted : has_arcs circle /\ forall fuel, GetStateFinalCost fuel circle (Some 1) = Overflow.
Proof. exact circle_never. Qed.
Print Assumptions C44_circle_refuted.

(** State 1 backs off to state 0 with cost 2, which is final with cost 3. *)
Example C44_example : MakePhiMatcherLM 0 [LmState [(5%Z, 1%Z, 1)] (Some 3%Z); LmState [(0%Z, 2%Z, 0); (5%Z, 1%Z, 1)] None] =
  Done [LmState [(5%Z, 1%Z, 1)] (Some 3%Z); LmState [((-2)%Z, 2%Z, 0); (5%Z, 1%Z, 1)] (Some 5%Z)].
Proof. vm_compute. reflexivity. Qed.
