(** Consequences and counterexamples for the pair language model decoder. *)
From Coq Require Import Sorting.Sorted.
From Verif Require Import Base Utf8Model Utf8Spec Utf8Proofs DelimModel DelimSpec KbestModel KbestSpec KbestProofs RejoinProofs
  ErrorRateModel PairlmModel PairlmSpec PairlmProofs LatticeModel LatticeSpec CacheModel DecoderSpec BackoffProofs LatticeProofs
  RunnerProofs PrintProofs CacheProofs PairProofs.
From Verif Require PoolModel.

(** ** Segments are shorter than their word *)
Lemma encoding_length cs bs : encoding cs bs -> cs <> [] -> bs <> [].
Proof.
  intros (ps & F & ->) N. inversion F as [|c p cs' ps' H F' E1 E2]; subst; [contradiction|]. cbn [concat].
  intros E. apply app_eq_nil in E. destruct E as [-> _]. apply (encodes_ne c [] H). auto.
Qed.
Lemma part_of_concat {A} (ts : list (list A)) t : 2 <= length ts -> Forall (fun t => t <> []) ts -> In t ts -> length t < length (concat ts).
Proof.
  intros L F I. apply in_split in I. destruct I as (a & b & ->). apply Forall_app in F. destruct F as [Fa Fb].
  rewrite concat_app. cbn [concat]. rewrite !app_length. rewrite app_length in L. cbn [length] in L.
  assert (forall l : list (list A), Forall (fun t => t <> []) l -> length l <= length (concat l)) as G.
  { intros l H. induction H as [|x l Hx H IH]; cbn [concat length]; auto. rewrite app_length. destruct x; [contradiction|]. cbn [length]. lia. }
  pose proof (G a Fa). inversion Fb as [|? ? _ Fb']; subst. pose proof (G b Fb'). lia.
Qed.
Definition segments_of (covered : N -> bool) (w : str) : list str :=
  match SegmentCoveredChars covered w with Fine l => l | _ => [] end.
Lemma segments_proper covered w : proper (segments_of covered) w.
Proof.
  unfold proper, segments_of. destruct (is_valid w) eqn:V.
  - apply is_valid_spec in V. destruct V as (cs & ps & Sp). assert (encoding cs w) as E by (exists ps; exact Sp).
    destruct (segments_exist covered cs) as (segs & R). destruct (segment_spec covered cs w segs E R) as (ts & F & C & ->).
    destruct (length segs <=? 1) eqn:L; [exact I|]. destruct ts as [|t1 [|t2 ts']] eqn:Et; try exact I. rewrite <- Et in *. intros Iw.
    assert (length w < length (concat ts)) as H.
    { apply part_of_concat; auto; [rewrite Et; cbn [length]; lia|].
      destruct R as (_ & R & _). clear - F R. revert F. generalize ts. clear ts. induction R as [|s segs Hs R IH]; intros ts F; inversion F; subst; constructor; auto.
      eapply encoding_length; eauto. }
    rewrite C in H. lia.
  - rewrite segment_malformed; [exact I|]. intros W. apply is_valid_spec in W. congruence.
Qed.

(** ** Pruning *)
Definition two_arcs : list arc := [Arc 1 7 9; Arc 1 8 5; Arc 1 9 1].
(** The candidates stay in their order. *)
Lemma order_example : ApplyFinalKBestFilter 2 None [two_arcs] = Fine (Some [[Arc 1 8 5; Arc 1 9 1]]).
Proof. vm_compute. reflexivity. Qed.
Lemma not_sorted : exists l l', ApplyFinalKBestFilter 2 None [l] = Fine (Some [l']) /\ ~ Sorted (fun a b => (weight a <= weight b)%Z) l'.
Proof.
  exists two_arcs. eexists. split; [exact order_example|]. intros H. inversion H as [|? ? _ R]; subst. inversion R; subst. cbn in *. lia.
Qed.
(** The bound is not relative to the best candidate: here one of twice its cost
    is kept, below one a step worse than the best is dropped. *)
Lemma bound_absolute : exists k bound l l' l2 l2', 
  ApplyFinalKBestFilter k (Some bound) [l] = Fine (Some [l']) /\ map weight l = [100; 101; 102]%Z /\ map weight l' = [100]%Z /\
  ApplyFinalKBestFilter k (Some bound) [l2] = Fine (Some [l2']) /\ map weight l2 = [0; 50; 51]%Z /\ map weight l2' = [0; 50]%Z.
Proof.
  exists 2%Z, 50%Z, [Arc 1 1 100; Arc 1 2 101; Arc 1 3 102]. eexists. exists [Arc 1 1 0; Arc 1 2 50; Arc 1 3 51]. eexists.
  split; [vm_compute; reflexivity|]. split; [reflexivity|]. split; [reflexivity|]. split; [vm_compute; reflexivity|]. split; reflexivity.
Qed.
(** Without more candidates than the limit the bound is not applied. *)
Lemma bound_ignored : exists l, ApplyFinalKBestFilter 3 (Some 5%Z) [l] = Fine (Some [l]) /\ ~ Forall (fun a => (weight a <= 5)%Z) (tl l).
Proof. exists [Arc 1 1 0; Arc 1 2 100]. split; [vm_compute; reflexivity|]. intros H. inversion H; subst. cbn in *. lia. Qed.

(** ** Backoff *)
Lemma arcless_undefined : exists start m, MakePhiMatcherLM start m = Undefined /\ final_of m 1 = Some 0%Z.
Proof. exists 0, [LmState [(5%Z, 1%Z, 1)] None; LmState [] (Some 0%Z)]. split; vm_compute; reflexivity. Qed.
Lemma circle_never : has_arcs circle /\ forall fuel, GetStateFinalCost fuel circle (Some 1) = Overflow.
Proof. split; [|exact circle_overflows]. intros s [<-|[<-|[]]]; discriminate. Qed.

(** ** Printing *)
Definition zero_text : nat -> str := fun _ => [48%N].
Definition as_zero : str -> option Z := fun _ => Some 0%Z.
Lemma empty_candidate : exists in_syms out_syms l out,
  PrintTransliterations zero_text (fun _ => [48%N]) [48%N] in_syms out_syms (Some l) false = Fine out /\
  ~ In 10%N out /\ InitializeKbestExtractor as_zero as_zero [out] = Check.
Proof.
  exists [[60]; [97]]%N, [[60]; []]%N, [[Arc 1 1 0]]. eexists. split; [vm_compute; reflexivity|]. split; [|vm_compute; reflexivity].
  cbv. intros H. repeat destruct H as [H|H]; try discriminate; auto.
Qed.

(** ** Caches *)
Definition two_cands (w : str) (k : nat) : cands := firstn k [([112%N], 1%Z); ([113%N], 2%Z)].
Definition same (cs : cands) : cands := cs.
Definition left_one (a b : cands) : cands := a.
Definition no_join (k : nat) (ll : list cands) : cands := concat ll.
Definition one_piece (w : str) : list str := [].
Lemma history : exists d1 c1, 
  TransliterateWord two_cands same left_one no_join one_piece true [97%N] 1 (Caches [] []) fresh_context = Fine (two_cands [97%N] 1, d1, c1) /\
  (exists d2 c2, TransliterateWord two_cands same left_one no_join one_piece true [97%N] 2 (Caches [] []) fresh_context = Fine (two_cands [97%N] 2, d2, c2)) /\
  (exists d3 c3, TransliterateWord two_cands same left_one no_join one_piece true [97%N] 2 d1 fresh_context = Fine (two_cands [97%N] 1, d3, c3)) /\
  two_cands [97%N] 1 <> two_cands [97%N] 2.
Proof.
  eexists. eexists. split; [vm_compute; reflexivity|]. split; [eexists; eexists; vm_compute; reflexivity|].
  split; [eexists; eexists; vm_compute; reflexivity|]. discriminate.
Qed.
(** The words "a1" and "1"; the letter is covered, the digit is not but has an
    external transliteration. *)
Definition letter_a (c : N) : bool := N.eqb c 97.
Definition only_letters (w : str) (k : nat) : cands := if forallb letter_a w then [([112%N], 1%Z)] else [].
Lemma segment_symbol_missing : exists d rs d' c', 
  TransliterateWords only_letters same left_one no_join (segments_of letter_a) false [[97; 49]; [49]]%N 1 d fresh_context = Fine (rs, d', c') /\
  sound d /\ find_input (input_syms c') [49%N] = Check.
Proof.
  exists (Caches [([49%N], [([113%N], 3%Z)])] []). eexists. eexists. eexists. split; [vm_compute; reflexivity|]. split; [|vm_compute; reflexivity].
  split; [intros w []|]. intros w cs. cbn [lookup global]. destruct (str_eqb w [49%N]); [|discriminate]. intros H. injection H as <-. discriminate.
Qed.
Lemma epsilon_word pair_lm push mix join segment b k d rs d' c' :
  TransliterateWords pair_lm push mix join segment b [epsilon_token] k d fresh_context = Fine (rs, d', c') -> proper segment epsilon_token ->
  find_input (input_syms c') epsilon_token = Check.
Proof.
  intros H P. cbn [TransliterateWords] in H. apply bind_fine in H. destruct H as ([[r d1] c1] & H & H'). cbn [bind fst snd] in H'. injection H' as <- <- <-.
  apply word_cases in H. destruct H as (c2 & m & Hi & Hm & D).
  assert (input_syms c2 = [epsilon_token]) as E2.
  { unfold initialise_word in Hi. cbn [fresh_context word_cache lookup] in Hi. apply bind_fine in Hi. destruct Hi as (x & _ & Hi). injection Hi as <-. reflexivity. }
  assert (input_syms c1 = [epsilon_token]) as ->; [|reflexivity].
  destruct D as [(_ & _ & _ & _ & ->)|(_ & wt & c3 & Hin & D)]; auto. apply inner_context in Hin; auto. destruct Hin as (E3 & _).
  destruct D as [(_ & _ & _ & ->)|(_ & cached & _ & _ & -> & _)]; cbn [input_syms]; congruence.
Qed.
Lemma words_have_symbols pair_lm push mix join segment b ws k d rs d' c' : no_segments segment ws ->
  TransliterateWords pair_lm push mix join segment b ws k d fresh_context = Fine (rs, d', c') -> incl ws (input_syms c').
Proof. intros S H. eapply words_known in H; eauto; [apply H|apply incl_refl|apply fresh_known]. Qed.

(** ** Configuration *)
Lemma init_external atod mix_cost cfg lines es : cfg_cands cfg = Some lines -> Forall2 (external_entry atod) lines es ->
  exists st d, InitializePairLMDecoder atod mix_cost cfg = Fine (st, d) /\
    (forall a b, cost_in d a b = last_cost es a b) /\
    (forall w, In w (overrides d) <-> cfg_cands_override cfg = true /\ exists e, In e es /\ fst (fst e) = w).
Proof.
  intros E F. destruct (external_spec atod (cfg_cands_override cfg) lines es F) as (d & H & R).
  unfold InitializePairLMDecoder, InitializeExternalTransliterations. rewrite E, H. cbn [bind]. eexists. eexists. split; [reflexivity|]. exact R.
Qed.
Lemma weight_ignored : exists cfg w, cfg_translit_weight cfg = Some w /\ (forall atod mix_cost, exists st d,
  InitializePairLMDecoder atod mix_cost cfg = Fine (st, d) /\ pairlm_translit_weight_ st = Some kDefaultMixWeight) /\
  forall mix_cost, mix_cost w <> kDefaultMixWeight -> forall atod st d, InitializePairLMDecoder atod mix_cost cfg = Fine (st, d) ->
    pairlm_translit_weight_ st <> Some (mix_cost w).
Proof.
  exists (Config true None None None (Some []) false (Some 3%Z) None None None), 3%Z. split; [reflexivity|]. split.
  - intros atod mix_cost. eexists. eexists. split; [cbn; reflexivity|reflexivity].
  - intros mix_cost N atod st d H. cbn in H. injection H as <- <-. cbn. intros E. injection E as E. auto.
Qed.
Lemma malformed_accepted : exists s, ~ well_formed_utf8 s /\ Utf8Check s = Fine true.
Proof.
  exists [255%N]. split; [|vm_compute; reflexivity]. intros W. apply is_valid_spec in W. vm_compute in W. discriminate.
Qed.
