(** C94: romanization of phonemes *)
From Coq Require Import String List NArith PeanoNat.
From Verif Require Import Base RegexModel IsoModel AlignModel AlignSpec NatModel PhonTables PhonModel PhonTextModel PhonTextSpec PhonTextMainProofs.
Import ListNotations.
Local Open Scope string_scope.
Local Open Scope list_scope.

(** Base transliteration goes phoneme by phoneme; a composite is written at once or part by part *)
Theorem C94_base : forall l ps out, phonemes = Some l -> (forall p, In p ps -> In p l) ->
  (In out (apply_to TRANSLIT_BASE (text ps)) <-> piecewise base_piece ps out).
Proof. exact base_text. Qed.
Print Assumptions C94_base.
(** So the output is not unique, and one of the outputs keeps the combiner *)
Theorem C94_base_unique_refuted : exists l p a b, phonemes = Some l /\ In p l /\ a <> b /\
  In a (apply_to TRANSLIT_BASE (text [p])) /\ In b (apply_to TRANSLIT_BASE (text [p])) /\ In plus b.
Proof. exact base_refuted. Qed.
Print Assumptions C94_base_unique_refuted.
(** The rules for diphthongs and affricates change those and nothing else *)
Theorem C94_diphthong : forall l ps out, phonemes = Some l -> (forall p, In p ps -> In p l) ->
  (In out (apply_to TRANSLIT_DIPHTHONG (text ps)) <-> piecewise (class_piece "diphthong") ps out).
Proof. exact diphthong_text. Qed.
Print Assumptions C94_diphthong.
Theorem C94_affricate : forall l ps out, phonemes = Some l -> (forall p, In p ps -> In p l) ->
  (In out (apply_to TRANSLIT_AFFRICATE (text ps)) <-> piecewise (class_piece "affricate") ps out).
Proof. exact affricate_text. Qed.
Print Assumptions C94_affricate.
(** One after the other they leave letters only, and the letters that show are the same for all outputs *)
Theorem C94_romanized : forall l ps m1 m2 m3 out, phonemes = Some l -> (forall p, In p ps -> In p l) ->
  In m1 (apply_to TRANSLIT_DIPHTHONG (text ps)) -> In m2 (apply_to TRANSLIT_AFFRICATE m1) ->
  In m3 (apply_to TRANSLIT_BASE m2) -> In out (apply_to IGNORE_MODIFIERS m3) ->
  Forall is_translit out /\ exists ws, Forall2 best_piece ps ws /\ visible out = visible (concat ws).
Proof. exact romanized. Qed.
Print Assumptions C94_romanized.
Theorem C94_total : forall l ps, phonemes = Some l -> (forall p, In p ps -> In p l) -> exists m1 m2 m3 out,
  In m1 (apply_to TRANSLIT_DIPHTHONG (text ps)) /\ In m2 (apply_to TRANSLIT_AFFRICATE m1) /\
  In m3 (apply_to TRANSLIT_BASE m2) /\ In out (apply_to IGNORE_MODIFIERS m3).
Proof. exact romanized_exists. Qed.
Print Assumptions C94_total.
(** Of n equal substrings half are left *)
Theorem C94_repeated : forall c n out, In c OTHER_SUBSTRING ->
  (In out (apply_to (Some DEL_REPEATED_SUBSTRING) (repeat (Tr (typ c)) n)) <-> out = repeat (Tr (typ c)) (Nat.div2 (S n))).
Proof. exact repeated_text. Qed.
Print Assumptions C94_repeated.
(** So a second time changes more *)
Theorem C94_repeated_idempotent_refuted : exists s a b,
  apply_to (Some DEL_REPEATED_SUBSTRING) s = [a] /\ apply_to (Some DEL_REPEATED_SUBSTRING) a = [b] /\ a <> b.
Proof. exact repeated_refuted. Qed.
Print Assumptions C94_repeated_idempotent_refuted.
(** The symbols of the phonemes are in the alphabet of the rules, except those for pitch *)
Theorem C94_symbols : exists l, phonemes = Some l /\ (exists p, In p l /\ In "pitch" (ftr (body p))) /\ forall p, In p l ->
  ((forall s, In s (symbols (body p)) -> accepts PHONEME (enc s) = true) <-> ~ In "pitch" (ftr (body p))).
Proof. exact sigma_ok. Qed.
Print Assumptions C94_symbols.

Example C94_ex_base : apply_to TRANSLIT_BASE [Ph [97]%N] = [[Tr [97]%N]].
Proof. vm_cast_no_check (eq_refl [[Tr [97]%N]]). Qed.
Example C94_ex_affricate : apply_to TRANSLIT_AFFRICATE [Ph [116]%N; plus; Ph [115; 104]%N] = [[Tr [115; 95; 99; 104]%N]].
Proof. vm_cast_no_check (eq_refl [[Tr [115; 95; 99; 104]%N]]). Qed.
Example C94_ex_ignore : apply_to IGNORE_MODIFIERS [plus; Ph [97]%N] = [[deleted; Ph [97]%N]].
Proof. vm_cast_no_check (eq_refl [[deleted; Ph [97]%N]]). Qed.
Example C94_ex_repeated : apply_to (Some DEL_REPEATED_SUBSTRING) (repeat (Tr [115; 95; 115; 104]%N) 4) = [repeat (Tr [115; 95; 115; 104]%N) 2].
Proof. vm_compute. reflexivity. Qed.
