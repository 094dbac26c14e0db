(** C61-C64: natural transliteration of the Brahmic scripts. *)
From Coq Require Import String.
From Verif Require Import Base RuleModel RegexModel IsoModel AlignModel AlignSpec AlignProofs NatModel NatSpec NatBytes NatTyp NatTypMain NatRoman NatRomanMain NatPhon NatFacts.
Local Open Scope list_scope.

(** * C61: operations on symbols *)

(** Byte rewriting by a series of operations is rewriting of symbols *)
Theorem C61_bytes : forall l, Forall well_formed l -> staged l -> forall ts s, Forall symbol ts -> (Forall no_insert l \/ no_translit ts) ->
  (In s (run_bytes l (encs ts)) <-> exists out, performs_all l ts out /\ s = encs out).
Proof. exact run_bytes_ok. Qed.
Print Assumptions C61_bytes.

Example C61_bytes_example : (* {e} is inserted between {k} and {t} *)
  run_bytes [Insert [Ph [101]] (Some (false, TWords [[Ph [107]]])) (Some (false, TWords [[Ph [116]]]))]%N (encs [Gr [97]; Eq; Ph [107]; Gr [98]; Eq; Ph [116]]%N)
  = [encs [Gr [97]; Eq; Ph [107]; Ph [101]; Gr [98]; Eq; Ph [116]]%N].
Proof. vm_compute. reflexivity. Qed.

Theorem C61_symbols : forall l, Forall well_formed l -> forall ts out, In out (run l ts) <-> performs_all l ts out.
Proof. exact run_well_formed. Qed.
Print Assumptions C61_symbols.

(** All grammars are of this kind *)
Theorem C61_grammars : forall l s before after, ltn_ops l s = Some (before, after) ->
  Forall well_formed (ISO_TO_TXN ++ (txn_ops l ++ before) ++ TRANSLIT_BY_PSA :: after) /\ staged (ISO_TO_TXN ++ (txn_ops l ++ before) ++ TRANSLIT_BY_PSA :: after).
Proof. exact grammars_well_formed. Qed.
Print Assumptions C61_grammars.

(** * C62: from text to characters *)

(** Each text of letters has one reading.  It is made of characters whose signs spell the text, with an independent
    vowel mark if it starts with a vowel, and there is no character left to compose. *)
Theorem C62_reading : forall cs, letters cs -> exists ds, (forall c, In c ds -> In c CHARS) /\ only (encs (map symbol_of ds)) (iso_to_typ (text_of cs)) /\
  ((starts_with_vowel cs /\ text_of ds = bytes "." ++ text_of cs) \/ (~ starts_with_vowel cs /\ text_of ds = text_of cs)) /\
  (forall c, In c composites -> nowhere (cmp c) (map symbol_of ds)).
Proof. exact iso_to_typ_ok. Qed.
Print Assumptions C62_reading.

Theorem C62_letters : forall s, iso_to_typ s <> [] -> exists cs, letters cs /\ s = text_of cs.
Proof. exact iso_to_typ_none. Qed.
Print Assumptions C62_letters.

Example C62_example : iso_to_typ (bytes "akr̥̄i") = [bytes "<a_i><k><rrv><i>"] /\ iso_to_typ (bytes "ka1") = [].
Proof. vm_compute. split; reflexivity. Qed.

(** * C63: romanization *)

Theorem C63_one_result : forall e l s f cs, romanize e l s = Some f -> l <> Gu -> l <> Pa -> letters cs -> exists x, only x (f (text_of cs)) /\ lower_case x.
Proof. exact romanize_seven. Qed.
Print Assumptions C63_one_result.

Example C63_one_result_example : match romanize false Ta Nat with Some f => f (bytes "tamiḻ") = [bytes "thamizh"] | None => False end.
Proof. vm_compute. reflexivity. Qed.
Example C63_one_result_example_2 : match romanize true Hi Psaf with Some f => f (bytes "hiṁdī") = [bytes "hindii"] | None => False end.
Proof. vm_compute. reflexivity. Qed.
Example C63_one_result_example_3 : match romanize true Hi Nat with Some f => f (bytes "hiṁdī") = [bytes "hindi"] | None => False end.
Proof. vm_compute. reflexivity. Qed.

Theorem C63_gujarati : forall e s f cs, romanize e Gu s = Some f -> letters cs -> no_diphthong cs -> exists x, only x (f (text_of cs)) /\ lower_case x.
Proof. exact romanize_gu. Qed.
Print Assumptions C63_gujarati.

(** The phonemes of Gujarati ai and au are not transliterated *)
Theorem C63_gujarati_refuted : exists cs, letters cs /\ (forall e s f, romanize e Gu s = Some f -> f (text_of cs) = []) /\ forall e, transcribe e Gu (text_of cs) = [].
Proof. exact gujarati_diphthong. Qed.
Print Assumptions C63_gujarati_refuted.

Theorem C63_punjabi : forall e s f cs, romanize e Pa s = Some f -> letters cs -> f (text_of cs) <> [] /\ forall x, In x (f (text_of cs)) -> lower_case x.
Proof. exact romanize_pa. Qed.
Print Assumptions C63_punjabi.

(** The gemination mark before c can be resolved in two ways *)
Theorem C63_punjabi_one_refuted : exists e f cs x y, romanize e Pa Psaf = Some f /\ letters cs /\ In x (f (text_of cs)) /\ In y (f (text_of cs)) /\ x <> y.
Proof. exact punjabi_two. Qed.
Print Assumptions C63_punjabi_one_refuted.

(** Three equal letters leave two of them in the coarse scheme *)
Theorem C63_coarse_refuted : exists e f cs x c, romanize e Hi Psac = Some f /\ letters cs /\ In x (f (text_of cs)) /\ x = [c; c].
Proof. exact psac_doubled. Qed.
Print Assumptions C63_coarse_refuted.

Theorem C63_letters : forall e l s f t x, romanize e l s = Some f -> In x (f t) -> exists cs, letters cs /\ t = text_of cs.
Proof. exact romanize_letters. Qed.
Print Assumptions C63_letters.

(** * C64: pronunciation *)

(** One pronunciation, in which each grapheme of the reading is kept and aligned with phonemes; Malayalam may
    add a vowel at the end *)
Theorem C64_one_result : forall l cs, l <> Pa -> letters cs -> exists ds ts, (forall c, In c ds -> In c CHARS) /\ only (encs (names ds)) (iso_to_typ (text_of cs)) /\
  only (encs ts) (pronounce l (text_of cs)) /\ aligned ts /\ (filter grapheme ts = names ds \/ (l = Ml /\ filter grapheme ts = names ds ++ [symbol_of (sp "u")])).
Proof. exact pronounce_one. Qed.
Print Assumptions C64_one_result.

Example C64_one_result_example : pronounce Hi (bytes "kai") = [bytes "<k>={k}<ai>={eh}{:h}"] /\ pronounce Ml (bytes "k") = [bytes "<k>={k}<u>={u}"].
Proof. vm_compute. split; reflexivity. Qed.

Theorem C64_punjabi : forall cs, letters cs -> exists ds, (forall c, In c ds -> In c CHARS) /\ only (encs (names ds)) (iso_to_typ (text_of cs)) /\ pronounce Pa (text_of cs) <> [] /\
  forall y, In y (pronounce Pa (text_of cs)) -> exists ts, y = encs ts /\ aligned ts /\ filter grapheme ts = names ds.
Proof. exact pronounce_pa. Qed.
Print Assumptions C64_punjabi.

Example C64_punjabi_example : pronounce Pa (bytes "˖c") = [bytes "<add>={sil}<c>={t}{+}{sh}{t}{+}{sh}"; bytes "<add>={sil}<c>={t}{t}{+}{sh}"].
Proof. vm_compute. reflexivity. Qed.

Theorem C64_letters : forall l s, pronounce l s <> [] -> exists cs, letters cs /\ s = text_of cs.
Proof. exact pronounce_letters. Qed.
Print Assumptions C64_letters.

(** Its transcription is unique, too *)
Theorem C64_transcription : forall e l cs, l <> Gu -> l <> Pa -> letters cs -> exists x, only x (transcribe e l (text_of cs)).
Proof. exact transcribe_seven. Qed.
Print Assumptions C64_transcription.

Example C64_transcription_example : transcribe false Hi (bytes "kai") = [bytes "kɛː"].
Proof. vm_compute. reflexivity. Qed.

Theorem C64_transcription_gujarati : forall e cs, letters cs -> no_diphthong cs -> exists x, only x (transcribe e Gu (text_of cs)).
Proof. exact transcribe_gu. Qed.
Print Assumptions C64_transcription_gujarati.

Theorem C64_transcription_punjabi : forall e cs, letters cs -> forall y, In y (pronounce Pa (text_of cs)) -> exists x, only x (print_only_ipa e (map (fun q : word * str => (encs (fst q), snd q)) IPA) y).
Proof. exact transcribe_pa. Qed.
Print Assumptions C64_transcription_punjabi.
