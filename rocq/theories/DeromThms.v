(** C67-C68: deromanization of Hindi and Tamil. *)
From Coq Require Import String.
From Verif Require Import Base RuleModel RuleSpec NatModel NatSpec DeromModel DeromSpec DeromTamil DeromHindi DeromFacts DeromVowels.
Local Open Scope string_scope.
Local Open Scope list_scope.

(** * C67: one text for every word *)

(** A word of the letters a to z has one text in each script *)
Theorem C67_one : forall w, Forall (fun c => 97 <= c <= 122)%N w ->
  (exists t, only t (HI_DEVA w)) /\ (exists t, only t (HI_ISO w)) /\ (exists t, only t (TA_TAML w)) /\ exists t, only t (TA_ISO w).
Proof. exact one_each. Qed.
Print Assumptions C67_one.

(** Nothing else has any *)
Theorem C67_none : forall w, ~ Forall (fun c => 97 <= c <= 122)%N w -> HI_DEVA w = [] /\ HI_ISO w = [] /\ TA_TAML w = [] /\ TA_ISO w = [].
Proof. exact none_else. Qed.
Print Assumptions C67_none.

Example C67_example : HI_DEVA (bytes "thamizhi") = [bytes "थमिज़हि"] /\ TA_TAML (bytes "thamizhi") = [bytes "தமிழி"] /\ TA_ISO (bytes "thamizhi") = [bytes "tamiḻi"] /\ TA_ISO (bytes "Tamil") = [].
Proof. vm_compute. repeat split. Qed.

(** The two dictionaries of vowels fit together: lengthening and making independent can be done in either order, and each short vowel has a long one, independent or not *)
Theorem C67_vowels : (forall v, match long_vowel v with Some w => independent_vowel w | None => None end = match independent_vowel v with Some w => long_vowel w | None => None end) /\
  (forall v w, In v ["a"; "e"; "i"; "o"; "u"]%string -> independent_vowel [v] = Some w -> long_vowel w <> None).
Proof. exact (conj long_independent long_independent_all). Qed.
Print Assumptions C67_vowels.

Example C67_vowels_example : long_vowel ["i"%string] = Some ["ii"%string] /\ independent_vowel ["ii"%string] = Some ["ii_i"%string] /\ long_vowel ["i_i"%string] = Some ["ii_i"%string].
Proof. repeat split. Qed.

(** * C68: what the text is *)

(** Hindi: the sounds of a reading of the word, written in Devanagari and in ISO 15919 *)
Theorem C68_hindi : forall w, Forall (fun c => 97 <= c <= 122)%N w -> exists R d i, hindi_reading w R /\
  native hindi (hindi_write (map snd R)) = Some d /\ iso hindi (hindi_write (map snd R)) = Some i /\ only (bytes d) (HI_DEVA w) /\ only (bytes i) (HI_ISO w).
Proof. exact hi_texts. Qed.
Print Assumptions C68_hindi.

Example C68_hindi_example : hindi_write [Cons ["k"]; Cons ["r"]; Vow "a"; Nas; Cons ["t"]; Vow "i"; Vow "aa"; Cons ["s"]; Cons ["t"]] = [Dead "k"; Syl "r" "a"; Nasal; Syl "t" "i"; Ind "aa"; Dead "s"; Bare "t"] /\
  HI_DEVA (bytes "krantiaast") = [bytes "क्रंतिआस्त"] /\ HI_ISO (bytes "krantiaast") = [bytes "kraṁti.āsta"].
Proof. vm_compute. repeat split. Qed.

(** Tamil *)
Theorem C68_tamil : forall w, Forall (fun c => 97 <= c <= 122)%N w -> exists R t i, tamil_reading w R /\
  native tamil (tamil_write (map snd R)) = Some t /\ iso tamil (tamil_write (map snd R)) = Some i /\ only (bytes t) (TA_TAML w) /\ only (bytes i) (TA_ISO w).
Proof. exact ta_texts. Qed.
Print Assumptions C68_tamil.

Example C68_tamil_example : tamil_write [Cons ["k"]; Vow "a"; Cons ["n"]; Cons ["k"; "k"]; Vow "ai"; Vow "u"; Cons ["lr"]] = [Syl "k" "a"; Dead "n"; Dead "k"; Syl "k" "ai"; Ind "u"; Dead "lr"] /\
  TA_TAML (bytes "ganggaiuzh") = [bytes "கந்க்கைஉழ்"] /\ TA_ISO (bytes "ganggaiuzh") = [bytes "kankkai.uḻ"].
Proof. vm_compute. repeat split. Qed.

(** The documentation says that in Tamil tr stays tr unless it is doubled; but it does not *)
Theorem C68_tamil_tr_refuted : exists w y, ~ is_infix (bytes "trtr") w /\ ~ is_infix (bytes "ttr") w /\ In y (TA_ISO w) /\ is_infix (bytes "ṟ") y.
Proof. exact single_tr. Qed.
Print Assumptions C68_tamil_tr_refuted.

Example C68_tr_example : TA_ISO (bytes "mantra") = [bytes "manṟa"] /\ TA_ISO (bytes "tratri") = [bytes "ṟaṟi"] /\ TA_ISO (bytes "satratri") = [bytes "saṟaṟi"] /\ TA_ISO (bytes "patttri") = [bytes "patṟṟi"].
Proof. vm_compute. repeat split. Qed.
