(** The shipped romanizations are found by reading letter by letter. *)
From Verif Require Import Base RuleModel VisualModel ScriptData ScriptTables ScriptModel IsoModel IsoSpec IsoFullModel IsoRoundSpec IsoTextSpec IsoReader.
Local Open Scope N_scope.

(** ** C70 *)
(** In 18 of the 20 scripts the romanization of least cost of any text is what a reader finds who takes the longest letter again and again. *)
Theorem C70_romanize : forall d, In d longest_scripts -> forall x y, In y (best_outs (iso_wt d) x) <-> romanize d x = Some y.
Proof. exact romanize_all. Qed.
Print Assumptions C70_romanize.
(** In Bengali it is so for texts without a nukta after some long letters. *)
Theorem C70_bengali : forall x, lacks bengali_odd x -> forall y, In y (best_outs (iso_wt data_Beng) x) <-> romanize data_Beng x = Some y.
Proof. exact romanize_bengali. Qed.
Print Assumptions C70_bengali.
(** In Kannada it is so for texts without a virama after the vowel AE. *)
Theorem C70_kannada : forall x, lacks kannada_odd x -> forall y, In y (best_outs (iso_wt data_Knda) x) <-> romanize data_Knda x = Some y.
Proof. exact romanize_kannada. Qed.
Print Assumptions C70_kannada.
(** The exported romanization gives what the reader finds in the NFC form of the text. *)
Theorem C70_exported : forall ns d, In d longest_scripts -> forall x, over (script_sigma d) x = true ->
  exists nfc t l, script_nfc ns d = Some nfc /\ nfc x = [t] /\ from_script ns d x = Some l /\ forall y, In y (best_among l) <-> romanize d t = Some y.
Proof. exact exported. Qed.
Print Assumptions C70_exported.
(** What the reader finds can be read back. *)
Theorem C70_back : forall d, In d longest_scripts -> In d one_reading_scripts -> forall x y, romanize d x = Some y -> forall z, In z (best_outs (w_invert (iso_wt d)) y) <-> z = x.
Proof. exact romanize_back. Qed.
Print Assumptions C70_back.
(** No two texts are romanized alike. *)
Theorem C70_one_text : forall d, In d longest_scripts -> In d one_reading_scripts -> forall x x' y, romanize d x = Some y -> romanize d x' = Some y -> x = x'.
Proof. exact romanize_one. Qed.
Print Assumptions C70_one_text.
(** Every text of letters without subjoined consonants has a romanization, in a script with an inherent vowel. *)
Theorem C70_total : forall d, inherent d <> None -> forall x l, letters d 0 x = Some l -> ~ (exists o, In (Subjoined o) l) -> exists y, romanize d x = Some y.
Proof. exact romanize_total. Qed.
Print Assumptions C70_total.
(** The longest letter is not always best: in Bengali a nukta may belong to the end of a long letter; *)
Theorem C70_bengali_refuted : exists x y, In y (best_outs (iso_wt data_Beng) x) /\ romanize data_Beng x <> Some y.
Proof. exact bengali_refuted. Qed.
Print Assumptions C70_bengali_refuted.
(** in Kannada AA, virama and YA are not read as AE before a virama and a vowel. *)
Theorem C70_kannada_refuted : exists x y, In y (best_outs (iso_wt data_Knda) x) /\ romanize data_Knda x <> Some y.
Proof. exact kannada_refuted. Qed.
Print Assumptions C70_kannada_refuted.
(** brahmic/testdata/iso.textproto: a Devanagari word; a letter with nukta; a vowel after a consonant *)
Example C70_example_deva : romanize data_Deva [2348; 2381; 2352; 2366; 2361; 2381; 2350; 2367; 2325] = Some [98; 114; 257; 104; 109; 105; 107; 97] /\
  romanize data_Deva [2325; 2364; 2366; 2325] = Some [113; 257; 107; 97] /\ romanize data_Deva [2325; 2311] = Some [107; 97; 46; 105] /\ In data_Deva longest_scripts.
Proof. split; [|split; [|split]]; try (vm_compute; reflexivity). unfold longest_scripts. cbn [In]. tauto. Qed.
(** A vowel letter of two characters in Thaana; a dangling vowel sign in Malayalam *)
Example C70_example_others : romanize data_Thaa [1927; 1960; 1923; 1958] = Some [105; 114; 97] /\ romanize data_Mlym [3390; 3349] = Some [45; 257; 107; 97].
Proof. split; vm_compute; reflexivity. Qed.
