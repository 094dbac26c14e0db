(** C74: spelling out English letters in other languages. *)
From Coq Require Import String.
From Verif Require Import Base RuleModel SpelloutTables SpelloutModel SpelloutSpec SpelloutProofs SpelloutDecode SpelloutScript.

(** A word of English letters in either case has one spelling, the names of its letters, in code points or in bytes; anything else has none. *)
Theorem C74_spelling (t : token_type) (l : language) (s : script) (w o : str) :
  In o (speller t l s w) <-> letters w /\ o = compile t (written l s w).
Proof. exact (speller_spec t l s w o). Qed.
Print Assumptions C74_spelling.
(** "Pdf" in Malayalam, Urdu and Hindi *)
Example C74_spelling_example :
  speller Utf8 ML MLYM [80; 100; 102]%N = [[3370; 3391; 3361; 3391; 3342; 3371; 3405]]%N /\
  speller Utf8 UR ARAB [80; 100; 102]%N = [[1662; 1740; 32; 1672; 1740; 32; 1575; 1740; 1601]]%N /\
  speller Utf8 HI DEVA [80; 100; 102]%N = [[2346; 2368; 2337; 2368; 2319; 2347; 2364]]%N /\
  speller Byte HI DEVA [80]%N = [[224; 164; 170; 224; 165; 128]]%N /\
  speller Utf8 ML MLYM [102; 80]%N = [[3342; 3371; 3405; 8204; 3370; 3391]]%N /\
  speller Utf8 HI DEVA [80; 32]%N = [].
Proof. repeat split; vm_compute; reflexivity. Qed.

(** Two words have the same spelling if and only if they have the same letters, up to case and up to the letters of the same name. *)
Theorem C74_injective (t : token_type) (l : language) (s : script) (w w' o : str) :
  letters w -> letters w' -> In o (speller t l s w) -> (In o (speller t l s w') <-> Forall2 (alike l s) w w').
Proof. exact (speller_injective t l s w w' o). Qed.
Print Assumptions C74_injective.
(** In Bengali "i" is "আই" and "e" is "ই", "o" is "ও" and "y" is "ওয়াই": "oi" and "y" differ. *)
Example C74_injective_example :
  In [2451; 2438; 2439]%N (speller Utf8 BN BENG [111; 105]%N) /\ ~ In [2451; 2438; 2439]%N (speller Utf8 BN BENG [121]%N) /\
  In [2451; 2438; 2439]%N (speller Utf8 BN BENG [79; 105]%N).
Proof. vm_compute. split; [auto|split; [|auto]]. intros [H|[]]. discriminate. Qed.

(** It is not so that different letters always have different spellings. *)
Theorem C74_injective_refuted : exists t l s w w' o, In (l, s) lang_scripts /\ letters w /\ letters w' /\
  map lower w <> map lower w' /\ In o (speller t l s w) /\ In o (speller t l s w').
Proof.
  exists Utf8, TA, TAML, [112]%N, [98]%N, (written TA TAML [112]%N).
  split; [vm_compute; tauto|]. split; [repeat constructor; vm_compute; intuition discriminate|]. split; [repeat constructor; vm_compute; intuition discriminate|].
  split; [vm_compute; discriminate|]. split; vm_compute; auto.
Qed.
Print Assumptions C74_injective_refuted.
Example C74_injective_refuted_example :
  speller Utf8 SD ARAB [97]%N = speller Utf8 SD ARAB [101]%N /\ speller Utf8 SD ARAB [103]%N = speller Utf8 SD ARAB [106]%N /\
  speller Utf8 TA TAML [100]%N = speller Utf8 TA TAML [116]%N.
Proof. repeat split; vm_compute; reflexivity. Qed.

(** The exported grammars write only the target script, spaces in the Arabic script and joiners in Kannada, Malayalam and Telugu; the last character is one of the script. *)
Theorem C74_script (l : language) (s : script) (w o : str) : In (l, s) lang_scripts -> In o (speller Utf8 l s w) ->
  (forall c, In c o -> block s c \/ (c = 32%N /\ s = ARAB) \/ (c = 8204%N /\ In s [KNDA; MLYM; TELU])) /\
  (w <> [] -> exists x c, o = x ++ [c] /\ block s c).
Proof. exact (speller_native l s w o). Qed.
Print Assumptions C74_script.
Example C74_script_example : speller Utf8 KN KNDA [120]%N = [[3214; 3221; 3277; 3256; 3277]]%N /\ block KNDA 3277.
Proof. split; [vm_compute; reflexivity|]. cbn. split; discriminate. Qed.

(** A language with a script that is not its own: the letters stand for themselves. *)
Theorem C74_unnamed (t : token_type) (l : language) (s : script) (w o : str) : ~ In (l, s) lang_scripts -> s <> ARAB ->
  In o (speller t l s w) -> o = compile t (map lower w).
Proof. exact (speller_unnamed t l s w o). Qed.
Print Assumptions C74_unnamed.
Example C74_unnamed_example : speller Utf8 TA TELU [80; 100; 102]%N = [[112; 100; 102]]%N /\ ~ In (TA, TELU) lang_scripts.
Proof. split; [vm_compute; reflexivity|]. cbn. intuition discriminate. Qed.
