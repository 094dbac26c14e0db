(** Malayalam typed with Latin letters. *)
From Verif Require Import Base ScriptData IsoFullModel FixedTables FixedModel FixedSpec FixedProofs.
From Coq Require Import String.
Local Open Scope N_scope.

(** ** C71 *)
(** A text typed unit by unit becomes the native text of these units, and nothing else costs as little. *)
Theorem C71_typed : forall ns w, text w -> exists l, MLYM ns (typed None w) = Some l /\ forall z, In z (best_among l) <-> z = native w.
Proof. exact typed_text. Qed.
Print Assumptions C71_typed.
(** Whatever is typed, there is at most one best result. *)
Theorem C71_one_text : forall ns x, exists l, MLYM ns x = Some l /\ forall z z', In z (best_among l) -> In z' (best_among l) -> z = z'.
Proof. exact one_text. Qed.
Print Assumptions C71_one_text.
(** Text with brackets or characters outside ASCII has no result. *)
Theorem C71_not_ascii : forall ns x c, In c x -> 126 < c \/ c = 91 \/ c = 93 -> MLYM ns x = Some [].
Proof. exact not_ascii. Qed.
Print Assumptions C71_not_ascii.
(** The keys m and O do not give MA with the vowel OO, although all other pairs of an onset and a vowel work: data/Mlym/fixed.textproto has no rule for it. *)
Theorem C71_m_long_o_refuted : forall ns, ~ (exists l, MLYM ns (keys "mO") = Some l /\ In [3374; 3403] (best_among l)).
Proof. exact m_long_o_refuted. Qed.
Print Assumptions C71_m_long_o_refuted.
(** They give an anusvara and an independent vowel. *)
Theorem C71_m_long_o : forall ns, exists l, MLYM ns (keys "mO") = Some l /\ forall z, In z (best_among l) <-> z = [3330; 3347].
Proof. exact m_long_o. Qed.
Print Assumptions C71_m_long_o.
(** brahmic/testdata/fixed.textproto: jhaansi, with a chillu *)
Example C71_example_chillu :
  text [(Syllable, ([3357; 3390], keys "jhaa")); (Quiet, ([3451], keys "n")); (Syllable, ([3384; 3391], keys "si"))] /\
  typed None [(Syllable, ([3357; 3390], keys "jhaa")); (Quiet, ([3451], keys "n")); (Syllable, ([3384; 3391], keys "si"))] = keys "jhaansi" /\
  native [(Syllable, ([3357; 3390], keys "jhaa")); (Quiet, ([3451], keys "n")); (Syllable, ([3384; 3391], keys "si"))] = [3357; 3390; 3451; 3384; 3391].
Proof. split; [apply text_b_ok; vm_compute; reflexivity|split; vm_compute; reflexivity]. Qed.
(** brahmic/testdata/fixed.textproto: aikyam, with joined consonants and an anusvara *)
Example C71_example_joined :
  text [(Independent, ([3344], keys "ai")); (Joined, ([3349; 3405], keys "k")); (Syllable, ([3375], keys "ya")); (Quiet, ([3330], keys "m"))] /\
  typed None [(Independent, ([3344], keys "ai")); (Joined, ([3349; 3405], keys "k")); (Syllable, ([3375], keys "ya")); (Quiet, ([3330], keys "m"))] = keys "aikyam" /\
  native [(Independent, ([3344], keys "ai")); (Joined, ([3349; 3405], keys "k")); (Syllable, ([3375], keys "ya")); (Quiet, ([3330], keys "m"))] = [3344; 3349; 3405; 3375; 3330].
Proof. split; [apply text_b_ok; vm_compute; reflexivity|split; vm_compute; reflexivity]. Qed.
(** ente, and two vowels with a dot between them *)
Example C71_example_cluster :
  text [(Independent, ([3342], keys "e")); (Syllable, ([3451; 3405; 3377; 3398], keys "nte")); (Independent, ([3333], keys "a"))] /\
  typed None [(Independent, ([3342], keys "e")); (Syllable, ([3451; 3405; 3377; 3398], keys "nte")); (Independent, ([3333], keys "a"))] = keys "ente.a".
Proof. split; [apply text_b_ok; vm_compute; reflexivity|vm_compute; reflexivity]. Qed.
Example C71_example_not_ascii : MLYM (fun _ => 0%nat) [107; 257] = Some [] /\ In 257 [107; 257].
Proof. split; [exact (not_ascii (fun _ => 0%nat) [107; 257] 257 (or_intror (or_introl eq_refl)) (or_introl eq_refl))|cbn; tauto]. Qed.
