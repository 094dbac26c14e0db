(** C92: normalization of languages in Arabic script. *)
From Verif Require Import Base RuleModel RuleSpec RomanModel RomanTables VisualModel NfcTables ArabTables ArabModel ArabSpec
  ArabProofs ArabLangProofs ArabCaseProofs.

(** Rules for letters within a word change every letter but the last. *)
Theorem C92_within : forall l sigma s t, single_letters (nonfinal_tsv l) -> functional (nonfinal_tsv l) -> over sigma s = true ->
  nonfinal_rewrite l sigma s = [t] <-> all_but_last (nonfinal_tsv l) s t.
Proof. exact nonfinal_iff. Qed.
Print Assumptions C92_within.

(** Rules for final letters change the last letter of words of two letters or more. *)
Theorem C92_at_end : forall l sigma s t, single_letters (final_isolated_tsv l) -> functional (final_isolated_tsv l) -> over sigma s = true ->
  final_rewrite l sigma s = [t] <-> last_only (final_isolated_tsv l) s t.
Proof. exact final_iff. Qed.
Print Assumptions C92_at_end.

(** Rules for letters alone change whole words. *)
Theorem C92_alone : forall l sigma s t, nonempty_lhs (final_isolated_tsv l ++ isolated_tsv l) -> functional (final_isolated_tsv l ++ isolated_tsv l) ->
  over sigma s = true -> isolated_rewrite l sigma s = [t] <-> whole_word (final_isolated_tsv l ++ isolated_tsv l) s t.
Proof. exact isolated_iff. Qed.
Print Assumptions C92_alone.

(** The alphabet: the characters of the rule files, printable ASCII without brackets, the zero
    width space and joiners. *)
Theorem C92_alphabet : forall c, In c full_sigma <->
  (exists l r, In l arab_langs /\ (In r (reading_norm_tsv l) \/ In r (visual_norm_tsv l) \/ In r (final_isolated_tsv l) \/
     In r (isolated_tsv l) \/ In r (nonfinal_tsv l)) /\ (In c (lhs r) \/ In c (rhs r))) \/
  (exists r, (In r nfc_ARAB \/ In r presentation_forms) /\ (In c (lhs r) \/ In c (rhs r))) \/
  (exists a b, In (a, b) roman_table /\ (In c a \/ In c b)) \/
  ((9 <= c <= 13)%N \/ (32 <= c <= 126)%N) /\ c <> 91%N /\ c <> 93%N \/ c = 8203%N \/ c = 8204%N \/ c = 8205%N.
Proof. exact alphabet. Qed.
Print Assumptions C92_alphabet.

(** Visual normalization of each language can be built.  Every text over the alphabet has one
    output, made by the seven steps in turn; other texts have none. *)
Theorem C92_visual : forall ns l, In l arab_langs -> exists p n c v f,
  fst_from_rules ns presentation_forms full_sigma = Some p /\ fst_from_rules ns nfc_ARAB full_sigma = Some n /\
  fst_from_rules ns arab_visual_norm full_sigma = Some c /\ fst_from_rules ns (visual_norm_tsv l) full_sigma = Some v /\ lang_visual ns l = Some f /\
  (forall s, over full_sigma s = true -> exists s1 s2 s3 s4 s5 s6 t,
    p s = [s1] /\ n s1 = [s2] /\ c s2 = [s3] /\ v s3 = [s4] /\ all_but_last (nonfinal_tsv l) s4 s5 /\ last_only (final_isolated_tsv l) s5 s6 /\
    whole_word (final_isolated_tsv l ++ isolated_tsv l) s6 t /\ f s = [t] /\ over full_sigma t = true) /\
  (forall s, over full_sigma s = false -> f s = []).
Proof. exact visual_total. Qed.
Print Assumptions C92_visual.

(** No presentation form, zero width space or joiner is left. *)
Theorem C92_gone : forall ns l f s t, In l arab_langs -> lang_visual ns l = Some f -> In t (f s) ->
  (forall r, In r presentation_forms -> ~ is_infix (lhs r) t) /\ ~ In 8203%N t /\ ~ In 8205%N t.
Proof. exact visual_gone. Qed.
Print Assumptions C92_gone.

(** Text to which no rule applies is left alone. *)
Theorem C92_untouched : forall ns l f s, In l arab_langs -> lang_visual ns l = Some f -> over full_sigma s = true ->
  (forall r, In r (presentation_forms ++ nfc_ARAB ++ arab_visual_norm ++ visual_norm_tsv l) -> ~ is_infix (lhs r) s) ->
  (forall r a c b, In r (nonfinal_tsv l) -> lhs r = [c] -> s <> a ++ c :: b \/ b = []) ->
  (forall r a c, In r (final_isolated_tsv l) -> lhs r = [c] -> s <> a ++ [c]) ->
  (forall r, In r (isolated_tsv l) -> lhs r <> s) -> f s = [s].
Proof. exact untouched. Qed.
Print Assumptions C92_untouched.

(** Normalizing again is not always the same as normalizing once: in Dari two letters that stand
    alone change places each time. *)
Theorem C92_swap_refuted : exists l s t, In l arab_langs /\ s <> t /\ over full_sigma s = true /\
  forall ns f, lang_visual ns l = Some f -> f s = [t] /\ f t = [s].
Proof. exact swap_refuted. Qed.
Print Assumptions C92_swap_refuted.

(** In Urdu a text is normal only after the second time. *)
Theorem C92_again_refuted : exists l s t u, In l arab_langs /\ t <> u /\ over full_sigma s = true /\
  forall ns f, lang_visual ns l = Some f -> f s = [t] /\ f t = [u] /\ f u = [u].
Proof. exact again_refuted. Qed.
Print Assumptions C92_again_refuted.

(** Two words with a space between are not normalized word by word. *)
Theorem C92_phrase_refuted : exists l s t, In l arab_langs /\ forall ns f, lang_visual ns l = Some f ->
  f s = [t] /\ exists u, f (s ++ 32%N :: s) = [u] /\ u <> t ++ 32%N :: t.
Proof. exact phrase_refuted. Qed.
Print Assumptions C92_phrase_refuted.

(** Reading normalization can be built, has one output for each text over the alphabet, and leaves
    that output alone the second time. *)
Theorem C92_reading : forall ns l, In l arab_langs -> exists f, lang_reading ns l = Some f /\
  (forall s, over full_sigma s = true -> exists t, f s = [t] /\ over full_sigma t = true /\ f t = [t] /\
    forall r, In r (reading_norm_tsv l) -> ~ is_infix (lhs r) t) /\
  (forall s, over full_sigma s = false -> f s = []).
Proof. exact reading_total. Qed.
Print Assumptions C92_reading.

(** kaf, joiner, yeh, waw, damma, alef maksura in Urdu *)
Example C92_example : forall ns f, lang_visual ns rules_ur = Some f ->
  f [1603; 8205; 1610; 1608; 1615; 1609]%N = [[1705; 1740; 1735; 1740]%N].
Proof. exact word_example. Qed.
Example C92_example_within : nonfinal_rewrite rules_ur [1603; 1610]%N [1603; 1610; 1603]%N = [[1705; 1740; 1603]%N].
Proof. vm_compute. reflexivity. Qed.
Example C92_example_alone : isolated_rewrite rules_ur [1607; 1620]%N [1607; 1620]%N = [[1730%N]] /\
  isolated_rewrite rules_ur [1607; 1620]%N [1607; 1607]%N = [[1607; 1607]%N].
Proof. vm_compute. split; reflexivity. Qed.
Example C92_example_end : final_rewrite rules_ur [1609; 1607]%N [1607; 1609]%N = [[1607; 1740]%N] /\
  final_rewrite rules_ur [1609; 1607]%N [1609]%N = [[1609%N]].
Proof. vm_compute. split; reflexivity. Qed.
