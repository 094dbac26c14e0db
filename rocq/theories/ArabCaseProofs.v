From Verif Require Import Base RuleModel RuleSpec RuleProofs RewriteProofs IdemProofs RomanModel RomanTables VisualModel NfcTables ArabTables ArabModel ArabSpec ArabProofs ArabLangProofs.

(** ** The tables *)
Lemma langs_ok : forallb (lang_ok nfc_ARAB arab_visual_norm) arab_langs = true.
Proof. vm_cast_no_check (eq_refl true). Qed.
Lemma presentation_rising : risingb 64335 presentation_forms = true.
Proof. vm_cast_no_check (eq_refl true). Qed.
Lemma presentation_below : below 64336 presentation_forms = true.
Proof. vm_cast_no_check (eq_refl true). Qed.
Lemma nfc_shape : shapeb nfc_ARAB = true.
Proof. vm_cast_no_check (eq_refl true). Qed.
Lemma common_shape : shapeb arab_visual_norm = true.
Proof. vm_cast_no_check (eq_refl true). Qed.
Lemma common_over : forallb (fun r => over full_sigma (rhs r)) arab_visual_norm = true.
Proof. vm_cast_no_check (eq_refl true). Qed.
Lemma common_gone d : d = 8203%N \/ d = 8205%N -> gone_by arab_visual_norm d.
Proof.
  intros [-> | ->]; (split; [exists []; vm_compute; tauto|]); apply lacks_spec; vm_compute; reflexivity.
Qed.

Lemma visual_total ns l : In l arab_langs -> exists p n c v f,
  fst_from_rules ns presentation_forms full_sigma = Some p /\ fst_from_rules ns nfc_ARAB full_sigma = Some n /\
  fst_from_rules ns arab_visual_norm full_sigma = Some c /\ fst_from_rules ns (visual_norm_tsv l) full_sigma = Some v /\ lang_visual ns l = Some f /\
  (forall s, over full_sigma s = true -> exists s1 s2 s3 s4 s5 s6 t,
    p s = [s1] /\ n s1 = [s2] /\ c s2 = [s3] /\ v s3 = [s4] /\ all_but_last (nonfinal_tsv l) s4 s5 /\ last_only (final_isolated_tsv l) s5 s6 /\
    whole_word (final_isolated_tsv l ++ isolated_tsv l) s6 t /\ f s = [t] /\ over full_sigma t = true) /\
  (forall s, over full_sigma s = false -> f s = []).
Proof. exact (visual_total_gen arab_langs presentation_forms nfc_ARAB roman_table arab_visual_norm langs_ok presentation_rising nfc_shape common_shape common_over ns l). Qed.
Lemma visual_gone ns l f s t : In l arab_langs -> lang_visual ns l = Some f -> In t (f s) ->
  (forall r, In r presentation_forms -> ~ is_infix (lhs r) t) /\ ~ In 8203%N t /\ ~ In 8205%N t.
Proof. exact (visual_gone_gen arab_langs presentation_forms nfc_ARAB roman_table arab_visual_norm langs_ok presentation_rising presentation_below nfc_shape common_shape common_over common_gone ns l f s t). Qed.
Lemma untouched ns l f s : In l arab_langs -> lang_visual ns l = Some f -> over full_sigma s = true ->
  (forall r, In r (presentation_forms ++ nfc_ARAB ++ arab_visual_norm ++ visual_norm_tsv l) -> ~ is_infix (lhs r) s) ->
  (forall r a c b, In r (nonfinal_tsv l) -> lhs r = [c] -> s <> a ++ c :: b \/ b = []) ->
  (forall r a c, In r (final_isolated_tsv l) -> lhs r = [c] -> s <> a ++ [c]) ->
  (forall r, In r (isolated_tsv l) -> lhs r <> s) -> f s = [s].
Proof. exact (untouched_gen arab_langs presentation_forms nfc_ARAB roman_table arab_visual_norm langs_ok presentation_rising nfc_shape common_shape common_over ns l f s). Qed.
Lemma reading_total ns l : In l arab_langs -> exists f, lang_reading ns l = Some f /\
  (forall s, over full_sigma s = true -> exists t, f s = [t] /\ over full_sigma t = true /\ f t = [t] /\ forall r, In r (reading_norm_tsv l) -> ~ is_infix (lhs r) t) /\
  (forall s, over full_sigma s = false -> f s = []).
Proof. exact (reading_total_gen arab_langs presentation_forms nfc_ARAB roman_table arab_visual_norm langs_ok ns l). Qed.

(** ** Runs *)
Section Run.
Variables (presentation nfc common : list rule) (sigma : list N).
Definition layer_run (rs : list rule) (s : str) : list str :=
  match partition_unordered rs with Layers (l :: ls) => run_chain (map (fun rs => rewrite rs sigma) (l :: ls)) s | _ => [] end.
Definition run_lang (l : lang_rules) (s : str) : list str :=
  if forallb (fun r => negb (infixb (lhs r) s)) presentation then if over sigma s then
    run_chain [layer_run nfc; layer_run common; layer_run (visual_norm_tsv l); nonfinal_rewrite l sigma; final_rewrite l sigma; isolated_rewrite l sigma] s
  else [] else [].
Lemma layer_run_eq ns rs f : fst_from_rules ns rs sigma = Some f -> rs <> [] -> forall s, f s = layer_run rs s.
Proof.
  unfold fst_from_rules, layer_run. destruct (partition_unordered rs) as [ls| |] eqn:P; try discriminate. intros E N s.
  destruct (rewrite_and_compose_run ns ls sigma) as [g [G H]]. assert (g = f) by congruence. subst g. rewrite H. destruct ls; [|reflexivity].
  exfalso. destruct rs as [|r rs]; [congruence|]. destruct (partition_sound _ _ P) as (_ & I & _). apply (proj2 (I r)). now left.
Qed.
Lemma run_lang_eq ns l : good presentation sigma -> good nfc sigma -> good common sigma -> good (visual_norm_tsv l) sigma ->
  nfc <> [] -> common <> [] -> visual_norm_tsv l <> [] ->
  forall f, arab_visual ns presentation nfc common l sigma = Some f -> forall s t, run_lang l s = [t] -> f s = [t].
Proof.
  intros G1 G2 G3 G4 N1 N2 N3 f E s t R. unfold run_lang in R. destruct (forallb _ presentation) eqn:P; [|discriminate].
  destruct (over sigma s) eqn:O; [|discriminate].
  destruct (visual_chain ns _ _ _ l sigma G1 G2 G3 G4) as (p & n & c & v & f' & Ep & En & Ec & Ev & Ef & H).
  assert (f' = f) by congruence. subst f'. rewrite H. rewrite <- R. unfold run_chain at 1; fold run_chain.
  rewrite (no_lhs_identity ns presentation sigma p (proj1 G1) (proj2 (proj2 G1)) Ep s O).
  2:{ intros r I. rewrite forallb_forall in P. specialize (P r I). apply negb_true_iff, infixb_false in P. exact P. }
  cbn [flat_map]. rewrite app_nil_r. cbn [run_chain].
  rewrite (layer_run_eq ns nfc n En N1). apply flat_map_ext. intro x. rewrite (layer_run_eq ns common c Ec N2). apply flat_map_ext. intro y.
  rewrite (layer_run_eq ns _ v Ev N3). reflexivity.
Qed.
End Run.
Lemma nfc_some : nfc_ARAB <> []. Proof. discriminate. Qed.
Lemma common_some : arab_visual_norm <> []. Proof. discriminate. Qed.
Lemma runs ns l f s t : In l arab_langs -> visual_norm_tsv l <> [] -> lang_visual ns l = Some f ->
  run_lang presentation_forms nfc_ARAB arab_visual_norm full_sigma l s = [t] -> f s = [t].
Proof.
  intros L V E R.
  refine (run_lang_eq presentation_forms nfc_ARAB arab_visual_norm full_sigma ns l
    (good_presentation arab_langs presentation_forms nfc_ARAB roman_table presentation_rising)
    (good_nfc arab_langs presentation_forms nfc_ARAB roman_table nfc_shape)
    (good_common arab_langs presentation_forms nfc_ARAB roman_table arab_visual_norm common_shape common_over)
    (proj1 (lang_goods arab_langs presentation_forms nfc_ARAB roman_table arab_visual_norm langs_ok l L)) nfc_some common_some V f E s t R).
Qed.
Lemma in_prs : In rules_prs arab_langs. Proof. unfold arab_langs. do 8 right. now left. Qed.
Lemma in_ur : In rules_ur arab_langs. Proof. unfold arab_langs. do 12 right. now left. Qed.
Lemma some_prs : visual_norm_tsv rules_prs <> []. Proof. discriminate. Qed.
Lemma some_ur : visual_norm_tsv rules_ur <> []. Proof. discriminate. Qed.
Lemma prs_swap ns f : lang_visual ns rules_prs = Some f -> f [1607%N] = [[1729%N]] /\ f [1729%N] = [[1607%N]].
Proof.
  intro E. split; (apply (runs ns rules_prs f _ _ in_prs some_prs E); vm_compute; reflexivity).
Qed.
Lemma ur_thrice ns f : lang_visual ns rules_ur = Some f -> f [1610; 1620]%N = [[1740; 1620]%N] /\ f [1740; 1620]%N = [[1574%N]].
Proof.
  intro E. split; (apply (runs ns rules_ur f _ _ in_ur some_ur E); vm_compute; reflexivity).
Qed.
Lemma ur_phrase ns f : lang_visual ns rules_ur = Some f -> f [1607]%N = [[1729]%N] /\ f [1607; 32; 1607]%N = [[1726; 32; 1607]%N].
Proof.
  intro E. split; (apply (runs ns rules_ur f _ _ in_ur some_ur E); vm_compute; reflexivity).
Qed.
Lemma swap_refuted : exists l s t, In l arab_langs /\ s <> t /\ over full_sigma s = true /\ forall ns f, lang_visual ns l = Some f -> f s = [t] /\ f t = [s].
Proof.
  exists rules_prs, [1607%N], [1729%N]. split; [exact in_prs|]. split; [discriminate|]. split; [vm_compute; reflexivity|]. exact prs_swap.
Qed.
Lemma again_refuted : exists l s t u, In l arab_langs /\ t <> u /\ over full_sigma s = true /\ forall ns f, lang_visual ns l = Some f -> f s = [t] /\ f t = [u] /\ f u = [u].
Proof.
  exists rules_ur, [1610; 1620]%N, [1740; 1620]%N, [1574%N]. split; [exact in_ur|]. split; [discriminate|]. split; [vm_compute; reflexivity|]. intros ns f E.
  destruct (ur_thrice ns f E) as [A B]. split; [exact A|]. split; [exact B|]. apply (runs ns rules_ur f _ _ in_ur some_ur E); vm_compute; reflexivity.
Qed.
Lemma phrase_refuted : exists l s t, In l arab_langs /\ forall ns f, lang_visual ns l = Some f ->
  f s = [t] /\ exists u, f (s ++ 32%N :: s) = [u] /\ u <> t ++ 32%N :: t.
Proof.
  exists rules_ur, [1607%N], [1729%N]. split; [exact in_ur|]. intros ns f E. destruct (ur_phrase ns f E) as [A B]. split; [exact A|].
  exists [1726; 32; 1607]%N. split; [exact B|]. discriminate.
Qed.
Lemma word_example ns f : lang_visual ns rules_ur = Some f -> f [1603; 8205; 1610; 1608; 1615; 1609]%N = [[1705; 1740; 1735; 1740]%N].
Proof. intro E. apply (runs ns rules_ur f _ _ in_ur some_ur E); vm_compute; reflexivity. Qed.

(** ** The alphabet *)
Lemma rule_chars_in rs c : In c (rule_chars rs) <-> exists r, In r rs /\ (In c (lhs r) \/ In c (rhs r)).
Proof.
  unfold rule_chars. rewrite in_flat_map. split; intros [r [R C]]; exists r; (split; [exact R|]); apply in_app_iff; auto.
Qed.
Lemma printable_in c : In c printable <-> ((9 <= c <= 13)%N \/ (32 <= c <= 126)%N) /\ c <> 91%N /\ c <> 93%N.
Proof.
  unfold printable. rewrite filter_In, in_map_iff, negb_true_iff, orb_false_iff, !N.eqb_neq. split.
  - intros [[n [<- I]] H]. split; [|exact H]. apply in_app_or in I as [I|I]; apply in_seq in I; [left|right]; lia.
  - intros [H K]. split; [|exact K]. exists (N.to_nat c). split; [apply N2Nat.id|]. apply in_or_app. rewrite !in_seq. destruct H; [left|right]; lia.
Qed.
Lemma alphabet_gen langs presentation nfc roman c : In c (arab_sigma langs presentation nfc roman) <->
  (exists l r, In l langs /\ (In r (reading_norm_tsv l) \/ In r (visual_norm_tsv l) \/ In r (final_isolated_tsv l) \/ In r (isolated_tsv l) \/ In r (nonfinal_tsv l)) /\
     (In c (lhs r) \/ In c (rhs r))) \/
  (exists r, (In r nfc \/ In r presentation) /\ (In c (lhs r) \/ In c (rhs r))) \/
  (exists a b, In (a, b) roman /\ (In c a \/ In c b)) \/
  ((9 <= c <= 13)%N \/ (32 <= c <= 126)%N) /\ c <> 91%N /\ c <> 93%N \/ c = 8203%N \/ c = 8204%N \/ c = 8205%N.
Proof.
  unfold arab_sigma. rewrite !in_app_iff, printable_in, !in_flat_map, !rule_chars_in. unfold lang_chars.
  assert (L : (exists x, In x langs /\ In c (rule_chars (reading_norm_tsv x) ++ rule_chars (visual_norm_tsv x) ++ rule_chars (final_isolated_tsv x) ++ rule_chars (isolated_tsv x) ++ rule_chars (nonfinal_tsv x))) <->
    (exists l r, In l langs /\ (In r (reading_norm_tsv l) \/ In r (visual_norm_tsv l) \/ In r (final_isolated_tsv l) \/ In r (isolated_tsv l) \/ In r (nonfinal_tsv l)) /\
     (In c (lhs r) \/ In c (rhs r)))).
  { split.
    - intros [l [L I]]. rewrite !in_app_iff, !rule_chars_in in I. destruct I as [[r I]|[[r I]|[[r I]|[[r I]|[r I]]]]]; exists l, r; tauto.
    - intros [l [r [L [R C]]]]. exists l. split; [exact L|]. rewrite !in_app_iff, !rule_chars_in. destruct R as [R|[R|[R|[R|R]]]]; eauto 10. }
  rewrite L.
  assert (T : (exists x : str * str, In x roman /\ In c (fst x ++ snd x)) <-> (exists a b, In (a, b) roman /\ (In c a \/ In c b))).
  { split.
    - intros [[a b] [I J]]. apply in_app_or in J. now exists a, b.
    - intros [a [b [I J]]]. exists (a, b). split; [exact I|]. apply in_or_app. exact J. }
  rewrite T.
  assert (P : (exists r, (In r nfc \/ In r presentation) /\ (In c (lhs r) \/ In c (rhs r))) <->
    (exists r, In r nfc /\ (In c (lhs r) \/ In c (rhs r))) \/ (exists r, In r presentation /\ (In c (lhs r) \/ In c (rhs r)))).
  { split; [intros [r [[R|R] C]]; eauto|intros [[r [R C]]|[r [R C]]]; eauto]. }
  rewrite P. cbn [In]. unfold ZWNJ, ZWJ, ZWS.
  assert (Z : forall x : N, x = c <-> c = x) by (intro; split; congruence). rewrite !Z. tauto.
Qed.
Lemma alphabet c : In c full_sigma <->
  (exists l r, In l arab_langs /\ (In r (reading_norm_tsv l) \/ In r (visual_norm_tsv l) \/ In r (final_isolated_tsv l) \/ In r (isolated_tsv l) \/ In r (nonfinal_tsv l)) /\
     (In c (lhs r) \/ In c (rhs r))) \/
  (exists r, (In r nfc_ARAB \/ In r presentation_forms) /\ (In c (lhs r) \/ In c (rhs r))) \/
  (exists a b, In (a, b) roman_table /\ (In c a \/ In c b)) \/
  ((9 <= c <= 13)%N \/ (32 <= c <= 126)%N) /\ c <> 91%N /\ c <> 93%N \/ c = 8203%N \/ c = 8204%N \/ c = 8205%N.
Proof. exact (alphabet_gen arab_langs presentation_forms nfc_ARAB roman_table c). Qed.
