From Coq Require Import String List NArith Bool Lia PeanoNat.
From Verif Require Import Base RuleModel RegexModel IsoModel AlignModel AlignSpec NatModel NatSpec NatBytes PhonTables PhonModel PhonTableProofs PhonTextModel PhonTextSpec PhonTextProofs PhonTextCaseProofs.
Import ListNotations.
Local Open Scope string_scope.
Local Open Scope list_scope.

Lemma stage c K ws out : okK c K = true -> Forall (shaped c) ws ->
  (In out (op_toks (Rewrite K None None) (concat ws)) <-> exists os, Forall2 (result c K) ws os /\ out = concat os).
Proof.
  intros O F. rewrite op_toks_ok.
  - exact (pieces c K (okK_shaped c K O) ws F out).
  - cbn. apply Forall_forall. intros [l r] I. cbn. destruct (okK_shaped c K O l r I) as [(t & -> & _)|(t & u & -> & _)]; discriminate.
Qed.
Lemma forall2_map {A B C} (f : A -> B) (R : B -> C -> Prop) (Q : A -> C -> Prop) (P : A -> Prop) : (forall a, P a -> forall c, R (f a) c <-> Q a c) ->
  forall l os, Forall P l -> (Forall2 R (map f l) os <-> Forall2 Q l os).
Proof.
  intros H l os F. revert os. induction F as [|a l Pa F IH]; intro os; cbn.
  - split; intro G; inversion G; constructor.
  - split; intro G; inversion G as [|? c ? os' X Y]; subst; constructor; try (apply (H a Pa)); auto; now apply IH.
Qed.

(** ** Checks *)
Definition all_ph (K : list (word * word)) : bool := forallb (fun q : word * word => forallb (fun t => match t with Ph _ => true | _ => false end) (fst q)) K.
Definition triples (K : list (word * word)) : bool := forallb (fun q : word * word => match fst q with [_; _; _] => true | _ => false end) K.
Definition ignored : list (word * word) := [([plus], [deleted]); ([Ph [58; 104]%N], [deleted])].
Definition rule_eqb (a b : word * word) : bool := if word_eqb (fst a) (fst b) then word_eqb (snd a) (snd b) else false.
Lemma rule_eqb_eq a b : rule_eqb a b = true <-> a = b.
Proof.
  destruct a as [a1 a2], b as [b1 b2]. unfold rule_eqb. cbn [fst snd]. destruct (word_eqb a1 b1) eqn:E.
  - apply word_eq in E. subst. rewrite word_eq. split; congruence.
  - split; [discriminate|]. intros [= -> ->]. rewrite (proj2 (word_eq b1 b1) eq_refl) in E. discriminate.
Qed.
Definition checked_rules (l : list phon) (D A B J : list (word * word)) : bool :=
  if okK plus D then if triples D then if okK plus A then if triples A then if okK plus B then if all_ph B then if leqb rule_eqb J ignored then
  if forallb (class_ok "diphthong" D) l then if forallb (class_ok "affricate" A) l then forallb (base_ok B) l else false else false else false else false else false else false else false else false else false.
Definition rules_checked (x : option (list phon)) (d a b i : option op) : bool :=
  match x, d, a, b, i with
  | Some l, Some (Rewrite D None None), Some (Rewrite A None None), Some (Rewrite B None None), Some (Rewrite J None None) => checked_rules l D A B J
  | _, _, _, _, _ => false
  end.
Lemma rules_checked_ok : rules_checked phonemes TRANSLIT_DIPHTHONG TRANSLIT_AFFRICATE TRANSLIT_BASE IGNORE_MODIFIERS = true.
Proof. vm_cast_no_check (eq_refl true). Qed.
Lemma the_rules : exists l D A B, phonemes = Some l /\ TRANSLIT_DIPHTHONG = Some (Rewrite D None None) /\ TRANSLIT_AFFRICATE = Some (Rewrite A None None) /\
  TRANSLIT_BASE = Some (Rewrite B None None) /\ IGNORE_MODIFIERS = Some (Rewrite ignored None None) /\
  okK plus D = true /\ triples D = true /\ okK plus A = true /\ triples A = true /\ okK plus B = true /\ all_ph B = true /\
  (forall p, In p l -> class_ok "diphthong" D p = true) /\ (forall p, In p l -> class_ok "affricate" A p = true) /\ (forall p, In p l -> base_ok B p = true).
Proof.
  assert (G : forall x d a b i, rules_checked x d a b i = true ->
    exists l D A B J, x = Some l /\ d = Some (Rewrite D None None) /\ a = Some (Rewrite A None None) /\ b = Some (Rewrite B None None) /\ i = Some (Rewrite J None None) /\ checked_rules l D A B J = true).
  { intros [l|] d a b i H; [|discriminate]. unfold rules_checked in H.
    destruct d as [[D [|] [|]| |]|]; try discriminate. destruct a as [[A [|] [|]| |]|]; try discriminate. destruct b as [[B [|] [|]| |]|]; try discriminate.
    destruct i as [[J [|] [|]| |]|]; try discriminate. exists l, D, A, B, J. auto 10. }
  destruct (G phonemes TRANSLIT_DIPHTHONG TRANSLIT_AFFRICATE TRANSLIT_BASE IGNORE_MODIFIERS rules_checked_ok) as (l & D & A & B & J & El & ED & EA & EB & EI & C).
  clear G. exists l, D, A, B. unfold checked_rules in C.
  destruct (okK plus D) eqn:C1; [|discriminate]. destruct (triples D) eqn:C2; [|discriminate]. destruct (okK plus A) eqn:C3; [|discriminate]. destruct (triples A) eqn:C4; [|discriminate].
  destruct (okK plus B) eqn:C5; [|discriminate]. destruct (all_ph B) eqn:C6; [|discriminate]. destruct (leqb rule_eqb J ignored) eqn:C7; [|discriminate].
  destruct (forallb (class_ok "diphthong" D) l) eqn:C8; [|discriminate]. destruct (forallb (class_ok "affricate" A) l) eqn:C9; [|discriminate].
  apply (leqb_eq rule_eqb rule_eqb_eq) in C7. subst J. rewrite forallb_forall in C8, C9, C. auto 20.
Qed.

(** ** One after another *)
Lemma text_words ps : text ps = concat (map (fun p => symbols (body p)) ps).
Proof. unfold text. now rewrite flat_map_concat_map. Qed.
Lemma sub_forall {A} (l : list A) (P : A -> Prop) ps : (forall p, In p ps -> In p l) -> (forall p, In p l -> P p) -> Forall P ps.
Proof. intros S H. apply Forall_forall. auto. Qed.
Lemma base_text l ps out : phonemes = Some l -> (forall p, In p ps -> In p l) -> (In out (apply_to TRANSLIT_BASE (text ps)) <-> piecewise base_piece ps out).
Proof.
  intros E S. destruct the_rules as (l' & D & A & B & El & _ & _ & EB & _ & _ & _ & _ & _ & OB & _ & _ & _ & HB). assert (l' = l) by congruence. subst l'.
  rewrite EB. cbn [apply_to]. rewrite text_words. rewrite (stage plus B) by (auto; apply Forall_map; apply (sub_forall l); auto; intros p P; exact (proj1 (base_result B p OB (HB p P)))).
  unfold piecewise. split; intros (os & F & ->); exists os; (split; [|reflexivity]); revert F;
    apply (forall2_map (fun p => symbols (body p)) _ base_piece (fun p => In p l)); auto using Forall_forall; try (intros p P; exact (proj2 (base_result B p OB (HB p P)))); apply Forall_forall; auto.
Qed.
Lemma class_text k o K l ps out : o = Some (Rewrite K None None) -> okK plus K = true -> triples K = true -> (forall p, In p l -> shaped plus (symbols (body p))) ->
  (forall p, In p l -> class_ok k K p = true) -> (forall p, In p ps -> In p l) -> (In out (apply_to o (text ps)) <-> piecewise (class_piece k) ps out).
Proof.
  intros -> O T SH H S. cbn [apply_to]. rewrite text_words. rewrite (stage plus K) by (auto; apply Forall_map; apply (sub_forall l); auto).
  unfold piecewise. split; intros (os & F & ->); exists os; (split; [|reflexivity]); revert F;
    apply (forall2_map (fun p => symbols (body p)) _ (class_piece k) (fun p => In p l)); try (intros p P; exact (class_result k K p O T (SH p P) (H p P))); apply Forall_forall; auto.
Qed.
Lemma diphthong_text l ps out : phonemes = Some l -> (forall p, In p ps -> In p l) -> (In out (apply_to TRANSLIT_DIPHTHONG (text ps)) <-> piecewise (class_piece "diphthong") ps out).
Proof.
  intros E S. destruct the_rules as (l' & D & A & B & El & ED & _ & _ & _ & OD & TD & _ & _ & OB & _ & HD & _ & HB). assert (l' = l) by congruence. subst l'.
  apply (class_text "diphthong" _ D l); auto. intros p P. exact (proj1 (base_result B p OB (HB p P))).
Qed.
Lemma affricate_text l ps out : phonemes = Some l -> (forall p, In p ps -> In p l) -> (In out (apply_to TRANSLIT_AFFRICATE (text ps)) <-> piecewise (class_piece "affricate") ps out).
Proof.
  intros E S. destruct the_rules as (l' & D & A & B & El & _ & EA & _ & _ & _ & _ & OA & TA & OB & _ & _ & HA & HB). assert (l' = l) by congruence. subst l'.
  apply (class_text "affricate" _ A l); auto. intros p P. exact (proj1 (base_result B p OB (HB p P))).
Qed.

(** ** All of them *)
Definition lit (w : word) : Prop := exists s, w = [Tr s].
Lemma lit_shaped w : lit w -> shaped plus w. Proof. intros [s ->]. left. exists (Tr s). split; [reflexivity|discriminate]. Qed.
Lemma letter_lit x : lit (letters_of_names [x]).
Proof. unfold letters_of_names, letter_symbol. cbn [map]. destruct (String.eqb x "DEL"); [unfold deleted|]; eexists; reflexivity. Qed.
Lemma letters_tr x : Forall is_translit (letters_of_names x).
Proof. unfold letters_of_names. apply Forall_map. apply Forall_forall. intros a _. unfold letter_symbol. now destruct (String.eqb a "DEL"). Qed.
Lemma lit_triples K w o : triples K = true -> lit w -> (result plus K w o <-> o = w).
Proof.
  intros T [s ->]. unfold triples in T. rewrite forallb_forall in T. split.
  - intros [(t & [= <-] & [A|[_ E]])|(t & u & E & _)]; [specialize (T _ A); discriminate|exact E|discriminate].
  - intros ->. left. exists (Tr s). split; [reflexivity|]. right. split; [|reflexivity]. intros r A. specialize (T _ A). discriminate.
Qed.
Lemma lit_ph K w o : all_ph K = true -> lit w -> (result plus K w o <-> o = w).
Proof.
  intros T [s ->]. unfold all_ph in T. rewrite forallb_forall in T. split.
  - intros [(t & [= <-] & [A|[_ E]])|(t & u & E & _)]; [specialize (T _ A); discriminate|exact E|discriminate].
  - intros ->. left. exists (Tr s). split; [reflexivity|]. right. split; [|reflexivity]. intros r A. specialize (T _ A). discriminate.
Qed.
Definition kept (t : tok) : tok := if tok_eqb t plus then deleted else t.
Lemma ignore_text m out : Forall (fun t => is_translit t \/ t = plus) m -> (In out (op_toks (Rewrite ignored None None) m) <-> out = map kept m).
Proof.
  intro F. assert (EM : concat (map (fun t => [t]) m) = m) by (clear; induction m; cbn; congruence). rewrite <- EM at 1.
  rewrite (stage Eq ignored); [|reflexivity|].
  2:{ apply Forall_map. revert F. apply Forall_impl. intros t T. left. exists t. split; [reflexivity|]. destruct T as [T| ->]; [destruct t; try destruct T; discriminate|discriminate]. }
  assert (R : forall t, is_translit t \/ t = plus -> forall o, result Eq ignored [t] o <-> o = [kept t]).
  { intros t T o. assert (X : one ignored t o <-> o = [kept t]).
    { unfold one, kept. destruct T as [T| ->].
      - destruct t as [s|s|s|]; try destruct T. cbn [tok_eqb plus]. split.
        + intros [[H|[H|[]]]|[_ E]]; [discriminate|discriminate|exact E].
        + intros ->. right. split; [|reflexivity]. intros r [H|[H|[]]]; discriminate.
      - split.
        + intros [[H|[H|[]]]|[N _]]; [injection H as <-; reflexivity|discriminate|]. destruct (N [deleted]). now left.
        + intros ->. left. now left. }
    rewrite <- X. split.
    - intros [(t' & [= <-] & H)|(t' & u & E & _)]; [exact H|discriminate].
    - intro H. left. eauto. }
  split.
  - intros (os & G & ->). apply (forall2_map (fun t => [t]) _ (fun t o => o = [kept t]) (fun t => is_translit t \/ t = plus) R) in G; [|exact F]. clear -G. induction G as [|t o m os -> G IH]; cbn; congruence.
  - intros ->. exists (map (fun t => [kept t]) m). split; [|clear; induction m; cbn; congruence].
    apply (forall2_map (fun t => [t]) _ (fun t o => o = [kept t]) (fun t => is_translit t \/ t = plus) R); [exact F|]. clear. induction m; constructor; auto.
Qed.
Lemma visible_app a b : visible (a ++ b) = visible a ++ visible b. Proof. apply filter_app. Qed.
Lemma kept_letters x : map kept (letters_of_names x) = letters_of_names x.
Proof. pose proof (letters_tr x) as F. induction F as [|t w T F IH]; cbn; [reflexivity|]. rewrite IH. f_equal. destruct t; try destruct T. reflexivity. Qed.
Lemma class_cases k K p o : class_ok k K p = true -> class_piece k p o -> (hd_error (ftr (body p)) = Some k /\ lit o /\ exists x, get k (tr_dict (body p)) = Some (Text x) /\ o = letters_of_names x) \/ (hd_error (ftr (body p)) <> Some k /\ o = symbols (body p)).
Proof.
  intros H [(E & x & G & ->)|[N ->]]; [left|now right]. split; [exact E|]. unfold class_ok in H. rewrite (proj2 (head_is_ok k p) E), G in H. destruct x as [|x [|]]; try discriminate. split; [apply letter_lit|eauto].
Qed.
Lemma class_some k K p : class_ok k K p = true -> exists o, class_piece k p o.
Proof.
  unfold class_ok. intro H. destruct (head_is k p) eqn:E.
  - apply head_is_ok in E. destruct (get k (tr_dict (body p))) as [[|x]|] eqn:G; try discriminate. exists (letters_of_names x). left. eauto.
  - exists (symbols (body p)). right. split; [|reflexivity]. intro Q. apply head_is_ok in Q. congruence.
Qed.
(** The pieces after the four steps *)
Definition stage2 (p : phon) (w2 : word) : Prop :=
  (exists k x, In k ["diphthong"; "affricate"] /\ hd_error (ftr (body p)) = Some k /\ get k (tr_dict (body p)) = Some (Text x) /\ w2 = letters_of_names x /\ lit w2) \/
  (hd_error (ftr (body p)) <> Some "diphthong" /\ hd_error (ftr (body p)) <> Some "affricate" /\ w2 = symbols (body p)).
Lemma F2_in {A B} (R : A -> B -> Prop) (P : A -> Prop) l os : Forall P l -> Forall2 R l os -> Forall2 (fun a b => P a /\ R a b) l os.
Proof. intros F G. revert F. induction G; intro F; inversion F; subst; constructor; auto. Qed.
Lemma F2_right {A B} (R : A -> B -> Prop) (Q : B -> Prop) l os : (forall a b, R a b -> Q b) -> Forall2 R l os -> Forall Q os.
Proof. intros H G. induction G; constructor; eauto. Qed.
Lemma F2_impl {A B} (R Q : A -> B -> Prop) l os : (forall a b, R a b -> Q a b) -> Forall2 R l os -> Forall2 Q l os.
Proof. intros H G. induction G; constructor; auto. Qed.
Lemma F2_trans {A B C} (R : A -> B -> Prop) (S : B -> C -> Prop) (Q : A -> C -> Prop) l ms os : (forall a b c, R a b -> S b c -> Q a c) -> Forall2 R l ms -> Forall2 S ms os -> Forall2 Q l os.
Proof. intros H G. revert os. induction G; intros os X; inversion X; subst; constructor; eauto. Qed.
Lemma F2_total {A B} (R : A -> B -> Prop) l : Forall (fun a => exists b, R a b) l -> exists os, Forall2 R l os.
Proof. intro F. induction F as [|a l [b H] F [os G]]; [exists []; constructor|exists (b :: os); now constructor]. Qed.

Lemma romanized l ps m1 m2 m3 out : phonemes = Some l -> (forall p, In p ps -> In p l) ->
  In m1 (apply_to TRANSLIT_DIPHTHONG (text ps)) -> In m2 (apply_to TRANSLIT_AFFRICATE m1) -> In m3 (apply_to TRANSLIT_BASE m2) -> In out (apply_to IGNORE_MODIFIERS m3) ->
  Forall is_translit out /\ exists ws, Forall2 best_piece ps ws /\ visible out = visible (concat ws).
Proof.
  intros E S H1 H2 H3 H4. destruct (proj1 (diphthong_text l ps m1 E S) H1) as (o1 & F1 & ->). clear H1.
  destruct the_rules as (l' & D & A & B & El & ED & EA & EB & EI & OD & TD & OA & TA & OB & PB & HD & HA & HB). assert (l' = l) by congruence. subst l'.
  rewrite EA in H2. rewrite EB in H3. rewrite EI in H4. cbn [apply_to] in H2, H3, H4. clear E El ED EA EB EI.
  assert (Sin : Forall (fun p => In p l) ps) by (apply Forall_forall; exact S).
  assert (SH : forall p, In p l -> shaped plus (symbols (body p))) by (intros p P; exact (proj1 (base_result B p OB (HB p P)))).
  pose proof (F2_in _ _ _ _ Sin F1) as G1.
  assert (S1 : Forall (shaped plus) o1).
  { eapply F2_right; [|exact G1]. intros p w [P C]. apply (class_cases _ D _ _ (HD p P)) in C as [(_ & L & _)|[_ ->]]; [now apply lit_shaped|auto]. }
  apply (stage plus A o1 m2 OA S1) in H2 as (o2 & F2 & ->).
  assert (G2 : Forall2 (fun p w => In p l /\ stage2 p w) ps o2).
  { eapply F2_trans; [|exact G1|exact F2]. intros p w w2 [P C] R. split; [exact P|]. apply (class_cases _ D _ _ (HD p P)) in C as [(K & L & x & Gx & Ex)|[K ->]].
    - apply (lit_triples A w w2 TA L) in R. subst w2. left. exists "diphthong", x. cbn; auto 10.
    - apply (class_result "affricate" A p OA TA (SH p P) (HA p P)) in R. apply (class_cases _ A _ _ (HA p P)) in R as [(K2 & L & x & Gx & Ex)|[K2 ->]].
      + left. exists "affricate", x. cbn; auto 10.
      + right. auto. }
  assert (S2 : Forall (shaped plus) o2).
  { eapply F2_right; [|exact G2]. intros p w [P [(k & x & _ & _ & _ & _ & L)|(_ & _ & ->)]]; [now apply lit_shaped|auto]. }
  apply (stage plus B o2 m3 OB S2) in H3 as (o3 & F3 & ->).
  assert (G3 : Forall2 (fun p w => (In p l /\ (hd_error (ftr (body p)) <> Some "diphthong" /\ hd_error (ftr (body p)) <> Some "affricate") /\ base_piece p w) \/ (best_piece p w /\ lit w)) ps o3).
  { eapply F2_trans; [|exact G2|exact F3]. intros p w w3 [P [(k & x & K & HK & Gx & Ex & L)|(K1 & K2 & ->)]] R.
    - apply (lit_ph B w w3 PB L) in R. subst w3. right. split; [|exact L]. exists k, x. auto.
    - left. split; [exact P|]. split; [auto|]. now apply (base_result B p OB (HB p P)). }
  assert (M : Forall (fun t => is_translit t \/ t = plus) (concat o3) /\ exists ws, Forall2 best_piece ps ws /\ visible (map kept (concat o3)) = visible (concat ws)).
  { clear -G3 HB. induction G3 as [|p w ps o3 H G [IH1 (ws & IH2 & IH3)]]; [split; [constructor|exists []; split; [constructor|reflexivity]]|]. cbn [concat].
    assert (X : Forall (fun t => is_translit t \/ t = plus) w /\ exists w', best_piece p w' /\ visible (map kept w) = visible w').
    { destruct H as [(P & [K1 K2] & x & Gx & Q)|[Bp [s ->]]].
      - assert (BP : best_piece p (letters_of_names x)) by (exists "base", x; auto). destruct Q as [->|(a & b & y & z & C & Gy & Gz & ->)].
        + split; [eapply Forall_impl; [|apply letters_tr]; auto|]. exists (letters_of_names x). split; [exact BP|]. now rewrite kept_letters.
        + destruct (base_sum B p (HB p P) a b C) as (x' & y' & z' & Gx' & Gy' & Gz' & EQ). rewrite Gx in Gx'. rewrite Gy in Gy'. rewrite Gz in Gz'. injection Gx' as <-. injection Gy' as <-. injection Gz' as <-.
          split.
          * apply Forall_app. split; [eapply Forall_impl; [|apply letters_tr]; auto|]. constructor; [now right|]. eapply Forall_impl; [|apply letters_tr]; auto.
          * exists (letters_of_names x). split; [exact BP|]. rewrite EQ, map_app. cbn [map]. rewrite !kept_letters. rewrite !visible_app. reflexivity.
      - split; [repeat constructor|]. exists [Tr s]. split; [exact Bp|reflexivity]. }
    destruct X as [X1 (w' & X2 & X3)]. split; [apply Forall_app; auto|]. exists (w' :: ws). split; [now constructor|]. cbn [concat]. rewrite map_app, !visible_app. congruence. }
  destruct M as [M1 M2]. apply (ignore_text _ _ M1) in H4. subst out. split; [|exact M2].
  apply Forall_map. revert M1. apply Forall_impl. intros t [T| ->]; [destruct t; try destruct T; exact I|exact I].
Qed.
Lemma romanized_exists l ps : phonemes = Some l -> (forall p, In p ps -> In p l) -> exists m1 m2 m3 out,
  In m1 (apply_to TRANSLIT_DIPHTHONG (text ps)) /\ In m2 (apply_to TRANSLIT_AFFRICATE m1) /\ In m3 (apply_to TRANSLIT_BASE m2) /\ In out (apply_to IGNORE_MODIFIERS m3).
Proof.
  intros E S. assert (T : forall rs p f s, (forall l r, In (l, r) rs -> l <> []) -> exists o, In o (op_toks (Rewrite rs p f) s)).
  { intros rs p f s N. cbn [op_toks]. generalize (skip_before p) (skip_after f) (@nil tok) 0. clear p f. induction s as [|t s IH]; intros p f outr k; cbn [tscan].
    - eexists. now left.
    - destruct k as [|k]; [|apply IH]. destruct (filter (tapplicable f (t :: s)) rs) as [|r ms]; [apply IH|]. destruct (tctx_ok p outr); [|apply IH].
      destruct (IH p f (rev (snd r) ++ outr) (List.length (fst r) - 1)) as [o O]. exists o. apply in_flat_map. exists r. split; [now left|exact O]. }
  destruct the_rules as (l' & D & A & B & El & ED & EA & EB & EI & OD & TD & OA & TA & OB & PB & HD & HA & HB).
  assert (NE : forall K, okK plus K = true -> forall l0 r, In (l0, r) K -> l0 <> []).
  { intros K O l0 r I. destruct (okK_shaped plus K O l0 r I) as [(t & -> & _)|(t & u & -> & _)]; discriminate. }
  rewrite ED, EA, EB, EI. cbn [apply_to].
  destruct (T D None None (text ps) (NE D OD)) as [m1 M1]. destruct (T A None None m1 (NE A OA)) as [m2 M2]. destruct (T B None None m2 (NE B OB)) as [m3 M3].
  destruct (T ignored None None m3) as [out M4]; [intros l0 r [H|[H|[]]]; injection H as <- <-; discriminate|]. exists m1, m2, m3, out. auto.
Qed.

(** ** More than one output *)
Lemma base_refuted : exists l p a b, phonemes = Some l /\ In p l /\ a <> b /\ In a (apply_to TRANSLIT_BASE (text [p])) /\ In b (apply_to TRANSLIT_BASE (text [p])) /\ In plus b.
Proof.
  assert (G : forall o, (match o with Some l => existsb (fun p => if String.eqb (alias (body p)) "T_SH" then
      match cmp p, get "base" (tr_dict (body p)) with [a; b], Some (Text x) => match get "base" (tr_dict a), get "base" (tr_dict b) with
        | Some (Text y), Some (Text z) => if word_eqb (letters_of_names x) (letters_of_names y ++ plus :: letters_of_names z) then false else true | _, _ => false end | _, _ => false end else false) l | None => false end) = true ->
    exists l p x a b y z, o = Some l /\ In p l /\ get "base" (tr_dict (body p)) = Some (Text x) /\ cmp p = [a; b] /\ get "base" (tr_dict a) = Some (Text y) /\ get "base" (tr_dict b) = Some (Text z) /\
      letters_of_names x <> letters_of_names y ++ plus :: letters_of_names z).
  { intros [l|] H; [|discriminate]. apply existsb_exists in H as [p [P H]]. destruct (String.eqb (alias (body p)) "T_SH"); [|discriminate].
    destruct (cmp p) as [|a [|b [|]]] eqn:C; try discriminate. destruct (get "base" (tr_dict (body p))) as [[|x]|] eqn:Gx; try discriminate.
    destruct (get "base" (tr_dict a)) as [[|y]|] eqn:Gy; try discriminate. destruct (get "base" (tr_dict b)) as [[|z]|] eqn:Gz; try discriminate.
    destruct (word_eqb _ _) eqn:W; [discriminate|]. exists l, p, x, a, b, y, z. repeat (split; [assumption || reflexivity|]). intro Q. apply word_eq in Q. congruence. }
  destruct (G phonemes) as (l & p & x & a & b & y & z & E & P & Gx & C & Gy & Gz & N); [vm_cast_no_check (eq_refl true)|]. clear G.
  assert (S : forall q, In q [p] -> In q l) by (intros q [<-|[]]; exact P).
  exists l, p, (letters_of_names x), (letters_of_names y ++ plus :: letters_of_names z). split; [exact E|]. split; [exact P|]. split; [exact N|]. split; [|split].
  - refine (proj2 (base_text l [p] _ E S) _). exists [letters_of_names x]. split; [|cbn; now rewrite app_nil_r]. constructor; [|constructor]. exists x. auto.
  - refine (proj2 (base_text l [p] _ E S) _). exists [letters_of_names y ++ plus :: letters_of_names z]. split; [|cbn [concat]; now rewrite app_nil_r]. constructor; [|constructor]. exists x. split; [exact Gx|]. right. exists a, b, y, z. auto.
  - apply in_or_app. right. now left.
Qed.
(** ** Repeated substrings *)
Lemma repeated_text c n out : In c OTHER_SUBSTRING -> (In out (apply_to (Some DEL_REPEATED_SUBSTRING) (repeat (Tr (typ c)) n)) <-> out = repeat (Tr (typ c)) (Nat.div2 (S n))).
Proof.
  intro C. cbn [apply_to]. unfold DEL_REPEATED_SUBSTRING. rewrite op_toks_ok.
  - apply (halves _ (Tr (typ c))) with (n := n); [|apply in_map_iff; eauto|lia]. intros l r I. apply in_map_iff in I as [d [[= <- <-] _]]. eauto.
  - cbn [nonempty_op]. apply Forall_forall. intros [l r] I. apply in_map_iff in I as [d [[= <- <-] _]]. discriminate.
Qed.
Lemma repeated_refuted : exists s a b, apply_to (Some DEL_REPEATED_SUBSTRING) s = [a] /\ apply_to (Some DEL_REPEATED_SUBSTRING) a = [b] /\ a <> b.
Proof.
  exists (repeat (Tr [115; 95; 115; 104]%N) 3), (repeat (Tr [115; 95; 115; 104]%N) 2), (repeat (Tr [115; 95; 115; 104]%N) 1). split; [vm_compute; reflexivity|]. split; [vm_compute; reflexivity|discriminate].
Qed.
(** ** Names of symbols *)
Definition pitchb (p : phon) : bool := existsb (String.eqb "pitch") (ftr (body p)).
Definition sigma_check (l : list phon) : bool := forallb (fun p => if pitchb p then negb (forallb (fun s => accepts PHONEME (enc s)) (symbols (body p))) else forallb (fun s => accepts PHONEME (enc s)) (symbols (body p))) l.
Lemma sigma_ok : exists l, phonemes = Some l /\ (exists p, In p l /\ In "pitch" (ftr (body p))) /\ forall p, In p l ->
  ((forall s, In s (symbols (body p)) -> accepts PHONEME (enc s) = true) <-> ~ In "pitch" (ftr (body p))).
Proof.
  assert (G : forall o, (match o with Some l => if existsb pitchb l then sigma_check l else false | None => false end) = true ->
    exists l, o = Some l /\ (exists p, In p l /\ In "pitch" (ftr (body p))) /\ forall p, In p l -> ((forall s, In s (symbols (body p)) -> accepts PHONEME (enc s) = true) <-> ~ In "pitch" (ftr (body p)))).
  { assert (PB : forall p, pitchb p = true <-> In "pitch" (ftr (body p))).
    { intro p. unfold pitchb. rewrite existsb_exists. split; [intros [x [X E]]; apply String.eqb_eq in E; now subst|intro I; exists "pitch"; split; [exact I|reflexivity]]. }
    intros [l|] H; [|discriminate]. exists l. split; [reflexivity|]. destruct (existsb pitchb l) eqn:X; [|discriminate]. split.
    - apply existsb_exists in X as [p [P X]]. exists p. split; [exact P|now apply PB].
    - unfold sigma_check in H. rewrite forallb_forall in H. intros p P. specialize (H p P). rewrite <- PB. destruct (pitchb p).
      + split; [intro Q; exfalso|now intros []]. apply negb_true_iff in H. assert (forallb (fun s => accepts PHONEME (enc s)) (symbols (body p)) = true); [|congruence]. now apply forallb_forall.
      + split; [discriminate|]. intros _. now apply forallb_forall. }
  apply G. vm_cast_no_check (eq_refl true).
Qed.
