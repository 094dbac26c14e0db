From Verif Require Import Base RuleModel RuleSpec RuleProofs RewriteProofs IdemProofs RomanModel RomanTables VisualModel NfcTables ArabTables ArabModel ArabSpec ArabProofs.

(** ** Checks of tables *)
Definition has_lhs (r : rule) : bool := match lhs r with [] => false | _ :: _ => true end.
Definition one_letter (r : rule) : bool := match lhs r with [_] => true | _ => false end.
Definition functionalb (rs : list rule) : bool :=
  forallb (fun a => forallb (fun b => if str_eqb (lhs a) (lhs b) then str_eqb (rhs a) (rhs b) else true) rs) rs.
Fixpoint risingb (n : N) (rs : list rule) : bool :=
  match rs with [] => true | r :: rs => match lhs r with [c] => if N.ltb n c then risingb c rs else false | _ => false end end.
Definition shapeb (rs : list rule) : bool := if forallb has_lhs rs then functionalb rs else false.
Definition below (n : N) (rs : list rule) : bool := forallb (fun r => forallb (fun c => N.ltb c n) (rhs r)) rs.
Definition lacks (c : N) (rs : list rule) : bool := forallb (fun r => negb (memN c (rhs r))) rs.
Definition lang_ok (nfc common : list rule) (l : lang_rules) : bool :=
  forallb (fun b => b) [shapeb (visual_norm_tsv l); shapeb (nonfinal_tsv l); shapeb (final_isolated_tsv l); shapeb (final_isolated_tsv l ++ isolated_tsv l);
    forallb one_letter (nonfinal_tsv l); forallb one_letter (final_isolated_tsv l);
    below 64336 (nfc ++ common ++ visual_norm_tsv l ++ nonfinal_tsv l ++ final_isolated_tsv l ++ isolated_tsv l);
    lacks 8203 (visual_norm_tsv l ++ nonfinal_tsv l ++ final_isolated_tsv l ++ isolated_tsv l);
    lacks 8205 (visual_norm_tsv l ++ nonfinal_tsv l ++ final_isolated_tsv l ++ isolated_tsv l);
    shapeb (reading_norm_tsv l); no_feedback (reading_norm_tsv l)].

Lemma has_lhs_spec rs : forallb has_lhs rs = true -> nonempty_lhs rs.
Proof. intros H r R E. rewrite forallb_forall in H. specialize (H r R). unfold has_lhs in H. rewrite E in H. discriminate. Qed.
Lemma one_letter_spec rs : forallb one_letter rs = true -> single_letters rs.
Proof. intros H r R. rewrite forallb_forall in H. specialize (H r R). unfold one_letter in H. destruct (lhs r) as [|c [|]]; try discriminate. now exists c. Qed.
Lemma functionalb_spec rs : functionalb rs = true -> functional rs.
Proof.
  intros H l a b A B. unfold functionalb in H. rewrite forallb_forall in H. specialize (H _ A). rewrite forallb_forall in H. specialize (H _ B).
  cbn [lhs rhs] in H. rewrite str_eqb_refl in H. now apply str_eqb_eq.
Qed.
Lemma shapeb_spec rs : shapeb rs = true -> nonempty_lhs rs /\ functional rs.
Proof. unfold shapeb. destruct (forallb has_lhs rs) eqn:E; [|discriminate]. intro H. split; [now apply has_lhs_spec|now apply functionalb_spec]. Qed.
Lemma rising_above rs : forall n, risingb n rs = true -> forall r, In r rs -> exists c, lhs r = [c] /\ (n < c)%N.
Proof.
  induction rs as [|x rs IH]; intros n H r R; [destruct R|]. cbn [risingb] in H. destruct (lhs x) as [|c [|]] eqn:L; try discriminate.
  destruct (N.ltb n c) eqn:E; [|discriminate]. apply N.ltb_lt in E. destruct R as [<-|R]; [now exists c|].
  destruct (IH c H r R) as [d [D1 D2]]. exists d. split; [exact D1|]. now apply N.lt_trans with c.
Qed.
Lemma rising_functional rs : forall n, risingb n rs = true -> functional rs.
Proof.
  induction rs as [|x rs IH]; intros n H l a b A B; [destruct A|]. cbn [risingb] in H. destruct (lhs x) as [|c [|]] eqn:L; try discriminate.
  destruct (N.ltb n c) eqn:E; [|discriminate]. destruct A as [A|A], B as [B|B].
  - congruence.
  - subst x. cbn [lhs] in L. subst l. destruct (rising_above rs c H _ B) as [d [D1 D2]]. cbn [lhs] in D1. injection D1 as ->. now apply N.lt_irrefl in D2.
  - subst x. cbn [lhs] in L. subst l. destruct (rising_above rs c H _ A) as [d [D1 D2]]. cbn [lhs] in D1. injection D1 as ->. now apply N.lt_irrefl in D2.
  - apply (IH c H l); auto.
Qed.
Lemma rising_nonempty rs n : risingb n rs = true -> nonempty_lhs rs.
Proof. intros H r R E. destruct (rising_above rs n H r R) as [c [C _]]. congruence. Qed.
Lemma below_spec n rs d : below n rs = true -> (n <= d)%N -> forall r, In r rs -> ~ In d (rhs r).
Proof.
  unfold below. intros H L r R D. rewrite forallb_forall in H. specialize (H r R). rewrite forallb_forall in H. specialize (H d D).
  apply N.ltb_lt in H. apply N.lt_nge in H. contradiction.
Qed.
Lemma lacks_spec c rs : lacks c rs = true -> forall r, In r rs -> ~ In c (rhs r).
Proof. unfold lacks. intros H r R D. rewrite forallb_forall in H. specialize (H r R). apply negb_true_iff, memN_false in H. contradiction. Qed.

(** ** The alphabet has every character of the tables *)
Lemma chars_over rs sigma : (forall c, In c (rule_chars rs) -> In c sigma) -> forall r, In r rs -> over sigma (rhs r) = true.
Proof.
  intros H r R. apply over_in. intros c C. apply memN_spec. apply H. unfold rule_chars. apply in_flat_map. exists r. split; [exact R|].
  apply in_or_app. now right.
Qed.
Section Sigma.
Variables (langs : list lang_rules) (presentation nfc : list rule) (roman : table).
Let sg := arab_sigma langs presentation nfc roman.
Lemma sigma_nfc r : In r nfc -> over sg (rhs r) = true.
Proof. apply chars_over. intros c C. unfold sg, arab_sigma. rewrite !in_app_iff. tauto. Qed.
Lemma sigma_presentation r : In r presentation -> over sg (rhs r) = true.
Proof. apply chars_over. intros c C. unfold sg, arab_sigma. rewrite !in_app_iff. tauto. Qed.
Lemma sigma_lang l r : In l langs -> In r (reading_norm_tsv l) \/ In r (visual_norm_tsv l) \/ In r (final_isolated_tsv l) \/ In r (isolated_tsv l) \/ In r (nonfinal_tsv l) ->
  over sg (rhs r) = true.
Proof.
  intros L R. apply over_in. intros c C. apply memN_spec. unfold sg, arab_sigma. apply in_or_app. left. apply in_flat_map. exists l. split; [exact L|].
  assert (X : forall rs, In r rs -> In c (rule_chars rs)).
  { intros rs I. unfold rule_chars. apply in_flat_map. exists r. split; [exact I|]. apply in_or_app. now right. }
  unfold lang_chars. rewrite !in_app_iff. destruct R as [R|[R|[R|[R|R]]]]; apply X in R; tauto.
Qed.

Variable common : list rule.
Hypothesis Ok : forallb (lang_ok nfc common) langs = true.
Hypothesis Op : risingb 64335 presentation = true.
Hypothesis Bp : below 64336 presentation = true.
Hypothesis On : shapeb nfc = true.
Hypothesis Oc : shapeb common = true.
Hypothesis Vc : forallb (fun r => over sg (rhs r)) common = true.
Hypothesis Dc : forall d, d = 8203%N \/ d = 8205%N -> gone_by common d.

Lemma good_presentation : good presentation sg.
Proof. split; [eapply rising_nonempty; eauto|split; [eapply rising_functional; eauto|apply sigma_presentation]]. Qed.
Lemma good_nfc : good nfc sg.
Proof. destruct (shapeb_spec _ On). split; [assumption|split; [assumption|apply sigma_nfc]]. Qed.
Lemma good_common : good common sg.
Proof. destruct (shapeb_spec _ Oc). split; [assumption|split; [assumption|]]. now apply forallb_forall. Qed.
Lemma lang_goods l : In l langs -> good (visual_norm_tsv l) sg /\ good (nonfinal_tsv l) sg /\ good (final_isolated_tsv l) sg /\
  good (final_isolated_tsv l ++ isolated_tsv l) sg /\ single_letters (nonfinal_tsv l) /\ single_letters (final_isolated_tsv l) /\
  good (reading_norm_tsv l) sg /\ no_feedback (reading_norm_tsv l) = true.
Proof.
  intro L. pose proof Ok as K. rewrite forallb_forall in K. specialize (K l L). unfold lang_ok in K. cbn [forallb] in K. rewrite !andb_true_iff in K.
  destruct K as (K1 & K2 & K3 & K4 & K5 & K6 & K7 & K8 & K9 & K10 & K11 & _).
  apply shapeb_spec in K1, K2, K3, K4, K10. destruct K1, K2, K3, K4, K10. unfold good.
  repeat apply conj; auto using one_letter_spec; intros r R; apply (sigma_lang l); auto; rewrite ?in_app_iff in R; tauto.
Qed.
Lemma lang_later l : In l langs -> forall d, (64336 <= d)%N -> forall r, In r (later nfc common l) -> ~ In d (rhs r).
Proof.
  intros L d D. pose proof Ok as K. rewrite forallb_forall in K. specialize (K l L). unfold lang_ok in K. cbn [forallb] in K. rewrite !andb_true_iff in K.
  destruct K as (_ & _ & _ & _ & _ & _ & K & _). now apply (below_spec 64336).
Qed.
Lemma lang_lacks l : In l langs -> forall d, d = 8203%N \/ d = 8205%N -> forall r, In r (visual_norm_tsv l ++ nonfinal_tsv l ++ final_isolated_tsv l ++ isolated_tsv l) -> ~ In d (rhs r).
Proof.
  intros L d D. pose proof Ok as K. rewrite forallb_forall in K. specialize (K l L). unfold lang_ok in K. cbn [forallb] in K. rewrite !andb_true_iff in K.
  destruct K as (_ & _ & _ & _ & _ & _ & _ & K8 & K9 & _). destruct D as [-> | ->]; now apply lacks_spec.
Qed.

Lemma visual_total_gen ns l : In l langs -> exists p n c v f,
  fst_from_rules ns presentation sg = Some p /\ fst_from_rules ns nfc sg = Some n /\ fst_from_rules ns common sg = Some c /\
  fst_from_rules ns (visual_norm_tsv l) sg = Some v /\ arab_visual ns presentation nfc common l sg = Some f /\
  (forall s, over sg s = true -> exists s1 s2 s3 s4 s5 s6 t,
    p s = [s1] /\ n s1 = [s2] /\ c s2 = [s3] /\ v s3 = [s4] /\ all_but_last (nonfinal_tsv l) s4 s5 /\ last_only (final_isolated_tsv l) s5 s6 /\
    whole_word (final_isolated_tsv l ++ isolated_tsv l) s6 t /\ f s = [t] /\ over sg t = true) /\
  (forall s, over sg s = false -> f s = []).
Proof.
  intro L. destruct (lang_goods l L) as (G1 & G2 & G3 & G4 & S1 & S2 & _).
  destruct (visual_stages ns _ _ _ l sg good_presentation good_nfc good_common G1 G2 G3 G4 S1 S2) as (p & n & c & v & f & Ep & En & Ec & Ev & Ef & H).
  exists p, n, c, v, f. do 5 (split; [assumption|]). split.
  - intros s O. destruct (H s O) as (s1 & s2 & s3 & s4 & s5 & s6 & t & A). exists s1, s2, s3, s4, s5, s6, t. tauto.
  - intros s O. destruct (visual_chain ns _ _ _ l sg good_presentation good_nfc good_common G1) as (p' & n' & c' & v' & f' & Ep' & _ & _ & _ & Ef' & H').
    assert (f' = f) by congruence. subst f'. rewrite H'. cbn [run_chain]. rewrite (rules_outside ns sg presentation p' good_presentation Ep' s O). reflexivity.
Qed.
Lemma visual_gone_gen ns l f s t : In l langs -> arab_visual ns presentation nfc common l sg = Some f -> In t (f s) ->
  (forall r, In r presentation -> ~ is_infix (lhs r) t) /\ ~ In 8203%N t /\ ~ In 8205%N t.
Proof.
  intros L E I. destruct (lang_goods l L) as (G1 & G2 & G3 & G4 & S1 & S2 & _).
  destruct (visual_stages ns _ _ _ l sg good_presentation good_nfc good_common G1 G2 G3 G4 S1 S2) as (p & n & c & v & f' & Ep & En & Ec & Ev & Ef & H).
  assert (f' = f) by congruence. subst f'. destruct (over sg s) eqn:O.
  - destruct (H s O) as (s1 & s2 & s3 & s4 & s5 & s6 & t' & _ & _ & _ & _ & _ & _ & _ & T & _ & P & C). rewrite T in I. destruct I as [->|[]].
    split; [|split; apply C; auto; apply lang_lacks; auto].
    intros r R [a [b X]]. destruct (rising_above _ _ Op r R) as [d [D1 D2]]. apply N.lt_le_pred in D2 as D3. rewrite D1 in X.
    assert (D : (64336 <= d)%N) by lia. apply (P d).
    + split; [|now apply (below_spec 64336)]. exists (rhs r). rewrite <- D1. now destruct r.
    + intros r' R'. now apply (lang_later l L).
    + rewrite X. apply in_or_app. right. now left.
  - destruct (visual_total_gen ns l L) as (_ & _ & _ & _ & f' & _ & _ & _ & _ & Ef' & _ & Z). assert (f' = f) by congruence. subst f'. rewrite (Z s O) in I. destruct I.
Qed.
Lemma untouched_gen ns l f s : In l langs -> arab_visual ns presentation nfc common l sg = Some f -> over sg s = true ->
  (forall r, In r (presentation ++ nfc ++ common ++ visual_norm_tsv l) -> ~ is_infix (lhs r) s) ->
  (forall r a c b, In r (nonfinal_tsv l) -> lhs r = [c] -> s <> a ++ c :: b \/ b = []) ->
  (forall r a c, In r (final_isolated_tsv l) -> lhs r = [c] -> s <> a ++ [c]) ->
  (forall r, In r (isolated_tsv l) -> lhs r <> s) -> f s = [s].
Proof.
  intros L E O N W F I. destruct (lang_goods l L) as (G1 & G2 & G3 & G4 & S1 & S2 & _).
  destruct (visual_chain ns _ _ _ l sg good_presentation good_nfc good_common G1) as (p & n & c & v & f' & Ep & En & Ec & Ev & Ef & H).
  assert (f' = f) by congruence. subst f'. rewrite H. cbn [run_chain].
  rewrite (no_lhs_identity ns presentation sg p (proj1 good_presentation) (proj2 (proj2 good_presentation)) Ep s O) by (intros r R; apply N; rewrite !in_app_iff; tauto). cbn [flat_map].
  rewrite (no_lhs_identity ns nfc sg n (proj1 good_nfc) (proj2 (proj2 good_nfc)) En s O) by (intros r R; apply N; rewrite !in_app_iff; tauto). cbn [flat_map].
  rewrite (no_lhs_identity ns common sg c (proj1 good_common) (proj2 (proj2 good_common)) Ec s O) by (intros r R; apply N; rewrite !in_app_iff; tauto). cbn [flat_map].
  rewrite (no_lhs_identity ns (visual_norm_tsv l) sg v (proj1 G1) (proj2 (proj2 G1)) Ev s O) by (intros r R; apply N; rewrite !in_app_iff; tauto). cbn [flat_map].
  assert (K : forall a b, s = a ++ b -> b <> [] -> letterwise (nonfinal_tsv l) a a).
  { induction a as [|x a IH] using rev_ind; intros b X Y; [constructor|].
    assert (Z : forall u w y, letterwise (nonfinal_tsv l) u w -> becomes (nonfinal_tsv l) y [y] -> letterwise (nonfinal_tsv l) (u ++ [y]) (w ++ [y])).
    { intros u w y U B. induction U as [|k t' u w B' U IH']; [exact (lw_cons _ y [y] [] [] B (lw_nil _))|]. cbn [app]. rewrite <- app_assoc. now constructor. }
    rewrite <- app_assoc in X. apply Z; [apply (IH ([x] ++ b) X); discriminate|]. right. split; [reflexivity|]. intros [u U].
    destruct (W _ a x b U eq_refl) as [Q|Q]; [apply Q; exact X|contradiction]. }
  rewrite (nonfinal_out l sg s s S1 (proj1 (proj2 G2)) O).
  2:{ destruct s as [|k s'] using rev_ind; [now left|]. right. exists s', k, s'. split; [reflexivity|]. split; [|reflexivity]. apply (K s' [k] eq_refl). discriminate. }
  cbn [flat_map]. rewrite (final_out l sg s s S2 (proj1 (proj2 G3)) O).
  2:{ destruct s as [|k a] using rev_ind; [left; cbn; auto|]. destruct a as [|y a]; [left; cbn; auto|]. right. exists (y :: a), k, [k].
      split; [discriminate|]. split; [reflexivity|]. split; [|reflexivity]. right. split; [reflexivity|]. intros [u U]. now apply (F _ (y :: a) k U eq_refl). }
  cbn [flat_map]. rewrite (isolated_out l sg s s (proj1 G4) (proj1 (proj2 G4)) O); [reflexivity|]. right. split; [reflexivity|]. intros [u U].
  apply in_app_or in U as [U|U]; [|now apply (I _ U)]. destruct (S2 _ U) as [k X]. cbn [lhs] in X. now apply (F _ [] k U X).
Qed.

Lemma reading_total_gen ns l : In l langs -> exists f, arab_reading ns l sg = Some f /\
  (forall s, over sg s = true -> exists t, f s = [t] /\ over sg t = true /\ f t = [t] /\ forall r, In r (reading_norm_tsv l) -> ~ is_infix (lhs r) t) /\
  (forall s, over sg s = false -> f s = []).
Proof.
  intro L. destruct (lang_goods l L) as (_ & _ & _ & _ & _ & _ & G & NF). destruct (rules_stage ns _ _ G) as [f [E H]]. exists f. split; [exact E|]. split.
  - intros s O. destruct (H s O) as [t [T [O' _]]]. exists t. split; [exact T|]. split; [exact O'|].
    assert (I : In t (f s)) by (rewrite T; now left).
    destruct (no_feedback_idempotent ns _ sg NF (proj1 G) (proj2 (proj2 G)) f E s t I) as [A B]. auto.
  - apply (rules_outside ns sg _ f G E).
Qed.
End Sigma.
