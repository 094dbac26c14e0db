(** The acronym rule turns a word of letter names into capitals and leaves other words alone. *)
From Coq Require Import String Lia.
From Verif Require Import Base RuleModel RegexModel RegexProofs IsoModel AlignModel AlignSpec AlignProofs AlignMore NatModel NatSpec NatProofs NatBytes NatTyp NatTypMain NatMain NatRoman
  UniqueDecode AcronymModel AcronymSpec.
Local Open Scope list_scope.
Notation bytes := NatModel.bytes.

(** * The rules that matter for a text *)
Lemma prefixes_In p : forall s, In p (prefixes s) <-> exists t, s = p ++ t.
Proof.
  induction p as [|c p IH]; intros s.
  - split; [intros _; exists s; auto|]. intros _. destruct s; left; reflexivity.
  - destruct s as [|d s]; cbn; split.
    + intros [H|[]]; discriminate.
    + intros [t H]; discriminate.
    + intros [H|H]; [discriminate|]. apply in_map_iff in H. destruct H as [q [E H]]. injection E as -> ->. apply IH in H. destruct H as [t ->]. exists t; auto.
    + intros [t H]. injection H as -> ->. right. apply in_map. apply IH. exists t; auto.
Qed.
Lemma infixes_In p s : forall u v, s = u ++ p ++ v -> In p (infixes s).
Proof.
  induction s as [|c s IH]; intros u v E; cbn [infixes]; apply in_or_app.
  - left. apply prefixes_In. symmetry in E. apply app_eq_nil in E. destruct E as [_ E]. apply app_eq_nil in E. destruct E as [-> _]. exists []. reflexivity.
  - destruct u as [|d u].
    + left. apply prefixes_In. exists v. exact E.
    + right. injection E as _ E. exact (IH u v E).
Qed.

Lemma choose_rules (P : word * word -> Prop) rs : Forall (fun r => exists q, P q /\ rule_of q = r) rs -> exists R, map rule_of R = rs /\ Forall P R.
Proof.
  induction 1 as [|r rs [q [Hq Eq]] _ [R [E HR]]]; [exists []; auto|]. exists (q :: R). cbn. rewrite E, Eq. auto.
Qed.

Lemma symbols_set : Forall (fun q : tre * word => symbols_in (fst q) /\ Forall symbol (snd q)) HI_ACRONYM_SET.
Proof.
  apply (forallb_Forall (fun q : tre * word => if reb (fst q) then forallb symbolb (snd q) else false)); [|vm_compute; reflexivity].
  intros q H. destruct (reb (fst q)) eqn:E; [|discriminate]. split; [apply reb_ok; auto|]. apply (forallb_Forall symbolb); auto. apply symbolb_ok.
Qed.
Lemma contexts_ok : symbols_ctx BEFORE_ACR /\ symbols_ctx AFTER_ACR.
Proof. split; apply reb_ok; vm_compute; reflexivity. Qed.


(** * Words of a letter *)
Inductive aligned_names : list (list string) -> word -> Prop :=
| an_end : aligned_names [] []
| an_more n p ps r w : In n p -> forallb right_symbol r = true -> aligned_names ps w -> aligned_names (p :: ps) (Gr (bytes n) :: Eq :: r ++ w).
Lemma aligned_one n p r : In n p -> forallb right_symbol r = true -> aligned_names [p] (Gr (bytes n) :: Eq :: r).
Proof. intros H1 H2. pose proof (an_more n p [] r [] H1 H2 an_end) as H. rewrite app_nil_r in H. exact H. Qed.
Lemma aligned_app a : forall b w, aligned_names (a ++ b) w <-> exists u v, w = u ++ v /\ aligned_names a u /\ aligned_names b v.
Proof.
  induction a as [|p a IH]; intros b w; cbn [app].
  - split; [intros H; exists [], w; repeat split; auto; constructor|]. intros (u & v & -> & H1 & H2). inversion H1; subst. exact H2.
  - split.
    + intros H. inversion H as [|n q ps r w' Hn Hr Hw E1 E2]; subst. apply IH in Hw. destruct Hw as (u & v & -> & H1 & H2).
      exists (Gr (bytes n) :: Eq :: r ++ u), v. split; [cbn; rewrite <- app_assoc; reflexivity|]. split; auto. constructor; auto.
    + intros (u & v & -> & H1 & H2). inversion H1; subst. cbn. rewrite <- app_assoc. constructor; auto. apply IH. eauto.
Qed.
Lemma union_means p w : means (union p) w <-> exists n, In n p /\ w = [Gr (bytes n)].
Proof.
  unfold union. rewrite words_inv, in_map_iff. split; intros (n & H1 & H2); exists n; auto.
Qed.
Lemma letter_means ps w : means (letter (map union ps)) w <-> aligned_names ps w.
Proof.
  revert w. induction ps as [|p ps IH] using rev_ind; intros w.
  - change (letter (map union [])) with (TWords [[]]). rewrite words_inv. split.
    + intros [<-|[]]. constructor.
    + intros H. inversion H. left; auto.
  - rewrite map_app. unfold letter. rewrite fold_left_app. cbn [fold_left map]. fold (letter (map union ps)). rewrite tcat_inv, aligned_app. split.
    + intros (u & v & -> & H1 & H2). exists u, v. split; auto. split; [apply IH; auto|].
      apply tcat_inv in H2. destruct H2 as (a & b & -> & H2 & H3). apply union_means in H2. destruct H2 as (n & Hn & ->).
      apply tcat_inv in H3. destruct H3 as (c & d & -> & H3 & H4). apply words_inv in H3. destruct H3 as [<-|[]]. apply rights_inv in H4.
      apply aligned_one; auto.
    + intros (u & v & -> & H1 & H2). exists u, v. split; auto. split; [apply IH; auto|]. inversion H2; subst.
      match goal with K : aligned_names [] _ |- _ => inversion K; subst end. rewrite app_nil_r.
      apply tcat_inv. exists [Gr (bytes n)], (Eq :: r). split; auto. split; [apply union_means; eauto|].
      apply tcat_inv. exists [Eq], r. split; auto. split; [apply words_inv; left; auto|apply rights_inv; auto].
Qed.
Lemma set_names : HI_ACRONYM_SET = map (fun q : string * list (list string) => (letter (map union (snd q)), uc (fst q))) letter_names.
Proof. reflexivity. Qed.
Lemma in_set x r : In (x, r) HI_ACRONYM_SET <-> exists n ps, In (n, ps) letter_names /\ x = letter (map union ps) /\ r = uc n.
Proof.
  rewrite set_names, in_map_iff. split.
  - intros ([n ps] & E & H). injection E as <- <-. exists n, ps. auto.
  - intros (n & ps & H & -> & ->). exists (n, ps). auto.
Qed.
Lemma places_ne : forall n ps, In (n, ps) letter_names -> ps <> [].
Proof.
  assert (H : forallb (fun q : string * list (list string) => match snd q with [] => false | _ => true end) letter_names = true) by (vm_compute; reflexivity).
  rewrite forallb_forall in H. intros n ps K E. apply H in K. subst ps. discriminate.
Qed.

Lemma names_ne : forall n ps, In (n, ps) letter_names -> forall p m, In p ps -> In m p -> bytes m <> [].
Proof.
  assert (H : forallb (fun q : string * list (list string) => forallb (forallb (fun m => match bytes m with [] => false | _ => true end)) (snd q)) letter_names = true) by (vm_compute; reflexivity).
  rewrite forallb_forall in H. intros n ps K p m Kp Km E. apply H in K. cbn [snd] in K. rewrite forallb_forall in K. apply K in Kp. rewrite forallb_forall in Kp. apply Kp in Km. rewrite E in Km. discriminate.
Qed.

(** * The rules *)
Definition rule_ok (q : word * word) : Prop := exists n ps, In (n, ps) letter_names /\ aligned_names ps (fst q) /\ snd q = uc n.
Lemma acr_rules ts : Forall symbol ts -> exists R, Forall rule_ok R /\ Forall (fun q : word * word => fst q <> []) R /\
  (forall u l v n ps, ts = u ++ l ++ v -> In (n, ps) letter_names -> aligned_names ps l -> In (l, uc n) R) /\
  (forall s, In s (HI_ACR_TYP_TO_TR (encs ts)) <-> exists out, rewriting R BEFORE_ACR AFTER_ACR [] ts out /\ s = encs out).
Proof.
  intros Hts.
  destruct (choose_rules (fun q => rule_ok q /\ symbol_rule q) (cross_rules HI_ACRONYM_SET (encs ts))) as (R & E & HR).
  { apply Forall_forall. intros r Hr. unfold cross_rules in Hr. apply in_flat_map in Hr. destruct Hr as ([x o] & Hx & Hr). cbn [fst snd] in Hr.
    apply in_map_iff in Hr. destruct Hr as (u & <- & Hu). apply filter_In in Hu. destruct Hu as [_ Hu]. apply accepts_spec in Hu.
    pose proof (proj1 (Forall_forall _ _) symbols_set _ Hx) as [S1 S2]. cbn [fst snd] in S1, S2.
    apply (enc_means x S1) in Hu. destruct Hu as (w & Hw & Hs & ->). exists (w, o). split; [|reflexivity].
    apply in_set in Hx. destruct Hx as (n & ps & Hn & -> & ->). apply letter_means in Hw. split.
    - exists n, ps. auto.
    - split; [exact Hs|]. split; [exact S2|]. inversion Hw; subst; [exfalso; exact (places_ne _ _ Hn eq_refl)|]. cbn [fst named]. match goal with K : In ?m _ |- bytes ?m <> [] => exact (names_ne _ _ Hn _ _ (or_introl eq_refl) K) end. }
  exists R. split; [eapply Forall_impl; [|exact HR]; intros q [H _]; exact H|].
  assert (Hsr : Forall symbol_rule R) by (eapply Forall_impl; [|exact HR]; intros q [_ H]; exact H).
  split; [eapply Forall_impl; [|exact Hsr]; intros q H; apply rule_nonempty; exact H|]. split.
  - intros u l v n ps Ets Hn Hl.
    assert (Hset : In (letter (map union ps), uc n) HI_ACRONYM_SET) by (apply in_set; eauto).
    pose proof (proj1 (Forall_forall _ _) symbols_set _ Hset) as [S1 S2]. cbn [fst snd] in S1, S2.
    assert (Hsl : Forall symbol l) by (rewrite Ets in Hts; apply Forall_app in Hts as [_ Hts]; apply Forall_app in Hts as [Hts _]; exact Hts).
    assert (Hin : In (Rule (encs l) (encs (uc n))) (map rule_of R)).
    { rewrite E. unfold cross_rules. apply in_flat_map. exists (letter (map union ps), uc n). split; auto. cbn [fst snd]. apply (in_map (fun u => Rule u (encs (uc n)))).
      apply filter_In. split.
      - apply (infixes_In _ _ (encs u) (encs v)). rewrite Ets, !encs_app. reflexivity.
      - apply accepts_spec. apply (enc_means _ S1). exists l. split; [apply letter_means; auto|auto]. }
    apply in_map_iff in Hin. destruct Hin as ([l' r'] & E' & Hin). unfold rule_of in E'. cbn [fst snd] in E'. pose proof (f_equal lhs E') as E1. pose proof (f_equal rhs E') as E2. cbn [lhs rhs] in E1, E2.
    pose proof (proj1 (Forall_forall _ _) Hsr _ Hin) as (K1 & K2 & _). cbn [fst snd] in K1, K2.
    apply encs_inj in E1; auto. apply encs_inj in E2; auto. subst. exact Hin.
  - intros s. pose proof (op_bytes_ok (Rewrite R BEFORE_ACR AFTER_ACR) ts s) as K. cbn [op_bytes performs] in K. rewrite E in K.
    unfold HI_ACR_TYP_TO_TR. apply K; auto.
    + split; [exact Hsr|]. exact contexts_ok.
    + left. exact Logic.I.
Qed.
