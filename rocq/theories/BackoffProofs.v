From Verif Require Import Base KbestModel PairlmModel PairlmSpec DecoderSpec.


Lemma via_unique first final q c : via first final q c -> forall d, via first final q d -> c = d.
Proof.
  induction 1 as [q c F|q l w n F A N|q w n c F A V IH]; intros d H.
  - inversion H; congruence.
  - inversion H as [|? ? ? ? F' A' N'|? ? ? ? F' A' V']; subst; try congruence.
  - inversion H as [|? ? ? ? F' A' N'|? ? ? ? F' A' V']; subst; try congruence.
    rewrite A in A'. injection A' as <- <-. rewrite (IH _ V'). auto.
Qed.

Definition improved (m m' : lm) : Prop :=
  length m' = length m /\ (forall q, first_of m' q = first_of m q) /\
  (forall q, option_map lm_arcs (nth_error m' q) = option_map lm_arcs (nth_error m q)) /\
  forall q, final_of m' q = final_of m q \/ (final_of m q = None /\ via_lm m q (final_of m' q)).
Lemma improved_refl m : improved m m.
Proof. split; auto. Qed.
Lemma improved_via m m' q c : improved m m' -> via_lm m' q c -> via_lm m q c.
Proof.
  intros (_ & A & _ & I). induction 1 as [q c F|q l w n F B N|q w n c F B V IH].
  - destruct (I q) as [E|[_ E]]; rewrite F in E; [apply via_final; auto|exact E].
  - eapply via_none; [|rewrite <- A; exact B|exact N]. destruct (I q) as [E|[E _]]; congruence.
  - eapply via_backoff; [|rewrite <- A; exact B|exact IH]. destruct (I q) as [E|[E _]]; congruence.
Qed.
Lemma improved_trans a b c : improved a b -> improved b c -> improved a c.
Proof.
  intros H (L2 & A2 & R2 & I2). pose proof H as (L1 & A1 & R1 & I1). split; [congruence|]. split; [intros q; rewrite A2; auto|].
  split; [intros q; rewrite R2; auto|].
  intros q. destruct (I2 q) as [E2|[N2 V2]], (I1 q) as [E1|[N1 V1]].
  - left. congruence.
  - right. rewrite E2. auto.
  - right. split; [congruence|]. eapply improved_via; eauto.
  - right. split; auto. eapply improved_via; eauto.
Qed.

Lemma set_final_nth m : forall q c p, nth_error (set_final m q c) p =
  if Nat.eqb p q then option_map (fun s => LmState (lm_arcs s) c) (nth_error m q) else nth_error m p.
Proof.
  induction m as [|s m IH]; intros [|q] c [|p]; auto; cbn [set_final nth_error Nat.eqb option_map]; auto.
  destruct (Nat.eqb p q); auto.
Qed.
Lemma set_final_length m : forall q c, length (set_final m q c) = length m.
Proof. induction m as [|s m IH]; intros [|q] c; simpl; auto. Qed.
Lemma set_final_improves m q c : final_of m q = None -> via_lm m q c -> improved m (set_final m q c).
Proof.
  intros F V. split; [apply set_final_length|]. split; [|split].
  - intros p. unfold first_of. rewrite set_final_nth. destruct (Nat.eqb_spec p q) as [->|]; auto. destruct (nth_error m q); auto.
  - intros p. rewrite set_final_nth. destruct (Nat.eqb_spec p q) as [->|]; auto. destruct (nth_error m q); auto.
  - intros p. destruct (Nat.eqb_spec p q) as [->|N].
    + destruct (nth_error m q) as [s|] eqn:E.
      * right. split; auto. assert (final_of (set_final m q c) q = c) as ->; [|exact V].
        unfold final_of. rewrite set_final_nth, Nat.eqb_refl, E. auto.
      * left. unfold final_of. rewrite set_final_nth, Nat.eqb_refl, E. auto.
    + left. unfold final_of. rewrite set_final_nth. apply Nat.eqb_neq in N. rewrite N. auto.
Qed.

Lemma has_arcs_improved m m' : improved m m' -> has_arcs m -> has_arcs m'.
Proof.
  intros (L & _ & R & _) H s I. apply In_nth_error in I. destruct I as (q & E). specialize (R q). rewrite E in R.
  destruct (nth_error m q) as [t|] eqn:Et; [|discriminate]. injection R as ->. apply H. eapply nth_error_In; eauto.
Qed.
Lemma ranked_improved rank m m' : improved m m' -> ranked rank m -> ranked rank m'.
Proof.
  intros (L & A & _ & I) H q Hq. rewrite L in *. destruct (H q Hq) as [H1 H2]. split; auto. intros w n F B.
  apply (H2 w n); [destruct (I q) as [E|[E _]]; congruence|rewrite <- A; auto].
Qed.

Lemma final_cost_spec rank fuel : forall m q, has_arcs m -> ranked rank m -> q < length m -> rank q < fuel ->
  exists c m', GetStateFinalCost fuel m (Some q) = Done (c, m') /\ via_lm m q c /\ final_of m' q = c /\ improved m m'.
Proof.
  induction fuel as [|fuel IH]; intros m q Ha Hr Hq Hf; [lia|]. cbn [GetStateFinalCost].
  destruct (nth_error m q) as [s|] eqn:Es; [|apply nth_error_None in Es; lia].
  assert (final_of m q = lm_final s) as Ef by (unfold final_of; rewrite Es; auto).
  assert (first_of m q = hd_error (lm_arcs s)) as Ea by (unfold first_of; rewrite Es; auto).
  destruct (lm_final s) as [c|].
  { exists (Some c), m. split; auto. split; [apply via_final; auto|]. split; auto. apply improved_refl. }
  unfold GetBackoff. rewrite Es. destruct (lm_arcs s) as [|[[l w] n] arcs] eqn:Ear.
  { exfalso. apply (Ha s); auto. eapply nth_error_In; eauto. }
  cbn [hd_error] in Ea. destruct (Z.eqb_spec l 0) as [->|Nl]; cbn [negb andthen fst snd].
  - destruct (Hr q Hq) as [_ Hn]. destruct (Hn w n Ef Ea) as [Hn1 Hn2].
    destruct (IH m n Ha Hr Hn1) as (c & m' & E & V & F & I); [lia|]. rewrite E. cbn [andthen fst snd].
    assert (via_lm m q (plus_cost (Some w) c)) as Vq.
    { replace (plus_cost (Some w) c) with (match c with Some x => Some (w + x)%Z | None => None end) by (destruct c; auto).
      eapply via_backoff; eauto. }
    exists (plus_cost (Some w) c), (set_final m' q (plus_cost (Some w) c)). split; auto. split; auto.
    assert (q < length m') as Hq' by (destruct I as (-> & _); auto).
    assert (final_of (set_final m' q (plus_cost (Some w) c)) q = plus_cost (Some w) c) as Fq.
    { unfold final_of. rewrite set_final_nth, Nat.eqb_refl. destruct (nth_error m' q) eqn:E'; auto. apply nth_error_None in E'. lia. }
    split; auto.
    destruct I as (L & A & R & I). split; [rewrite set_final_length; auto|]. split; [|split].
    + intros p. rewrite <- A. unfold first_of. rewrite set_final_nth. destruct (Nat.eqb_spec p q) as [->|]; auto. destruct (nth_error m' q); auto.
    + intros p. rewrite <- R. rewrite set_final_nth. destruct (Nat.eqb_spec p q) as [->|]; auto. destruct (nth_error m' q); auto.
    + intros p. destruct (Nat.eq_dec p q) as [->|Np].
      * right. split; auto. rewrite Fq. auto.
      * replace (final_of (set_final m' q (plus_cost (Some w) c)) p) with (final_of m' p); [apply I|].
        unfold final_of. rewrite set_final_nth. apply Nat.eqb_neq in Np. rewrite Np. auto.
  - assert (GetStateFinalCost fuel m None = Done (None, m)) as -> by (destruct fuel; auto). cbn [andthen fst snd plus_cost].
    assert (via_lm m q None) as Vq by (eapply via_none; eauto).
    exists None, (set_final m q None). split; auto. split; auto. split.
    + unfold final_of. rewrite set_final_nth, Nat.eqb_refl, Es. auto.
    + apply set_final_improves; auto.
Qed.

Lemma final_step_spec rank start m st : has_arcs m -> ranked rank m -> st < length m ->
  exists m', final_step start (Done m) st = Done m' /\ improved m m' /\ (st <> start -> via_lm m st (final_of m' st)).
Proof.
  intros Ha Hr Hs. unfold final_step. cbn [andthen].
  destruct (nth_error m st) as [s|] eqn:Es; [|apply nth_error_None in Es; lia].
  destruct (lm_final s) as [c|] eqn:Ef.
  - exists m. split; auto. split; [apply improved_refl|]. intros _. unfold final_of at 2. rewrite Es, Ef. apply via_final.
    unfold final_of. rewrite Es. auto.
  - destruct (Nat.eqb_spec st start) as [->|N]; [exists m; split; auto; split; [apply improved_refl|contradiction]|].
    destruct (final_cost_spec rank (length m) m st Ha Hr Hs) as (c & m' & E & V & F & I); [apply Hr; auto|].
    rewrite E. cbn [andthen snd]. exists m'. split; auto. split; auto. intros _. rewrite F. auto.
Qed.
Lemma final_steps_spec rank start todo : forall m, has_arcs m -> ranked rank m -> (forall q, In q todo -> q < length m) ->
  exists m', fold_left (final_step start) todo (Done m) = Done m' /\ improved m m' /\
    forall q, In q todo -> q <> start -> via_lm m q (final_of m' q).
Proof.
  induction todo as [|st todo IH]; intros m Ha Hr Hb; cbn [fold_left].
  { exists m. split; auto. split; [apply improved_refl|intros q []]. }
  destruct (final_step_spec rank start m st Ha Hr) as (m1 & E1 & I1 & V1); [apply Hb; left; auto|]. rewrite E1.
  destruct (IH m1) as (m2 & E2 & I2 & V2).
  - eapply has_arcs_improved; eauto.
  - eapply ranked_improved; eauto.
  - intros q Iq. destruct I1 as (-> & _). apply Hb. right. auto.
  - exists m2. split; auto. split; [eapply improved_trans; eauto|]. intros q [->|Iq] Nq.
    + destruct I2 as (_ & _ & _ & F). destruct (F q) as [->|[_ V]]; auto. eapply improved_via; eauto.
    + eapply improved_via; eauto.
Qed.

Lemma relabel_all_spec m : has_arcs m -> exists m', relabel_all m = Done m' /\
  Forall2 (fun s s' => lm_arcs s' = phi_first (lm_arcs s) /\ lm_final s' = lm_final s) m m'.
Proof.
  induction m as [|s m IH]; intros H; cbn [relabel_all]; [exists []; auto|].
  destruct IH as (m' & E & F); [intros t I; apply H; right; auto|].
  unfold relabel. specialize (H s (or_introl eq_refl)). destruct (lm_arcs s) as [|[[l w] n] arcs] eqn:Ea; [contradiction|].
  cbn [andthen]. rewrite E. cbn [andthen]. eexists. split; [reflexivity|]. constructor; auto. unfold phi_first.
  rewrite Ea. destruct (Z.eqb l 0); cbn [lm_arcs lm_final]; rewrite ?Ea; auto.
Qed.

Lemma make_phi_spec rank start m : has_arcs m -> ranked rank m ->
  exists m', MakePhiMatcherLM start m = Done m' /\ length m' = length m /\
    forall q s, nth_error m q = Some s -> exists s', nth_error m' q = Some s' /\
      lm_arcs s' = phi_first (lm_arcs s) /\
      (lm_final s' = lm_final s \/ via_lm m q (lm_final s')) /\ (q <> start -> via_lm m q (lm_final s')).
Proof.
  intros Ha Hr. unfold MakePhiMatcherLM.
  destruct (final_steps_spec rank start (seq 0 (length m)) m Ha Hr) as (m1 & E & I & V); [intros q H; apply in_seq in H; lia|].
  rewrite E. cbn [andthen]. destruct (relabel_all_spec m1) as (m2 & E2 & F2); [eapply has_arcs_improved; eauto|]. rewrite E2.
  exists m2. split; auto. pose proof I as (L & _ & R & Fi).
  assert (length m2 = length m1) as L2 by (clear - F2; induction F2; simpl; auto).
  split; [congruence|]. intros q s Es.
  assert (q < length m) as Hq by (apply nth_error_Some; congruence).
  assert (forall q s1, nth_error m1 q = Some s1 -> exists s2, nth_error m2 q = Some s2 /\ lm_arcs s2 = phi_first (lm_arcs s1) /\ lm_final s2 = lm_final s1) as G.
  { clear - F2. induction F2 as [|a b l l' H F IH]; intros [|q] s1 H1; try discriminate; cbn [nth_error] in *.
    - injection H1 as <-. eauto.
    - apply IH. auto. }
  destruct (nth_error m1 q) as [s1|] eqn:E1; [|apply nth_error_None in E1; lia].
  destruct (G q s1 E1) as (s2 & E3 & A & F). exists s2. split; auto. specialize (R q). rewrite E1, Es in R. injection R as R.
  split; [congruence|]. assert (final_of m1 q = lm_final s2) as Ff by (unfold final_of; rewrite E1; auto).
  assert (final_of m q = lm_final s) as Fm by (unfold final_of; rewrite Es; auto).
  split.
  - destruct (Fi q) as [X|[_ X]]; rewrite Ff in X; [left; congruence|right; auto].
  - intros Nq. rewrite <- Ff. apply V; auto. apply in_seq. lia.
Qed.

(** Backing off in a circle never ends. *)
Definition circle : lm := [LmState [(0%Z, 1%Z, 1)] None; LmState [(0%Z, 1%Z, 1)] None].
Lemma circle_overflows : forall fuel, GetStateFinalCost fuel circle (Some 1) = Overflow.
Proof. induction fuel as [|fuel IH]; [reflexivity|]. cbn in *. rewrite IH. reflexivity. Qed.
