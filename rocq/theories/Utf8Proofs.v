(** Splitting, decoding and encoding of UTF-8 text. *)
From Verif Require Import Base Utf8Model Utf8Spec Utf8Arith.
Local Open Scope N_scope.

Lemma encodes_ne c bs : encodes c bs -> bs <> [].
Proof. intros [H _]. destruct H; discriminate. Qed.

Lemma encodes_fun c a b : encodes c a -> encodes c b -> a = b.
Proof. intros H1 H2. apply encodes_append in H1, H2. congruence. Qed.

Lemma encodes_prefix_free c d a b x y : encodes c a -> encodes d b -> a ++ x = b ++ y ->
  c = d /\ a = b /\ x = y.
Proof.
  intros H1 H2 E. pose proof (validate_encodes c a x H1) as V1.
  pose proof (validate_encodes d b y H2) as V2. rewrite E, V2 in V1. injection V1 as -> ->.
  split; auto. split; auto. eapply encodes_fun; eauto.
Qed.

Lemma decode_fuel_spec fuel : forall s cs, (length s <= fuel)%nat ->
  (decode_fuel fuel s = Some cs <-> exists ps, spells cs ps s).
Proof.
  induction fuel as [|f IH]; intros s cs Hl.
  - destruct s; [|simpl in Hl; lia]. simpl. split.
    + intros E; injection E as <-. exists []. split; auto.
    + intros (ps & HF & E). destruct HF as [|c p cs ps Hc HF]; auto.
      exfalso. apply encodes_ne in Hc. destruct p; [auto|discriminate].
  - destruct s as [|b s].
    + simpl. split.
      * intros E; injection E as <-. exists []. split; auto.
      * intros (ps & HF & E). destruct HF as [|c p cs ps Hc HF]; auto.
        exfalso. apply encodes_ne in Hc. destruct p; [auto|discriminate].
    + cbn [decode_fuel]. split.
      * destruct (validate_next (b :: s)) as [[c rest]|] eqn:E; [|discriminate].
        apply validate_inv in E as (bs & Hb & Es).
        assert (Hr : (length rest <= f)%nat).
        { apply (f_equal (@length N)) in Es. rewrite app_length in Es. pose proof (encodes_ne c bs Hb).
          destruct bs; [congruence|]. simpl in *. lia. }
        destruct (decode_fuel f rest) as [cs'|] eqn:Ed; [|discriminate].
        intros E; injection E as <-. apply (IH rest cs' Hr) in Ed as (ps & HF & ->).
        exists (bs :: ps). split; auto.
      * intros (ps & HF & E). destruct HF as [|c p cs ps Hc HF]; [discriminate|].
        simpl in E. rewrite E. rewrite (validate_encodes c p _ Hc).
        assert (Hr : (length (concat ps) <= f)%nat).
        { apply (f_equal (@length N)) in E. rewrite app_length in E. pose proof (encodes_ne c p Hc).
          destruct p; [congruence|]. simpl in *. lia. }
        assert (Ed : decode_fuel f (concat ps) = Some cs).
        { apply (IH (concat ps) cs Hr). exists ps. split; auto. }
        rewrite Ed. reflexivity.
Qed.

Lemma code_points_spec s cs : code_points s = Some cs <-> exists ps, spells cs ps s.
Proof. apply decode_fuel_spec. auto. Qed.

Lemma is_valid_spec s : is_valid s = true <-> well_formed_utf8 s.
Proof.
  unfold is_valid, well_formed_utf8. destruct (code_points s) as [cs|] eqn:E.
  - split; auto. intros _. apply code_points_spec in E as (ps & H). eauto.
  - split; [discriminate|]. intros (cs & ps & H).
    assert (code_points s = Some cs) by (apply code_points_spec; eauto). congruence.
Qed.

Lemma append_all_spec cs ps : Forall2 encodes cs ps -> append_all cs = Some ps.
Proof.
  induction 1 as [|c p cs ps Hc HF IH]; auto. simpl.
  rewrite (encodes_append c p Hc), IH. reflexivity.
Qed.

Lemma spells_valid cs ps s : spells cs ps s -> code_points s = Some cs.
Proof. intros H. apply code_points_spec. eauto. Qed.

Lemma split_spec cs ps s : spells cs ps s -> str_split_by_char s = Some ps.
Proof.
  intros H. unfold str_split_by_char. rewrite (spells_valid _ _ _ H). apply append_all_spec, H.
Qed.

Lemma not_valid s : ~ well_formed_utf8 s -> code_points s = None /\ is_valid s = false.
Proof.
  intros H. destruct (is_valid s) eqn:E; [apply is_valid_spec in E; contradiction|].
  unfold is_valid in E. destruct (code_points s); [discriminate|auto].
Qed.

Lemma split_invalid s : ~ well_formed_utf8 s -> str_split_by_char s = Some [].
Proof. intros H. unfold str_split_by_char. destruct (not_valid s H) as [-> _]. reflexivity. Qed.

Lemma decode_spec c cs p ps s : spells (c :: cs) (p :: ps) s ->
  decode_unicode_char s = (c, length p).
Proof.
  intros H. assert (Hv : is_valid s = true) by (apply is_valid_spec; unfold well_formed_utf8; eauto).
  unfold decode_unicode_char. destruct H as [HF ->]. inversion HF as [|? ? ? ? Hc HF']; subst.
  cbn [concat] in *. rewrite Hv, (validate_encodes c p _ Hc). cbn [negb].
  pose proof (encodes_ne c p Hc). destruct p as [|b p]; [congruence|].
  cbn [app length]. f_equal. rewrite app_length. cbn [length]. lia.
Qed.

Lemma decode_invalid s : ~ well_formed_utf8 s -> decode_unicode_char s = (0xFFFD, 1%nat).
Proof.
  intros H. destruct (not_valid s H) as [_ Hv]. unfold decode_unicode_char.
  destruct s as [|b s]; [discriminate|]. rewrite Hv. reflexivity.
Qed.

Lemma spells_one c p : encodes c p -> spells [c] [p] p.
Proof. intros H. split; [constructor; [exact H|constructor]|simpl; rewrite app_nil_r; reflexivity]. Qed.

Lemma bad_long : exists p, encodes 0xFFFD p /\ length p = 3%nat.
Proof.
  exists [0xEF; 0xBF; 0xBD]. split; [|reflexivity].
  apply append_encodes. reflexivity.
Qed.

Lemma single_spec c p : encodes c p -> decode_single_unicode_char p = (true, c).
Proof.
  intros H. unfold decode_single_unicode_char.
  rewrite (decode_spec c [] p [] p (spells_one c p H)). rewrite Nat.eqb_refl. cbn [negb andb].
  destruct (N.eqb_spec c kBadUTF8Char) as [->|]; [|reflexivity]. cbn [negb orb].
  destruct bad_long as (q & Hq & Hl). rewrite (encodes_fun _ _ _ H Hq), Hl. reflexivity.
Qed.

Lemma single_true s c : decode_single_unicode_char s = (true, c) -> encodes c s.
Proof.
  intros H. destruct s as [|b s]; [discriminate|].
  destruct (is_valid (b :: s)) eqn:Ev.
  - apply is_valid_spec in Ev as (cs & ps & Hs).
    destruct Hs as [HF E]. destruct HF as [|d p cs ps Hd HF]; [discriminate|].
    assert (Hsp : spells (d :: cs) (p :: ps) (b :: s)) by (split; auto).
    unfold decode_single_unicode_char in H. rewrite (decode_spec _ _ _ _ _ Hsp) in H.
    destruct (Nat.eqb_spec (length p) (length (b :: s))) as [El|El]; [|discriminate].
    cbn [negb andb] in H. injection H as _ <-.
    rewrite E in El |- *. simpl in El |- *. rewrite app_length in El.
    assert (En : concat ps = []) by (destruct (concat ps); auto; simpl in El; lia).
    rewrite En, app_nil_r. exact Hd.
  - unfold decode_single_unicode_char, decode_unicode_char in H. rewrite Ev in H. cbn [negb] in H.
    unfold kBadUTF8Char in H. rewrite N.eqb_refl in H. cbn [negb] in H. rewrite andb_false_r in H.
    rewrite N.eqb_refl in H. cbn in H. rewrite andb_false_r in H. discriminate.
Qed.

Lemma single_false s v : decode_single_unicode_char s = (false, v) ->
  v = 0xFFFD /\ ~ exists c, encodes c s.
Proof.
  intros H. split.
  - unfold decode_single_unicode_char in H. destruct (decode_unicode_char s) as [c n] eqn:E.
    injection H as H1 <-. unfold kBadUTF8Char in *.
    destruct (Nat.eqb_spec n (length s)) as [En|En]; cbn [negb andb] in *.
    + destruct (N.eqb_spec c 0xFFFD); auto; discriminate.
    + destruct (N.eqb_spec c 0xFFFD); auto.
  - intros [c Hc]. apply single_spec in Hc. rewrite H in Hc. discriminate.
Qed.

Lemma to_unicode_spec cs ps s : spells cs ps s -> str_split_to_unicode s = Some cs.
Proof.
  intros H. unfold str_split_to_unicode. rewrite (split_spec _ _ _ H). f_equal.
  destruct H as [HF _]. induction HF as [|c p cs ps Hc HF IH]; auto. cbn [map].
  rewrite (single_spec c p Hc), IH. reflexivity.
Qed.

Lemma encode_spec c bs : encode_unicode_char c = Some bs <-> encodes c bs.
Proof. split; [apply append_encodes|apply encodes_append]. Qed.

Lemma encode_throws c : encode_unicode_char c = None <-> ~ scalar c.
Proof.
  unfold encode_unicode_char, append. destruct (valid_cp c) eqn:E; cbn [negb].
  - apply valid_cp_scalar in E. split; [|contradiction].
    destruct (c <? 0x80); [discriminate|]. destruct (c <? 0x800); [discriminate|].
    destruct (c <? 0x10000); discriminate.
  - split; auto. intros _ H. apply valid_cp_scalar in H. congruence.
Qed.

Lemma scalar_encodes c : scalar c -> exists bs, encodes c bs.
Proof.
  intros H. destruct (append c) as [bs|] eqn:E.
  - exists bs. apply append_encodes; auto.
  - exfalso. apply encode_throws in E. auto.
Qed.

Lemma decode_total cs : Forall scalar cs -> exists ps, spells cs ps (concat ps).
Proof.
  induction 1 as [|c cs Hc HF (ps & IH & _)]; [exists []; split; auto|].
  destruct (scalar_encodes c Hc) as [bs Hb]. exists (bs :: ps). split; auto.
Qed.

Lemma split_never_throws s : exists ps, str_split_by_char s = Some ps.
Proof.
  destruct (is_valid s) eqn:E.
  - apply is_valid_spec in E as (cs & ps & H). exists ps. eapply split_spec; eauto.
  - exists []. apply split_invalid. intros H. apply is_valid_spec in H. congruence.
Qed.

Lemma Forall2_len {A B} (R : A -> B -> Prop) l m : Forall2 R l m -> length l = length m.
Proof. induction 1; simpl; auto. Qed.

Lemma split_all cs ps s : spells cs ps s ->
  str_split_by_char s = Some ps /\ concat ps = s /\ length ps = length cs /\
  str_split_to_unicode s = Some cs.
Proof.
  intros H. split; [exact (split_spec cs ps s H)|].
  split; [symmetry; exact (proj2 H)|]. split; [symmetry; exact (Forall2_len _ _ _ (proj1 H))|].
  exact (to_unicode_spec cs ps s H).
Qed.
