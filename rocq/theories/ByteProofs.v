(** Byte mode against code-point mode. *)
From Verif Require Import Base RuleModel RuleSpec RuleProofs RewriteProofs VisualModel VisualSpec VisualProofs
  ScriptData RegexModel RegexProofs WellformedModel ScriptModel Utf8Model Utf8Spec Utf8Arith
  Utf8Proofs ByteModel ByteSpec.

(** A character of a table or text: a scalar value other than 0, or a
    generated symbol. *)
Definition good_char (c : N) : Prop := (scalar c /\ c <> 0%N) \/ (0x110000 <= c)%N.
Definition good (s : str) : Prop := Forall good_char s.

Lemma labels_scalar c : scalar c -> encodes c (labels c).
Proof.
  intros H. unfold labels. destruct (append c) as [b|] eqn:E.
  - apply append_encodes; auto.
  - exfalso. apply (proj1 (encode_throws c)) in E. auto.
Qed.

Lemma labels_gensym c : (0x110000 <= c)%N -> labels c = [c].
Proof.
  intros H. unfold labels. destruct (append c) as [b|] eqn:E; auto.
  apply append_encodes in E as [Hw Hv]. apply wf_scalar in Hw. rewrite Hv in Hw.
  unfold scalar in Hw. lia.
Qed.

Lemma encodes_lead c bs : encodes c bs ->
  exists b tl, bs = b :: tl /\ is_trail b = false /\ Forall (fun x => is_trail x = true) tl /\ (b < 256)%N.
Proof.
  intros [Hw _].
  assert (T : forall x, in_range 128 191 x -> is_trail x = true) by (intros; apply trail_spec; auto).
  assert (L : forall x, (x < 128 \/ 191 < x)%N -> is_trail x = false).
  { intros x Hx. destruct (is_trail x) eqn:E; auto. apply trail_spec in E. unfold in_range in E. lia. }
  destruct Hw; unfold in_range in *;
    (eexists; eexists; split; [reflexivity|]; split; [apply L; lia|split; [|lia]];
     repeat (constructor; [apply T; unfold in_range; lia|]); constructor).
Qed.

Lemma labels_lead c : good_char c ->
  exists b tl, labels c = b :: tl /\ is_trail b = false /\ Forall (fun x => is_trail x = true) tl.
Proof.
  intros [[H _]|H].
  - destruct (encodes_lead c (labels c) (labels_scalar c H)) as (b & tl & H1 & H2 & H3 & _). eauto.
  - exists c, []. rewrite (labels_gensym c H). split; auto. split; auto.
    destruct (is_trail c) eqn:E; auto. apply trail_spec in E. unfold in_range in E. lia.
Qed.

Lemma labels_ne c : good_char c -> labels c <> [].
Proof. intros H. destruct (labels_lead c H) as (b & tl & -> & _). discriminate. Qed.

Lemma labels_prefix_free c d x y : good_char c -> good_char d -> labels c ++ x = labels d ++ y ->
  c = d /\ x = y.
Proof.
  intros [[Hc Hc0]|Hc] [[Hd Hd0]|Hd] E.
  - destruct (encodes_prefix_free c d _ _ x y (labels_scalar c Hc) (labels_scalar d Hd) E) as (-> & _ & ->). auto.
  - exfalso. destruct (encodes_lead c _ (labels_scalar c Hc)) as (b & tl & Eb & _ & _ & Hb).
    rewrite Eb, (labels_gensym d Hd) in E. cbn [app] in E. injection E as E _. lia.
  - exfalso. destruct (encodes_lead d _ (labels_scalar d Hd)) as (b & tl & Eb & _ & _ & Hb).
    rewrite Eb, (labels_gensym c Hc) in E. cbn [app] in E. injection E as E _. lia.
  - rewrite (labels_gensym c Hc), (labels_gensym d Hd) in E. cbn [app] in E. injection E; auto.
Qed.

Lemma bytes_app a b : bytes (a ++ b) = bytes a ++ bytes b.
Proof. apply flat_map_app. Qed.
Lemma bytes_cons c s : bytes (c :: s) = labels c ++ bytes s.
Proof. reflexivity. Qed.

Lemma good_cons c s : good (c :: s) <-> good_char c /\ good s.
Proof. unfold good. split; [intros H; inversion H; auto|intros []; constructor; auto]. Qed.
Lemma good_app a b : good (a ++ b) <-> good a /\ good b.
Proof. unfold good. apply Forall_app. Qed.

Lemma bytes_prefix l : forall s t, good l -> good s -> bytes s = bytes l ++ t ->
  exists u, s = l ++ u /\ t = bytes u.
Proof.
  induction l as [|c l IH]; intros s t Hl Hs E.
  - exists s. auto.
  - apply good_cons in Hl as [Hc Hl]. destruct s as [|d s].
    + exfalso. rewrite bytes_cons in E. pose proof (labels_ne c Hc).
      destruct (labels c); [congruence|discriminate].
    + apply good_cons in Hs as [Hd Hs]. rewrite !bytes_cons, <- app_assoc in E.
      apply labels_prefix_free in E as [-> E]; auto.
      destruct (IH s t Hl Hs E) as (u & -> & ->). exists u. auto.
Qed.

Lemma bytes_inj a b : good a -> good b -> bytes a = bytes b -> a = b.
Proof.
  intros Ha Hb E. rewrite <- (app_nil_r (bytes b)) in E.
  destruct (bytes_prefix b a [] Hb Ha E) as (u & -> & Eu). destruct u as [|c u].
  - rewrite app_nil_r; auto.
  - apply good_app in Ha as [_ Ha]. apply good_cons in Ha as [Hc _]. pose proof (labels_ne c Hc).
    rewrite bytes_cons in Eu. destruct (labels c); [congruence|discriminate].
Qed.

Lemma bytes_split s : forall a l b, good s -> good l -> l <> [] -> bytes s = a ++ bytes l ++ b ->
  exists x y, s = x ++ l ++ y /\ a = bytes x /\ b = bytes y.
Proof.
  induction s as [|c s IH]; intros a l b Hs Hl Hne E.
  - exfalso. destruct l as [|d l]; [congruence|]. apply good_cons in Hl as [Hd _].
    pose proof (labels_ne d Hd). rewrite bytes_cons in E. destruct (labels d); [congruence|].
    destruct a; discriminate.
  - destruct a as [|x a].
    + simpl app in E at 1. destruct (bytes_prefix l (c :: s) b Hl Hs E) as (u & E1 & E2).
      exists [], u. auto.
    + apply good_cons in Hs as [Hc Hs]. destruct (labels_lead c Hc) as (b0 & tl & El & Hb & Htl).
      destruct l as [|d l]; [congruence|].
      pose proof Hl as Hl'. apply good_cons in Hl' as [Hd _].
      destruct (labels_lead d Hd) as (b1 & tl1 & El1 & Hb1 & _).
      rewrite bytes_cons, El in E. cbn [app] in E.
      assert (b0 = x /\ tl ++ bytes s = a ++ bytes (d :: l) ++ b) as [<- E']
        by (split; [congruence|exact (f_equal (@List.tl N) E)]).
      clear E. rename E' into E.
      destruct (le_lt_dec (length tl) (length a)) as [Hle|Hlt].
      * assert (Ha : exists a', a = tl ++ a').
        { exists (skipn (length tl) a).
          assert (F : firstn (length tl) a = tl).
          { apply (f_equal (firstn (length tl))) in E. rewrite !firstn_app in E.
            replace (length tl - length a) with 0 in E by lia. rewrite Nat.sub_diag in E.
            simpl in E. rewrite !app_nil_r, firstn_all in E. auto. }
          rewrite <- F at 1. rewrite firstn_skipn. reflexivity. }
        destruct Ha as [a' ->]. rewrite <- app_assoc in E. apply app_inv_head in E.
        destruct (IH a' (d :: l) b Hs Hl Hne E) as (x & y & -> & -> & ->).
        exists (c :: x), y. rewrite bytes_cons, El. auto.
      * exfalso. rewrite bytes_cons, El1 in E. cbn [app] in E.
        apply (f_equal (fun z => nth_error z (length a))) in E.
        rewrite nth_error_app1 in E by auto. rewrite nth_error_app2 in E by lia.
        rewrite Nat.sub_diag in E. cbn [nth_error] in E. apply nth_error_In in E.
        rewrite Forall_forall in Htl. apply Htl in E. congruence.
Qed.

Lemma bytes_prefixb l s : good l -> good s -> prefixb (bytes l) (bytes s) = prefixb l s.
Proof.
  intros Hl Hs. destruct (prefixb l s) eqn:E.
  - apply prefixb_spec in E as [t ->]. apply prefixb_spec. exists (bytes t). apply bytes_app.
  - apply prefixb_false. apply prefixb_false in E. intros [t Et]. apply E.
    destruct (bytes_prefix l s t Hl Hs Et) as (u & -> & _). exists u; auto.
Qed.

Lemma bytes_infixb l s : good l -> good s -> infixb (bytes l) (bytes s) = infixb l s.
Proof.
  intros Hl Hs. destruct (infixb l s) eqn:E.
  - apply infixb_spec in E as (a & b & ->). apply infixb_spec. exists (bytes a), (bytes b).
    rewrite !bytes_app. reflexivity.
  - apply infixb_false. apply infixb_false in E. intros (a & b & Et). apply E.
    destruct l as [|c l]; [exists [], s; reflexivity|].
    destruct (bytes_split s a (c :: l) b Hs Hl ltac:(discriminate) Et) as (x & y & -> & _).
    exists x, y; auto.
Qed.

Lemma bytes_suffixb k o : good k -> k <> [] -> good o ->
  prefixb (rev (bytes k)) (rev (bytes o)) = prefixb (rev k) (rev o).
Proof.
  intros Hk Hne Ho. destruct (prefixb (rev k) (rev o)) eqn:E.
  - apply prefixb_spec in E as [t Et]. apply prefixb_spec.
    apply (f_equal (@rev N)) in Et. rewrite rev_involutive, rev_app_distr, rev_involutive in Et.
    subst o. rewrite bytes_app, rev_app_distr. eexists; reflexivity.
  - apply prefixb_false. apply prefixb_false in E. intros [t Et]. apply E.
    apply (f_equal (@rev N)) in Et. rewrite rev_involutive, rev_app_distr, rev_involutive in Et.
    assert (E2 : bytes o = rev t ++ bytes k ++ []) by (rewrite app_nil_r; exact Et).
    destruct (bytes_split o (rev t) k [] Ho Hk Hne E2) as (x & y & -> & _ & Ey).
    destruct y as [|c y].
    + rewrite app_nil_r, rev_app_distr. exists (rev x); auto.
    + exfalso. apply good_app in Ho as [_ Ho]. apply good_app in Ho as [_ Ho].
      apply good_cons in Ho as [Hc _]. pose proof (labels_ne c Hc). rewrite bytes_cons in Ey.
      destruct (labels c); [congruence|discriminate].
Qed.

Lemma bytes_length_pos l : good l -> l <> [] -> bytes l <> [].
Proof.
  destruct l as [|c l]; [congruence|]. intros H _. apply good_cons in H as [Hc _].
  pose proof (labels_ne c Hc). rewrite bytes_cons. destruct (labels c); [congruence|discriminate].
Qed.

Definition good_rules (rs : list rule) : Prop :=
  forall r, In r rs -> good (lhs r) /\ good (rhs r) /\ lhs r <> [].

Lemma bytes_skipn l t : skipn (length (bytes l)) (bytes (l ++ t)) = bytes t.
Proof.
  rewrite bytes_app. rewrite skipn_app, skipn_all, Nat.sub_diag. reflexivity.
Qed.

(** ** One pass *)
Section Pass.
  Variable rs : list rule.
  Variable lc rc lcb rcb : str -> bool.
  Hypothesis Hrs : good_rules rs.
  Hypothesis Hlc : forall o, good o -> lcb (rev (bytes o)) = lc (rev o).
  Hypothesis Hrc : forall s, good s -> rcb (bytes s) = rc s.

  Lemma applicable_bytes s r : In r rs -> good s ->
    applicable rcb (bytes s) (byte_rule r) = applicable rc s r.
  Proof.
    intros Hr Hs. destruct (Hrs r Hr) as (Hl & _ & _). unfold applicable. cbn [lhs byte_rule].
    rewrite bytes_prefixb by auto. destruct (prefixb (lhs r) s) eqn:E; auto. cbn [andb].
    apply prefixb_spec in E as [t ->]. rewrite bytes_skipn.
    rewrite skipn_app, skipn_all, Nat.sub_diag. simpl. apply Hrc. apply good_app in Hs; tauto.
  Qed.

  Lemma filter_bytes s : good s ->
    filter (applicable rcb (bytes s)) (byte_rules rs) = byte_rules (filter (applicable rc s) rs).
  Proof.
    intros Hs. assert (H : forall r, In r rs -> applicable rcb (bytes s) (byte_rule r) = applicable rc s r)
      by (intros; apply applicable_bytes; auto).
    clear Hrs Hlc. induction rs as [|r l IH]; auto. unfold byte_rules in *. cbn [map filter].
    rewrite (H r (or_introl eq_refl)). rewrite IH by (intros; apply H; right; auto).
    destruct (applicable rc s r); reflexivity.
  Qed.

  Lemma trail_no_match tl s : Forall (fun x => is_trail x = true) tl -> forall o,
    scan (byte_rules rs) lcb rcb o 0 (tl ++ s) = scan (byte_rules rs) lcb rcb (rev tl ++ o) 0 s.
  Proof.
    induction tl as [|b tl IH]; intros H o; auto. inversion H; subst. cbn [app].
    rewrite scan_cons. assert (E : filter (applicable rcb (b :: tl ++ s)) (byte_rules rs) = []).
    { apply filter_all_false. intros r Hr. apply in_map_iff in Hr as (q & <- & Hq).
      destruct (Hrs q Hq) as (Hl & _ & Hne). unfold applicable. cbn [lhs byte_rule].
      destruct (lhs q) as [|c l]; [congruence|]. apply good_cons in Hl as [Hc _].
      destruct (labels_lead c Hc) as (b0 & t0 & El & Hb0 & _). rewrite bytes_cons, El.
      cbn [app prefixb]. destruct (N.eqb_spec b0 b); [congruence|reflexivity]. }
    rewrite E, IH by auto. cbn [rev]. rewrite <- app_assoc. reflexivity.
  Qed.

  Lemma scan_bytes n : forall s o, length s <= n -> good s -> good o ->
    scan (byte_rules rs) lcb rcb (rev (bytes o)) 0 (bytes s)
    = map bytes (scan rs lc rc (rev o) 0 s).
  Proof.
    induction n as [|n IH]; intros s o Hn Hs Ho.
    - destruct s; [|simpl in Hn; lia]. simpl. rewrite !rev_involutive. reflexivity.
    - destruct s as [|c s]; [simpl; rewrite !rev_involutive; reflexivity|].
      pose proof Hs as Hs'. apply good_cons in Hs' as [Hc Hs'].
      destruct (labels_lead c Hc) as (b & tl & El & Hb & Htl).
      assert (Ecopy : scan (byte_rules rs) lcb rcb (b :: rev (bytes o)) 0 (tl ++ bytes s)
                      = map bytes (scan rs lc rc (c :: rev o) 0 s)).
      { rewrite trail_no_match by auto.
        replace (rev tl ++ b :: rev (bytes o)) with (rev (bytes (o ++ [c]))).
        - replace (c :: rev o) with (rev (o ++ [c])) by (rewrite rev_app_distr; reflexivity).
          apply IH; auto; [simpl in Hn; lia|]. apply good_app; split; auto. apply good_cons; split; auto.
          constructor.
        - rewrite bytes_app, rev_app_distr. cbn [bytes flat_map]. rewrite app_nil_r, El. cbn [rev].
          rewrite <- app_assoc. reflexivity. }
      rewrite (scan_cons rs). pose proof (filter_bytes (c :: s) Hs) as Ef.
      rewrite bytes_cons, El in Ef |- *. cbn [app] in Ef |- *.
      rewrite (scan_cons (byte_rules rs)), Ef.
      assert (Hms : forall r, In r (filter (applicable rc (c :: s)) rs) ->
                     In r rs /\ exists t, c :: s = lhs r ++ t).
      { intros r Hr. apply filter_In in Hr as [H1 H2]. split; auto. unfold applicable in H2.
        apply andb_true_iff in H2 as [H2 _]. apply prefixb_spec in H2. exact H2. }
      destruct (filter (applicable rc (c :: s)) rs) as [|m ms]; [exact Ecopy|].
      cbn [byte_rules map]. rewrite Hlc by auto. destruct (lc (rev o)); [|exact Ecopy].
      fold (byte_rules ms). change (byte_rule m :: byte_rules ms) with (byte_rules (m :: ms)).
      revert Hms. generalize (m :: ms). clear Ef Ecopy m ms. intros ms Hms.
      induction ms as [|r ms IHms]; auto. unfold byte_rules. cbn [map flat_map]. rewrite map_app.
      f_equal; [|apply IHms; intros; apply Hms; right; auto].
      destruct (Hms r (or_introl eq_refl)) as [Hr [t Et]]. destruct (Hrs r Hr) as (Hl & Hrh & Hne).
      destruct (lhs r) as [|c0 l] eqn:Elhs; [congruence|]. cbn [app] in Et. injection Et as <- ->.
      cbn [byte_rule lhs rhs]. rewrite Elhs.
      assert (E1 : skipn (length (c :: l) - 1) (l ++ t) = t).
      { cbn [length]. rewrite Nat.sub_succ, Nat.sub_0_r, skipn_app, skipn_all, Nat.sub_diag. reflexivity. }
      assert (E2 : skipn (length (bytes (c :: l)) - 1) (tl ++ bytes (l ++ t)) = bytes t).
      { rewrite bytes_cons, El, bytes_app. cbn [app length]. rewrite Nat.sub_succ, Nat.sub_0_r.
        rewrite app_assoc, skipn_app, skipn_all, Nat.sub_diag. reflexivity. }
      rewrite E1, E2.
      replace (rev (bytes (rhs r)) ++ rev (bytes o)) with (rev (bytes (o ++ rhs r)))
        by (rewrite bytes_app, rev_app_distr; reflexivity).
      replace (rev (rhs r) ++ rev o) with (rev (o ++ rhs r)) by (rewrite rev_app_distr; reflexivity).
      apply good_cons in Hs as [_ Hs]. apply good_app in Hs as [_ Ht].
      apply IH; auto.
      + simpl in Hn. rewrite app_length in Hn. lia.
      + apply good_app; auto.
  Qed.
End Pass.

(** ** Alphabets *)
Lemma BYTE_spec b : In b BYTE <-> (1 <= b < 256)%N.
Proof.
  unfold BYTE. rewrite in_map_iff. split.
  - intros (n & <- & H). apply in_seq in H. lia.
  - intros H. exists (N.to_nat b). split; [lia|]. apply in_seq. lia.
Qed.

Lemma labels_byte c : scalar c -> c <> 0%N -> over BYTE (labels c) = true.
Proof.
  intros Hc H0. destruct (labels_scalar c Hc) as [Hw Hv]. unfold over. apply forallb_forall.
  intros b Hb. apply memN_spec, BYTE_spec. revert Hb Hv.
  destruct Hw; unfold in_range, value in *; cbn [In]; intros Hb Hv; intuition (subst; lia).
Qed.

(** Plain texts: no generated symbols. *)
Lemma plain_good s : plain s -> good s.
Proof. unfold plain, good. intros H. eapply Forall_impl; [|exact H]. intros c Hc. left; auto. Qed.

Lemma plain_byte s : plain s -> over BYTE (bytes s) = true.
Proof.
  induction 1 as [|c s [H1 H2] HF IH]; auto. rewrite bytes_cons, over_app, labels_byte, IH by auto.
  reflexivity.
Qed.

Lemma plain_good_rules rs : plain_rules rs -> good_rules rs.
Proof.
  intros H r Hr. destruct (H r Hr) as (H1 & H2 & H3).
  split; [apply plain_good; auto|]. split; [apply plain_good; auto|auto].
Qed.

(** The result of a pass over good text is good. *)
Lemma scan_good rs lc rc : good_rules rs -> forall n s o t, length s <= n -> good s -> good (rev o) ->
  In t (scan rs lc rc o 0 s) -> good t.
Proof.
  intros Hrs n. induction n as [|n IH]; intros s o t Hn Hs Ho Ht.
  - destruct s; [|simpl in Hn; lia]. simpl in Ht. destruct Ht as [<-|[]]; auto.
  - destruct s as [|c s]; [simpl in Ht; destruct Ht as [<-|[]]; auto|].
    apply good_cons in Hs as [Hc Hs]. simpl in Hn.
    assert (Hcopy : In t (scan rs lc rc (c :: o) 0 s) -> good t).
    { intros H. apply (IH s (c :: o) t); auto; [lia|]. cbn [rev]. apply good_app; split; auto.
      apply good_cons; split; auto. constructor. }
    rewrite scan_cons in Ht.
    destruct (filter (applicable rc (c :: s)) rs) as [|m ms] eqn:Ef; auto.
    destruct (lc o); auto. apply in_flat_map in Ht as (r & Hr & Ht). rewrite <- Ef in Hr.
    apply filter_In in Hr as [Hr _]. destruct (Hrs r Hr) as (Hl & Hrh & Hne).
    apply (IH (skipn (length (lhs r) - 1) s) (rev (rhs r) ++ o) t); auto.
    + rewrite skipn_length. lia.
    + unfold good in *. rewrite Forall_forall in *. intros x Hx. apply Hs.
      rewrite <- (firstn_skipn (length (lhs r) - 1) s). apply in_or_app; auto.
    + rewrite rev_app_distr, rev_involutive. apply good_app; auto.
Qed.

Lemma map_flat_map_bytes (f : str -> list str) (g : str -> list str) l :
  (forall t, In t l -> f (bytes t) = map bytes (g t)) ->
  flat_map f (map bytes l) = map bytes (flat_map g l).
Proof.
  induction l as [|t l IH]; intros H; auto. cbn [map flat_map]. rewrite map_app.
  rewrite (H t (or_introl eq_refl)), IH; auto. intros; apply H; right; auto.
Qed.

(** [fb] does on bytes what [f] does on characters, for texts in [D]; [f]
    stays in [D]. *)
Definition simulates (D : str -> Prop) (fb f : fst_t) : Prop :=
  forall s, D s -> fb (bytes s) = map bytes (f s) /\ forall t, In t (f s) -> D t.

Lemma simulates_chain D lb l : Forall2 (simulates D) lb l ->
  simulates D (run_chain lb) (run_chain l).
Proof.
  intros H. induction H as [|fb f lb l Hf HF IH]; intros s Hs.
  - simpl. split; auto. intros t [<-|[]]; auto.
  - cbn [run_chain]. destruct (Hf s Hs) as [H1 H2]. rewrite H1. split.
    + apply map_flat_map_bytes. intros t Ht. apply (IH t). auto.
    + intros t Ht. apply in_flat_map in Ht as (u & Hu & Ht). apply (IH u); auto.
Qed.

(** [sigmab] accepts the bytes of those texts of [D] that are over [sigma]. *)
Definition alphabets (D : str -> Prop) (sigma sigmab : list N) : Prop :=
  (forall s, D s -> good s /\ over sigmab (bytes s) = over sigma s) /\
  (forall s, over sigma s = true -> D s).

Lemma rewrite_ctx_simulates D rs lc rc lcb rcb sigma sigmab :
  good_rules rs ->
  (forall o, good o -> lcb (rev (bytes o)) = lc (rev o)) ->
  (forall s, good s -> rcb (bytes s) = rc s) ->
  alphabets D sigma sigmab ->
  (forall r, In r rs -> over sigma (rhs r) = true) ->
  simulates D (rewrite_ctx (byte_rules rs) sigmab lcb rcb) (rewrite_ctx rs sigma lc rc).
Proof.
  intros Hrs Hlc Hrc [HD Hsub] Hov s Hs. destruct (HD s Hs) as [Hg Hb]. unfold rewrite_ctx.
  rewrite Hb. destruct (over sigma s) eqn:Ho; [|split; [reflexivity|intros t []]]. split.
  - exact (scan_bytes rs lc rc lcb rcb Hrs Hlc Hrc (length s) s [] (le_n _) Hg (Forall_nil _)).
  - intros t Ht. apply Hsub. assert (Hne : nonempty_lhs rs) by (intros r Hr; apply Hrs; auto).
    apply scan_spec in Ht as (gs & Hgs & ->); auto. change (rev (@nil N) ++ outs gs) with (outs gs).
    apply ctx_cut_facts in Hgs as [H1 H2]. unfold over, outs. apply forallb_forall.
    intros c Hc. apply in_flat_map in Hc as (g & Hg' & Hc). destruct g as [d|r]; simpl in Hc.
    + destruct Hc as [<-|[]]. apply H2 in Hg'. unfold over in Ho. rewrite forallb_forall in Ho. auto.
    + apply H1 in Hg'. specialize (Hov r Hg'). unfold over in Hov. rewrite forallb_forall in Hov. auto.
Qed.

Lemma sigma_star_simulates D sigma sigmab : alphabets D sigma sigmab ->
  simulates D (sigma_star sigmab) (sigma_star sigma).
Proof.
  intros [HD Hsub] s Hs. destruct (HD s Hs) as [_ Hb]. unfold sigma_star. rewrite Hb.
  destruct (over sigma s); (split; [reflexivity|]); intros t Ht; simpl in Ht;
    [destruct Ht as [<-|[]]; auto|contradiction].
Qed.

(** ** Partitioning *)
Definition gr (r : rule) : Prop := good (lhs r) /\ good (rhs r).

Lemma good_rules_gr rs : good_rules rs -> Forall gr rs.
Proof. intros H. apply Forall_forall. intros r Hr. destruct (H r Hr) as (? & ? & _). split; auto. Qed.

Lemma str_eqb_bytes a b : good a -> good b -> str_eqb (bytes a) (bytes b) = str_eqb a b.
Proof.
  intros Ha Hb. destruct (str_eqb a b) eqn:E.
  - apply str_eqb_eq in E. subst. apply str_eqb_refl.
  - apply str_eqb_neq. apply str_eqb_neq in E. intros H. apply E. apply bytes_inj; auto.
Qed.

Lemma rule_eqb_bytes a b : gr a -> gr b -> rule_eqb (byte_rule a) (byte_rule b) = rule_eqb a b.
Proof.
  intros [H1 H2] [H3 H4]. unfold rule_eqb. cbn [lhs rhs byte_rule].
  rewrite !str_eqb_bytes by auto. reflexivity.
Qed.

Lemma mem_rule_bytes r l : gr r -> Forall gr l -> mem_rule (byte_rule r) (byte_rules l) = mem_rule r l.
Proof.
  intros Hr Hl. induction Hl as [|x l Hx HF IH]; auto. unfold mem_rule, byte_rules in *. cbn [map existsb].
  rewrite rule_eqb_bytes, IH by auto. reflexivity.
Qed.

Lemma add_nodes_bytes rs : forall acc, Forall gr acc -> Forall gr rs ->
  add_nodes (byte_rules acc) (byte_rules rs) = byte_rules (add_nodes acc rs) /\
  Forall gr (add_nodes acc rs).
Proof.
  induction rs as [|r rs IH]; intros acc Ha Hr; [auto|]. inversion Hr; subst.
  change (byte_rules (r :: rs)) with (byte_rule r :: byte_rules rs). cbn [add_nodes].
  rewrite mem_rule_bytes by auto. destruct (mem_rule r acc); [apply IH; auto|].
  replace (byte_rules acc ++ [byte_rule r]) with (byte_rules (acc ++ [r]))
    by (unfold byte_rules; rewrite map_app; reflexivity).
  apply IH; auto. apply Forall_app; auto.
Qed.

Definition byte_edge (e : rule * rule) : rule * rule := (byte_rule (fst e), byte_rule (snd e)).
Definition ge (e : rule * rule) : Prop := gr (fst e) /\ gr (snd e).

Lemma filter_map_eq {A B} (g : A -> B) (p : A -> bool) (q : B -> bool) l :
  (forall x, In x l -> q (g x) = p x) -> filter q (map g l) = map g (filter p l).
Proof.
  induction l as [|x l IH]; intros H; auto. cbn [map filter]. rewrite (H x (or_introl eq_refl)).
  rewrite IH by (intros; apply H; right; auto). destruct (p x); reflexivity.
Qed.

Lemma list_prod_bytes a b : list_prod (byte_rules a) (byte_rules b) = map byte_edge (list_prod a b).
Proof.
  unfold byte_rules. induction a as [|x a IH]; auto. cbn [map list_prod]. rewrite IH, map_app, !map_map.
  reflexivity.
Qed.

Lemma lhs_edges_bytes rs : Forall gr rs ->
  lhs_edges (byte_rules rs) = map byte_edge (lhs_edges rs) /\ Forall ge (lhs_edges rs).
Proof.
  intros H. rewrite Forall_forall in H. unfold lhs_edges.
  assert (G : forall e, In e (list_prod rs rs) -> ge e).
  { intros [a b] He. apply in_prod_iff in He as []. split; apply H; auto. }
  rewrite list_prod_bytes. split.
  - apply filter_map_eq. intros [a b] He. apply G in He as [[H1 H2] [H3 H4]].
    cbn [fst snd byte_edge] in *. unfold match_lhs_in_lhs. cbn [lhs byte_rule].
    rewrite rule_eqb_bytes by (split; auto). rewrite bytes_infixb by auto. reflexivity.
  - apply Forall_forall. intros e He. apply filter_In in He as [He _]. auto.
Qed.

Definition byte_graph (g : digraph) : digraph := Digraph (byte_rules (nodes g)) (map byte_edge (edges g)).
Definition gg (g : digraph) : Prop := Forall gr (nodes g) /\ Forall ge (edges g).

Lemma build_graph_bytes rs : Forall gr rs ->
  build_graph (byte_rules rs) = byte_graph (build_graph rs) /\ gg (build_graph rs).
Proof.
  intros H. destruct (add_nodes_bytes rs [] (Forall_nil _) H) as [H1 H2].
  destruct (lhs_edges_bytes rs H) as [H3 H4]. unfold build_graph, byte_graph, gg. cbn [nodes edges].
  rewrite <- H3, <- H1. auto.
Qed.

Lemma leaves_bytes g : gg g -> leaves (byte_graph g) = byte_rules (leaves g) /\ Forall gr (leaves g).
Proof.
  intros [H1 H2]. rewrite Forall_forall in H1, H2. unfold leaves. split.
  - apply filter_map_eq. intros n Hn. f_equal. unfold out_degree. cbn [byte_graph edges].
    rewrite (filter_map_eq byte_edge (fun e => rule_eqb (fst e) n)).
    + apply map_length.
    + intros e He. destruct (H2 e He) as [G _]. cbn [byte_edge fst]. apply rule_eqb_bytes; auto.
  - apply Forall_forall. intros n Hn. apply filter_In in Hn as [Hn _]. auto.
Qed.

Lemma remove_nodes_bytes g ls : gg g -> Forall gr ls ->
  remove_nodes (byte_graph g) (byte_rules ls) = byte_graph (remove_nodes g ls) /\ gg (remove_nodes g ls).
Proof.
  intros [H1 H2] Hl. rewrite Forall_forall in H1, H2. unfold remove_nodes, byte_graph, gg.
  cbn [nodes edges]. split.
  - f_equal.
    + apply filter_map_eq. intros n Hn. rewrite mem_rule_bytes; auto.
    + apply filter_map_eq. intros e He. destruct (H2 e He). cbn [byte_edge fst snd].
      rewrite !mem_rule_bytes; auto.
  - split; apply Forall_forall; intros x Hx; apply filter_In in Hx as [Hx _]; auto.
Qed.

Definition byte_pres (p : pres) : pres :=
  match p with Layers ls => Layers (map byte_rules ls) | CycleError => CycleError | OutOfFuel => OutOfFuel end.

Lemma peel_step fuel g : nodes g <> [] ->
  peel (S fuel) g = match leaves g with
                    | [] => CycleError
                    | _ => match peel fuel (remove_nodes g (leaves g)) with
                           | Layers rest => Layers (leaves g :: rest)
                           | e => e
                           end
                    end.
Proof.
  intros H. cbn [peel]. destruct (nodes g); [congruence|]. destruct (leaves g); reflexivity.
Qed.

Lemma peel_bytes fuel : forall g, gg g -> peel fuel (byte_graph g) = byte_pres (peel fuel g).
Proof.
  induction fuel as [|fuel IH]; intros g Hg.
  - destruct g as [[|n ns] es]; reflexivity.
  - destruct (nodes g) as [|n ns] eqn:En.
    + destruct g as [ns es]. cbn [nodes] in En. subst ns. reflexivity.
    + rewrite !peel_step; [|congruence|unfold byte_graph, byte_rules; cbn [nodes]; rewrite En; discriminate].
      destruct (leaves_bytes g Hg) as [HL HG]. destruct (remove_nodes_bytes g (leaves g) Hg HG) as [HR HG'].
      rewrite HL, HR, IH by exact HG'. clear HL HR.
      destruct (leaves g) as [|l ls]; [reflexivity|].
      change (byte_rules (l :: ls)) with (byte_rule l :: byte_rules ls).
      destruct (peel fuel (remove_nodes g (l :: ls))); reflexivity.
Qed.

Lemma partition_bytes rs : Forall gr rs ->
  partition_unordered (byte_rules rs) = byte_pres (partition_unordered rs).
Proof.
  intros H. unfold partition_unordered. destruct (build_graph_bytes rs H) as [-> Hg].
  unfold byte_rules. rewrite map_length. apply peel_bytes; auto.
Qed.
