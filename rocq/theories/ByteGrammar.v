(** The grammars of a script in byte mode and in code-point mode. *)
From Verif Require Import Base RuleModel RuleSpec RuleProofs RewriteProofs VisualModel VisualSpec VisualProofs
  ScriptData RegexModel RegexProofs WellformedModel ScriptModel Utf8Model Utf8Spec Utf8Arith
  Utf8Proofs ByteModel ByteSpec ByteProofs ScriptTables ScriptChecks.

Lemma Forall2_map2 {A B C} (R : B -> C -> Prop) (f : A -> B) (g : A -> C) l :
  (forall x, In x l -> R (f x) (g x)) -> Forall2 R (map f l) (map g l).
Proof.
  induction l as [|x l IH]; intros H; constructor; [apply H; left; auto|].
  apply IH. intros; apply H; right; auto.
Qed.

Lemma simulates_ext D fb fb' f f' : (forall s, fb s = fb' s) -> (forall s, f s = f' s) ->
  simulates D fb' f' -> simulates D fb f.
Proof. intros H1 H2 H s Hs. rewrite H1, H2. apply H; auto. Qed.

Lemma fst_from_rules_simulates ns nsb D rs sigma sigmab :
  good_rules rs -> alphabets D sigma sigmab -> (forall r, In r rs -> over sigma (rhs r) = true) ->
  match fst_from_rules ns rs sigma, fst_from_rules nsb (byte_rules rs) sigmab with
  | Some f, Some fb => simulates D fb f
  | None, None => True
  | _, _ => False
  end.
Proof.
  intros Hg HD Hov. unfold fst_from_rules. rewrite partition_bytes by (apply good_rules_gr; auto).
  destruct (partition_unordered rs) as [ls| |] eqn:E; cbn [byte_pres]; auto.
  destruct (rewrite_and_compose_run ns ls sigma) as (f & -> & Hf).
  destruct (rewrite_and_compose_run nsb (map byte_rules ls) sigmab) as (fb & -> & Hfb).
  apply partition_sound in E as (_ & Hin & _).
  destruct ls as [|l ls].
  - eapply simulates_ext; [exact Hfb|exact Hf|]. apply sigma_star_simulates; auto.
  - eapply simulates_ext; [exact Hfb|exact Hf|]. cbn [map]. 
    change (byte_rules l :: map byte_rules ls) with (map byte_rules (l :: ls)).
    change (rewrite (byte_rules l) sigmab :: map (fun rs0 => rewrite rs0 sigmab) (map byte_rules ls))
      with (map (fun rs0 => rewrite rs0 sigmab) (map byte_rules (l :: ls))).
    change (rewrite l sigma :: map (fun rs0 => rewrite rs0 sigma) ls)
      with (map (fun rs0 => rewrite rs0 sigma) (l :: ls)).
    rewrite map_map. apply simulates_chain. apply Forall2_map2. intros x Hx.
    assert (Hr : forall r, In r x -> In r rs) by (intros r Hr; apply Hin, in_concat; eauto).
    apply rewrite_ctx_simulates; auto. intros r H. apply Hg; auto.
Qed.

(** ** Contexts *)
Lemma after_bytes K o : Forall (fun k => good k /\ k <> []) K -> good o ->
  after_consonant (map bytes K) (rev (bytes o)) = after_consonant K (rev o).
Proof.
  intros HK Ho. induction HK as [|k K [Hk Hne] HF IH]; auto. unfold after_consonant in *.
  cbn [map existsb]. rewrite bytes_suffixb, IH by auto. reflexivity.
Qed.

Lemma before_bytes K s : Forall (fun k => good k /\ k <> []) K -> good s ->
  before_consonant (map bytes K) (bytes s) = before_consonant K s.
Proof.
  intros HK Hs. induction HK as [|k K [Hk _] HF IH]; auto. unfold before_consonant in *.
  cbn [map existsb]. rewrite bytes_prefixb, IH by auto. reflexivity.
Qed.

Lemma ends_with_after c o : after_consonant [[c]] o = ends_with c o.
Proof.
  unfold after_consonant, ends_with. cbn [existsb rev app]. rewrite orb_false_r.
  destruct o as [|d o]; [reflexivity|]. cbn [prefixb]. destruct (N.eqb_spec c d) as [->|Hn].
  - rewrite N.eqb_refl. destruct o; reflexivity.
  - symmetry. apply N.eqb_neq. congruence.
Qed.

Lemma good_one c : good_char c -> good [c].
Proof. intros H. apply Forall_cons; [exact H|apply Forall_nil]. Qed.

Lemma dedup_simulates D sigma c : alphabets D sigma BYTE -> good_char c ->
  simulates D (byte_dedup (bytes [c])) (dedup_char sigma c).
Proof.
  intros HD Hc. unfold byte_dedup, dedup_char.
  change [Rule (bytes [c]) []] with (byte_rules [Rule [c] []]). apply rewrite_ctx_simulates; auto.
  - intros r [<-|[]]. split; [apply good_one; auto|]. split; [constructor|discriminate].
  - intros o Ho. rewrite <- ends_with_after. apply (after_bytes [[c]]); auto.
    constructor; [|constructor]. split; [apply good_one; auto|discriminate].
  - intros r [<-|[]]. reflexivity.
Qed.

Lemma dedup_chars_simulates ns nsb D sigma chars : alphabets D sigma BYTE ->
  Forall good_char chars -> chars <> [] ->
  exists f fb, dedup_chars ns chars sigma = Some f /\ byte_dedup_chars nsb chars = Some fb /\
    simulates D fb f.
Proof.
  intros HD Hc Hne. unfold dedup_chars, byte_dedup_chars, compose_fsts.
  edestruct (compose_fsts_run_fuel ns _ EMPTY (map (dedup_char sigma) chars) (le_n _)) as (f & Ef & Hf).
  { destruct chars; [congruence|discriminate]. }
  edestruct (compose_fsts_run_fuel nsb _ EMPTY (map (fun c => byte_dedup (bytes [c])) chars) (le_n _))
    as (fb & Efb & Hfb).
  { destruct chars; [congruence|discriminate]. }
  exists f, fb. split; [exact Ef|]. split; [exact Efb|].
  eapply simulates_ext; [exact Hfb|exact Hf|]. apply simulates_chain, Forall2_map2.
  intros c H. rewrite Forall_forall in Hc. apply dedup_simulates; auto.
Qed.

(** ** Joiners *)
Definition good_items (P : list preserve_item) : Prop :=
  forall p, In p P -> plain (pseq p) /\ pseq p <> [] /\ (0x110000 <= psym p)%N.

Lemma over_in sigma s : over sigma s = true <-> forall c, In c s -> In c sigma.
Proof.
  unfold over. rewrite forallb_forall. split; intros H c Hc; apply memN_spec, H; auto.
Qed.

Lemma over_plain sigma s : plain_sigma sigma -> over sigma s = true -> plain s.
Proof.
  intros H Ho. rewrite over_in in Ho. unfold plain_sigma in H. rewrite Forall_forall in H.
  apply Forall_forall. auto.
Qed.

Lemma psym_bytes p : (0x110000 <= psym p)%N -> bytes [psym p] = [psym p].
Proof. intros H. unfold bytes. cbn [flat_map]. rewrite labels_gensym; auto. Qed.

Section Joiners.
  Variable P : list preserve_item.
  Variable sigma : list N.
  Hypothesis HP : good_items P.
  Hypothesis Hsig : plain_sigma sigma.

  Definition inter (s : str) : Prop := over (intermediate_sigma P sigma) s = true.

  Lemma inter_good s : inter s -> good s.
  Proof.
    intros H. unfold inter in H. rewrite over_in in H. apply Forall_forall. intros c Hc.
    apply H, in_app_or in Hc as [Hc|Hc].
    - apply in_map_iff in Hc as (p & <- & Hp). right. apply HP; auto.
    - left. unfold plain_sigma in Hsig. rewrite Forall_forall in Hsig. auto.
  Qed.

  Lemma syms_bytes : map psym (map byte_item P) = map psym P.
  Proof. rewrite map_map. reflexivity. Qed.

  Lemma alpha_sigma : alphabets inter sigma BYTE.
  Proof.
    split.
    - intros s Hs. split; [apply inter_good; auto|].
      destruct (over sigma s) eqn:E; [apply plain_byte; eapply over_plain; eauto|].
      destruct (over BYTE (bytes s)) eqn:Eb; auto. exfalso.
      assert (E' : over sigma s = true); [|congruence].
      rewrite over_in in *. unfold inter in Hs. rewrite over_in in Hs. intros c Hc.
      pose proof (Hs c Hc) as Hi. apply in_app_or in Hi as [Hi|Hi]; auto. exfalso.
      apply in_map_iff in Hi as (p & <- & Hp). destruct (HP p Hp) as (_ & _ & Hbig).
      assert (Hb : In (psym p) (bytes s)).
      { apply in_flat_map. exists (psym p). split; auto. rewrite labels_gensym by auto. left; auto. }
      apply Eb, BYTE_spec in Hb. lia.
    - intros s Hs. unfold inter. eapply over_weaken; [|exact Hs]. intros; apply in_or_app; auto.
  Qed.

  Lemma alpha_inter : alphabets inter (intermediate_sigma P sigma)
                                (intermediate_sigma (map byte_item P) BYTE).
  Proof.
    split; auto. intros s Hs. split; [apply inter_good; auto|]. unfold inter in Hs. rewrite Hs.
    unfold intermediate_sigma in *. rewrite syms_bytes. rewrite over_in in Hs |- *.
    intros b Hb. apply in_flat_map in Hb as (c & Hc & Hb). apply Hs, in_app_or in Hc as [Hc|Hc].
    - pose proof Hc as Hc'. apply in_map_iff in Hc' as (p & <- & Hp).
      rewrite labels_gensym in Hb by (apply HP; auto). destruct Hb as [<-|[]]. apply in_or_app; auto.
    - apply in_or_app. right. unfold plain_sigma in Hsig. rewrite Forall_forall in Hsig.
      destruct (Hsig c Hc) as [H1 H2]. pose proof (labels_byte c H1 H2) as H. rewrite over_in in H. auto.
  Qed.

  Variable K : list str.
  Hypothesis HK : Forall (fun k => good k /\ k <> []) K.
  Hypothesis Hseq : forall p, In p P -> over sigma (pseq p) = true.

  Lemma mark_rules_bytes : map (fun p => Rule (pseq p) [psym p]) (map byte_item P)
    = byte_rules (map (fun p => Rule (pseq p) [psym p]) P).
  Proof.
    unfold byte_rules. rewrite !map_map. apply map_ext_in. intros p Hp. unfold byte_rule.
    cbn [lhs rhs byte_item pseq psym]. rewrite psym_bytes by (apply HP; auto). reflexivity.
  Qed.

  Lemma reinstate_rules_bytes : map (fun p => Rule [psym p] (pseq p)) (map byte_item P)
    = byte_rules (map (fun p => Rule [psym p] (pseq p)) P).
  Proof.
    unfold byte_rules. rewrite !map_map. apply map_ext_in. intros p Hp. unfold byte_rule.
    cbn [lhs rhs byte_item pseq psym]. rewrite psym_bytes by (apply HP; auto). reflexivity.
  Qed.

  Lemma sym_over p : In p P -> over (intermediate_sigma P sigma) [psym p] = true.
  Proof.
    intros Hp. apply over_in. intros c [<-|[]]. apply in_or_app. left. apply in_map; auto.
  Qed.

  Lemma mark_simulates :
    simulates inter (mark_preserve (map byte_item P) (map bytes K) BYTE) (mark_preserve P K sigma).
  Proof.
    unfold mark_preserve. rewrite mark_rules_bytes. apply rewrite_ctx_simulates.
    - intros r Hr. apply in_map_iff in Hr as (p & <- & Hp). destruct (HP p Hp) as (H1 & H2 & H3).
      cbn [lhs rhs]. split; [apply plain_good; auto|]. split; auto. apply good_one. right; auto.
    - intros; apply after_bytes; auto.
    - intros; apply before_bytes; auto.
    - apply alpha_inter.
    - intros r Hr. apply in_map_iff in Hr as (p & <- & Hp). cbn [rhs]. apply sym_over; auto.
  Qed.

  Lemma clean_simulates : simulates inter (byte_clean_joiner (map byte_item P)) (clean_joiner P sigma).
  Proof.
    unfold byte_clean_joiner, clean_joiner, rewrite.
    change (map (fun j => Rule (bytes [j]) []) [ZWNJ; ZWJ; ZWS])
      with (byte_rules (map (fun j => Rule [j] []) [ZWNJ; ZWJ; ZWS])).
    apply rewrite_ctx_simulates; auto.
    - intros r Hr. apply in_map_iff in Hr as (j & <- & Hj). cbn [lhs rhs].
      split; [|split; [constructor|discriminate]]. apply good_one. left.
      unfold scalar, ZWNJ, ZWJ, ZWS in *. cbn [In] in Hj. intuition (subst; lia).
    - apply alpha_inter.
    - intros r Hr. apply in_map_iff in Hr as (j & <- & Hj). reflexivity.
  Qed.

  Lemma reinstate_simulates : simulates inter (reinstate (map byte_item P) BYTE) (reinstate P sigma).
  Proof.
    unfold reinstate, rewrite. rewrite reinstate_rules_bytes. apply rewrite_ctx_simulates; auto.
    - intros r Hr. apply in_map_iff in Hr as (p & <- & Hp). destruct (HP p Hp) as (H1 & H2 & H3).
      cbn [lhs rhs]. split; [apply good_one; right; auto|]. split; [apply plain_good; auto|discriminate].
    - apply alpha_inter.
    - intros r Hr. apply in_map_iff in Hr as (p & <- & Hp). cbn [rhs].
      eapply over_weaken; [|apply Hseq; auto]. intros; apply in_or_app; auto.
  Qed.

  Lemma visual_simulates ns nsb nfc dedup rw nfcb dedupb rwb :
    simulates inter nfcb nfc -> simulates inter dedupb dedup -> simulates inter rwb rw ->
    exists f fb, visual_norm ns nfc dedup rw P K sigma = Some f /\
      byte_visual_norm nsb nfcb dedupb rwb P K = Some fb /\ simulates inter fb f.
  Proof.
    intros H1 H2 H3. unfold visual_norm, byte_visual_norm, compose_fsts, core_visual_norm_fsts.
    cbn [app].
    edestruct (compose_fsts_run_fuel ns _ EMPTY
      [nfc; dedup; rw; mark_preserve P K sigma; clean_joiner P sigma; reinstate P sigma; sigma_star sigma]
      (le_n _)) as (f & Ef & Hf); [discriminate|].
    edestruct (compose_fsts_run_fuel nsb _ EMPTY
      [nfcb; dedupb; rwb; mark_preserve (map byte_item P) (map bytes K) BYTE;
       byte_clean_joiner (map byte_item P); reinstate (map byte_item P) BYTE; sigma_star BYTE]
      (le_n _)) as (fb & Efb & Hfb); [discriminate|].
    exists f, fb. split; [exact Ef|]. split; [exact Efb|].
    eapply simulates_ext; [exact Hfb|exact Hf|]. apply simulates_chain.
    apply Forall2_cons; [exact H1|]. apply Forall2_cons; [exact H2|]. apply Forall2_cons; [exact H3|].
    apply Forall2_cons; [apply mark_simulates|]. apply Forall2_cons; [apply clean_simulates|].
    apply Forall2_cons; [apply reinstate_simulates|].
    apply Forall2_cons; [apply sigma_star_simulates, alpha_sigma|apply Forall2_nil].
  Qed.
End Joiners.

(** ** Checks on the shipped tables *)
Definition scalarb (c : N) : bool :=
  ((c <? 0xD800) || ((0xDFFF <? c) && (c <? 0x110000)))%N && negb (c =? 0)%N.

Lemma scalarb_spec c : scalarb c = true -> scalar c /\ c <> 0%N.
Proof.
  unfold scalarb, scalar. rewrite andb_true_iff, negb_true_iff, N.eqb_neq, orb_true_iff, andb_true_iff.
  rewrite !N.ltb_lt. intros [H1 H2]. split; auto. lia.
Qed.

Definition nonemptyb (s : str) : bool := match s with [] => false | _ => true end.
Definition rules_sides (rs : list rule) : bool :=
  forallb (fun r => forallb scalarb (lhs r) && forallb scalarb (rhs r) && nonemptyb (lhs r)) rs.
Definition byte_ok (d : script_data) : bool :=
  forallb scalarb (script_sigma d) &&
  rules_sides (sd_nfc d) && rules_sides (sd_visual_rewrite d) && rules_sides (sd_reading_norm d) &&
  forallb (fun k => forallb scalarb k && nonemptyb k) (inputs (sd_consonant d)) &&
  forallb (fun p => forallb scalarb (pseq p) && nonemptyb (pseq p) && (0x110000 <=? psym p)%N) (sd_preserve d).

Lemma all_byte_ok : forallb byte_ok all_scripts = true.
Proof. vm_compute. reflexivity. Qed.

Lemma scalars_plain s : forallb scalarb s = true -> plain s.
Proof.
  rewrite forallb_forall. intros H. apply Forall_forall. intros c Hc. apply scalarb_spec; auto.
Qed.

Lemma nonemptyb_spec s : nonemptyb s = true -> s <> [].
Proof. destruct s; discriminate. Qed.

Lemma sides_plain rs : rules_sides rs = true -> plain_rules rs.
Proof.
  unfold rules_sides. rewrite forallb_forall. intros H r Hr. specialize (H r Hr).
  apply andb_true_iff in H as [H H3]. apply andb_true_iff in H as [H1 H2].
  split; [apply scalars_plain; auto|]. split; [apply scalars_plain; auto|apply nonemptyb_spec; auto].
Qed.

Lemma rules_ok_over rs sigma : rules_ok rs sigma = true -> forall r, In r rs -> over sigma (rhs r) = true.
Proof.
  intros H. apply andb_true_iff in H as [H _]. apply andb_true_iff in H as [_ H].
  rewrite forallb_forall in H. exact H.
Qed.

Lemma over_inter P sigma s : over sigma s = true -> inter P sigma s.
Proof. intros H. eapply over_weaken; [|exact H]. intros; apply in_or_app; auto. Qed.

Lemma script_visual_simulates ns nsb is_mn d : byte_ok d = true -> script_ok d = true ->
  good_preserve (sd_preserve d) (script_sigma d) ->
  exists f fb, script_visual_norm ns is_mn d = Some f /\ byte_script_visual_norm nsb is_mn d = Some fb /\
    forall s, over (script_sigma d) s = true -> fb (bytes s) = map bytes (f s).
Proof.
  intros Hb Hs (_ & Hgp & _). unfold byte_ok in Hb. rewrite !andb_true_iff in Hb.
  destruct Hb as [[[[[B1 B2] B3] B4] B5] B6].
  unfold script_ok in Hs. rewrite !andb_true_iff in Hs. destruct Hs as [[S1 S2] _].
  assert (Hsig : plain_sigma (script_sigma d)) by (apply scalars_plain; auto).
  assert (HP : good_items (sd_preserve d)).
  { rewrite forallb_forall in B6. intros p Hp. specialize (B6 p Hp). rewrite !andb_true_iff in B6.
    destruct B6 as [[C1 C2] C3]. split; [apply scalars_plain; auto|]. split; [apply nonemptyb_spec; auto|].
    apply N.leb_le; auto. }
  assert (HK : Forall (fun k => good k /\ k <> []) (inputs (sd_consonant d))).
  { rewrite forallb_forall in B5. apply Forall_forall. intros k Hk. specialize (B5 k Hk).
    apply andb_true_iff in B5 as [C1 C2]. split; [apply plain_good, scalars_plain; auto|apply nonemptyb_spec; auto]. }
  pose proof (alpha_sigma _ _ HP Hsig) as HA.
  pose proof (fst_from_rules_simulates ns nsb _ (sd_nfc d) _ _
    (plain_good_rules _ (sides_plain _ B2)) HA (rules_ok_over _ _ S1)) as H1.
  pose proof (fst_from_rules_simulates ns nsb _ (sd_visual_rewrite d) _ _
    (plain_good_rules _ (sides_plain _ B3)) HA (rules_ok_over _ _ S2)) as H2.
  assert (Hm : Forall good_char (mark_chars (script_chars d) is_mn)).
  { apply Forall_forall. intros c Hc. left. unfold plain_sigma in Hsig. rewrite Forall_forall in Hsig.
    apply Hsig. unfold script_sigma. apply in_or_app. apply in_app_or in Hc as [Hc|Hc].
    - right. cbn [In] in Hc |- *. tauto.
    - left. apply filter_In in Hc as [Hc _]. exact Hc. }
  destruct (dedup_chars_simulates ns nsb _ _ _ HA Hm ltac:(discriminate)) as (dd & ddb & E1 & E2 & H3).
  unfold script_visual_norm, byte_script_visual_norm, script_nfc, script_dedup.
  destruct (rules_ok_total ns _ _ S1) as (nfc & En & _). destruct (rules_ok_total ns _ _ S2) as (rw & Er & _).
  rewrite En in *. rewrite Er in *. rewrite E1, E2.
  destruct (fst_from_rules nsb (byte_rules (sd_nfc d)) BYTE) as [nfcb|]; [|contradiction].
  destruct (fst_from_rules nsb (byte_rules (sd_visual_rewrite d)) BYTE) as [rwb|]; [|contradiction].
  destruct (visual_simulates _ _ HP Hsig _ HK (fun p Hp => proj1 (proj2 (Hgp p Hp)))
              ns nsb nfc dd rw nfcb ddb rwb H1 H3 H2) as (f & fb & Ef & Efb & Hsim).
  exists f, fb. split; [exact Ef|]. split; [exact Efb|]. intros s Ho.
  apply (Hsim s). apply over_inter; auto.
Qed.

Lemma shipped_byte_visual ns nsb is_mn d : In d all_scripts ->
  exists f fb, script_visual_norm ns is_mn d = Some f /\ byte_script_visual_norm nsb is_mn d = Some fb /\
    forall s, over (script_sigma d) s = true -> fb (bytes s) = map bytes (f s).
Proof.
  intros Hd. pose proof all_byte_ok as H1. pose proof all_scripts_ok as H2.
  rewrite forallb_forall in H1, H2. destruct (shipped_preserve d Hd) as (Hg & _).
  apply script_visual_simulates; auto.
Qed.

(** Rules alone, over an alphabet of code points. *)
Lemma alpha_plain sigma : plain_sigma sigma -> alphabets (fun s => over sigma s = true) sigma BYTE.
Proof.
  intros H. split; auto. intros s Hs. split; [apply plain_good; eapply over_plain; eauto|].
  rewrite Hs. apply plain_byte. eapply over_plain; eauto.
Qed.

Lemma rules_bytes ns nsb rs sigma : plain_rules rs -> plain_sigma sigma ->
  (forall r, In r rs -> over sigma (rhs r) = true) ->
  (fst_from_rules ns rs sigma = None /\ fst_from_rules nsb (byte_rules rs) BYTE = None) \/
  exists f fb, fst_from_rules ns rs sigma = Some f /\ fst_from_rules nsb (byte_rules rs) BYTE = Some fb /\
    forall s, over sigma s = true -> fb (bytes s) = map bytes (f s).
Proof.
  intros H1 H2 H3.
  pose proof (fst_from_rules_simulates ns nsb _ rs sigma BYTE (plain_good_rules _ H1) (alpha_plain _ H2) H3) as H.
  destruct (fst_from_rules ns rs sigma) as [f|], (fst_from_rules nsb (byte_rules rs) BYTE) as [fb|];
    try contradiction; [right|left; auto].
  exists f, fb. split; auto. split; auto. intros s Hs. apply (H s Hs).
Qed.

Lemma shipped_byte_rules ns nsb d rs : In d all_scripts ->
  In rs [sd_nfc d; sd_visual_rewrite d; sd_reading_norm d] ->
  exists f fb, fst_from_rules ns rs (script_sigma d) = Some f /\
    fst_from_rules nsb (byte_rules rs) BYTE = Some fb /\
    forall s, over (script_sigma d) s = true -> fb (bytes s) = map bytes (f s).
Proof.
  intros Hd Hrs. pose proof all_byte_ok as H1. pose proof all_scripts_ok as H2.
  rewrite forallb_forall in H1, H2. specialize (H1 d Hd). specialize (H2 d Hd).
  unfold byte_ok in H1. unfold script_ok in H2. rewrite !andb_true_iff in H1. rewrite !andb_true_iff in H2.
  destruct H1 as [[[[[B1 B2] B3] B4] B5] B6]. destruct H2 as [[S1 S2] S3].
  assert (Hk : rules_sides rs = true /\ rules_ok rs (script_sigma d) = true).
  { destruct Hrs as [<-|[<-|[<-|[]]]]; auto. }
  destruct Hk as [K1 K2].
  destruct (rules_bytes ns nsb rs (script_sigma d) (sides_plain _ K1) (scalars_plain _ B1) (rules_ok_over _ _ K2))
    as [[H _]|H]; auto.
  destruct (rules_ok_total ns _ _ K2) as (f & E & _). congruence.
Qed.

(** ** The encoding is UTF-8 *)
Lemma bytes_spells s : Forall scalar s -> exists ps, spells s ps (bytes s).
Proof.
  induction 1 as [|c s Hc HF [ps [H1 H2]]]; [exists []; split; [constructor|reflexivity]|].
  exists (labels c :: ps). split; [constructor; auto; apply labels_scalar; auto|].
  rewrite bytes_cons. cbn [concat]. rewrite H2 at 1. reflexivity.
Qed.

(** ** The acceptor *)
Fixpoint re_bytes (r : re) : re :=
  match r with
  | Strs l => Strs (map bytes l)
  | Cat a b => Cat (re_bytes a) (re_bytes b)
  | Alt a b => Alt (re_bytes a) (re_bytes b)
  | Ques a => Ques (re_bytes a)
  | Star a => Star (re_bytes a)
  end.

Lemma re_bytes_l r s : matches r s -> matches (re_bytes r) (bytes s).
Proof.
  induction 1; cbn [re_bytes]; rewrite ?bytes_app; eauto using matches, in_map.
Qed.

Lemma re_bytes_r r : forall t, matches (re_bytes r) t -> exists s, t = bytes s /\ matches r s.
Proof.
  induction r as [l|a IHa b IHb|a IHa b IHb|a IHa|a IHa]; cbn [re_bytes]; intros t H.
  - apply strs_inv, in_map_iff in H as (s & <- & Hs). exists s; split; auto. constructor; auto.
  - apply cat_inv in H as (x & y & -> & Hx & Hy). destruct (IHa x Hx) as (s & -> & Hs).
    destruct (IHb y Hy) as (u & -> & Hu). exists (s ++ u). rewrite bytes_app. split; auto. constructor; auto.
  - apply alt_inv in H as [H|H]; [destruct (IHa t H) as (s & -> & Hs)|destruct (IHb t H) as (s & -> & Hs)];
      exists s; split; auto; [apply m_alt_l|apply m_alt_r]; auto.
  - apply ques_inv in H as [->|H]; [exists []; split; auto; constructor|].
    destruct (IHa t H) as (s & -> & Hs). exists s; split; auto. apply m_ques_some; auto.
  - apply star_inv in H as (l & HF & ->). induction HF as [|x l Hx HF IH].
    + exists []; split; auto. constructor.
    + destruct IH as (u & Eu & Hu). destruct (IHa x Hx) as (s & -> & Hs). exists (s ++ u).
      cbn [concat]. rewrite Eu, bytes_app. split; auto. constructor; auto.
Qed.

Lemma no_start_bytes r : no_start (re_bytes r) = no_start r.
Proof.
  induction r as [l|a IHa b IHb|a IHa b IHb|a IHa|a IHa]; cbn [re_bytes no_start]; auto.
  - destruct l; reflexivity.
  - rewrite IHa, IHb; reflexivity.
Qed.

Lemma on_empty_bytes r : re_bytes (on_empty r EPSILON) = on_empty (re_bytes r) EPSILON.
Proof. unfold on_empty. rewrite no_start_bytes. destruct (no_start r); reflexivity. Qed.
Lemma ques_safe_bytes r : re_bytes (ques_safe r) = ques_safe (re_bytes r).
Proof. unfold ques_safe. cbn [re_bytes]. rewrite on_empty_bytes. reflexivity. Qed.
Lemma star_safe_bytes r : re_bytes (star_safe r) = star_safe (re_bytes r).
Proof. unfold star_safe. cbn [re_bytes]. rewrite on_empty_bytes. reflexivity. Qed.
Lemma ques_bytes r : re_bytes (ques r) = ques (re_bytes r).
Proof. unfold ques. rewrite no_start_bytes. destruct (no_start r); reflexivity. Qed.
Lemma input_file_bytes f : input_string_file (byte_file f) = re_bytes (input_string_file f).
Proof. unfold input_string_file, inputs, byte_file. cbn [re_bytes]. rewrite !map_map. reflexivity. Qed.

Lemma acceptor_bytes d : accept_well_formed (byte_data d) = re_bytes (accept_well_formed d).
Proof.
  unfold accept_well_formed. rewrite star_safe_bytes. cbn [re_bytes].
  rewrite !ques_safe_bytes, !star_safe_bytes. cbn [re_bytes]. rewrite !ques_safe_bytes.
  cbn [byte_data sd_accept sd_coda sd_consonant sd_dead_consonant sd_standalone sd_subjoined_consonant
       sd_virama sd_vowel sd_vowel_length_sign sd_vowel_sign sd_preserve sd_no_inherent_vowel].
  rewrite !input_file_bytes. rewrite !map_map. cbn [byte_item pseq].
  destruct (sd_no_inherent_vowel d); cbn [re_bytes]; rewrite ?ques_bytes, ?star_safe_bytes; cbn [re_bytes];
    rewrite ?ques_safe_bytes; cbn [re_bytes]; rewrite ?map_map; reflexivity.
Qed.

Lemma matches_plain r s : matches r s -> re_plain r -> plain s.
Proof.
  unfold plain. induction 1; cbn [re_plain] in *; intros HP.
  - rewrite Forall_forall in HP. exact (HP s H).
  - apply Forall_app. destruct HP. auto.
  - destruct HP. auto.
  - destruct HP. auto.
  - apply Forall_nil.
  - auto.
  - apply Forall_nil.
  - apply Forall_app. auto.
Qed.

Lemma well_formed_bytes d t : well_formed (byte_data d) t = true <->
  exists s, t = bytes s /\ well_formed d s = true.
Proof.
  unfold well_formed. rewrite accepts_spec, acceptor_bytes. split.
  - intros H. apply re_bytes_r in H as (s & -> & H). exists s. split; auto. apply accepts_spec; auto.
  - intros (s & -> & H). apply accepts_spec in H. apply re_bytes_l; auto.
Qed.

Lemma well_formed_same d s : re_plain (accept_well_formed d) -> plain s ->
  well_formed (byte_data d) (bytes s) = well_formed d s.
Proof.
  intros Hd Hs. destruct (well_formed d s) eqn:E.
  - apply well_formed_bytes. eauto.
  - destruct (well_formed (byte_data d) (bytes s)) eqn:Eb; auto.
    apply well_formed_bytes in Eb as (u & Eu & Hu). exfalso.
    assert (Hp : plain u) by (eapply matches_plain; [apply accepts_spec; exact Hu|exact Hd]).
    apply bytes_inj in Eu; [congruence| |]; apply plain_good; auto.
Qed.

Fixpoint re_plainb (r : re) : bool :=
  match r with
  | Strs l => forallb (forallb scalarb) l
  | Cat a b | Alt a b => re_plainb a && re_plainb b
  | Ques a | Star a => re_plainb a
  end.

Lemma re_plainb_spec r : re_plainb r = true -> re_plain r.
Proof.
  induction r as [l|a IHa b IHb|a IHa b IHb|a IHa|a IHa]; cbn [re_plain re_plainb]; auto;
    try (rewrite andb_true_iff; tauto).
  rewrite forallb_forall. intros H. apply Forall_forall. intros s Hs. apply scalars_plain; auto.
Qed.

Lemma all_tables_plain : forallb (fun d => re_plainb (accept_well_formed d)) all_scripts = true.
Proof. vm_compute. reflexivity. Qed.

Lemma shipped_well_formed_bytes d s : In d all_scripts -> plain s ->
  well_formed (byte_data d) (bytes s) = well_formed d s.
Proof.
  intros Hd Hs. apply well_formed_same; auto. apply re_plainb_spec.
  pose proof all_tables_plain as H. rewrite forallb_forall in H. auto.
Qed.

(** ** In terms of the encoding relation *)
Lemma spells_bytes s ps t : spells s ps t -> t = bytes s /\ Forall scalar s.
Proof.
  intros [H ->]. induction H as [|c b s ps Hc HF [IH1 IH2]]; [split; [reflexivity|constructor]|].
  assert (Hs : scalar c) by (destruct Hc as [Hw <-]; apply wf_scalar; exact Hw).
  split; [|constructor; auto]. cbn [concat]. rewrite bytes_cons, IH1. f_equal.
  eapply encodes_fun; [exact Hc|apply labels_scalar; auto].
Qed.

Lemma utf8_bytes s t : utf8 s t -> t = bytes s.
Proof. intros [ps H]. apply spells_bytes in H as [H _]. exact H. Qed.

Lemma plain_utf8 s : plain s -> utf8 s (bytes s).
Proof.
  intros H. apply bytes_spells. eapply Forall_impl; [|exact H]. intros c [Hc _]; exact Hc.
Qed.

Lemma utf8_map l : Forall plain l -> Forall2 utf8 l (map bytes l).
Proof. induction 1; constructor; auto. apply plain_utf8; auto. Qed.

Lemma matches_aligned s t l x a b : plain s -> plain l -> utf8 s t -> utf8 l x -> l <> [] ->
  t = a ++ x ++ b -> exists s1 s2, s = s1 ++ l ++ s2 /\ utf8 s1 a /\ utf8 s2 b.
Proof.
  intros Hs Hl Ht Hx Hne E. apply utf8_bytes in Ht, Hx. subst t x.
  destruct (bytes_split s a l b (plain_good _ Hs) (plain_good _ Hl) Hne E) as (u & v & -> & -> & ->).
  exists u, v. split; auto. unfold plain in Hs. rewrite !Forall_app in Hs.
  split; apply plain_utf8; tauto.
Qed.

Lemma agree sigma (f fb : fst_t) : plain_sigma sigma ->
  (forall s t, over sigma s = true -> In t (f s) -> over sigma t = true) ->
  (forall s, over sigma s = true -> fb (bytes s) = map bytes (f s)) ->
  forall s t, over sigma s = true -> utf8 s t -> Forall2 utf8 (f s) (fb t).
Proof.
  intros Hsig Hcl H s t Hs Ht. apply utf8_bytes in Ht. subst t. rewrite H by auto.
  apply utf8_map. apply Forall_forall. intros u Hu. apply (over_plain sigma); auto. eapply Hcl; eauto.
Qed.

Lemma fst_from_rules_closed ns rs sigma f : nonempty_lhs rs ->
  (forall r, In r rs -> over sigma (rhs r) = true) -> fst_from_rules ns rs sigma = Some f ->
  forall s t, over sigma s = true -> In t (f s) -> over sigma t = true.
Proof.
  intros Hne Hov E s t Hs Ht. pose proof (fst_from_rules_spec ns rs sigma Hne Hov) as H.
  destruct (partition_unordered rs) as [ls| |] eqn:Ep.
  - destruct H as (g & Eg & Hg & _). rewrite Eg in E. injection E as <-.
    destruct (Hg s Hs) as (u & Eu & Ho & _). rewrite Eu in Ht. destruct Ht as [<-|[]]. exact Ho.
  - unfold fst_from_rules in E. rewrite Ep in E. discriminate.
  - unfold fst_from_rules in E. rewrite Ep in E. discriminate.
Qed.

Lemma rules_agree ns nsb rs sigma : plain_rules rs -> plain_sigma sigma ->
  (forall r, In r rs -> over sigma (rhs r) = true) ->
  (fst_from_rules ns rs sigma = None /\ fst_from_rules nsb (byte_rules rs) BYTE = None) \/
  exists f fb, fst_from_rules ns rs sigma = Some f /\ fst_from_rules nsb (byte_rules rs) BYTE = Some fb /\
    forall s t, over sigma s = true -> utf8 s t -> Forall2 utf8 (f s) (fb t).
Proof.
  intros H1 H2 H3. destruct (rules_bytes ns nsb rs sigma H1 H2 H3) as [H|(f & fb & E1 & E2 & H)]; auto.
  right. exists f, fb. split; auto. split; auto. apply agree; auto.
  eapply fst_from_rules_closed; [|exact H3|exact E1]. intros r Hr. apply H1; auto.
Qed.

Lemma shipped_sigma_plain d : In d all_scripts -> plain_sigma (script_sigma d).
Proof.
  intros Hd. pose proof all_byte_ok as H. rewrite forallb_forall in H. specialize (H d Hd).
  unfold byte_ok in H. rewrite !andb_true_iff in H. destruct H as [[[[[B1 B2] B3] B4] B5] B6].
  apply scalars_plain; exact B1.
Qed.

Lemma shipped_rules_agree ns nsb d rs : In d all_scripts ->
  In rs [sd_nfc d; sd_visual_rewrite d; sd_reading_norm d] ->
  exists f fb, fst_from_rules ns rs (script_sigma d) = Some f /\
    fst_from_rules nsb (byte_rules rs) BYTE = Some fb /\
    forall s t, over (script_sigma d) s = true -> utf8 s t -> Forall2 utf8 (f s) (fb t).
Proof.
  intros Hd Hrs. destruct (shipped_byte_rules ns nsb d rs Hd Hrs) as (f & fb & E1 & E2 & H).
  exists f, fb. split; auto. split; auto. apply agree; auto; [apply shipped_sigma_plain; auto|].
  pose proof all_scripts_ok as H2. rewrite forallb_forall in H2. specialize (H2 d Hd).
  unfold script_ok in H2. rewrite !andb_true_iff in H2. destruct H2 as [[S1 S2] S3].
  assert (Hk : rules_ok rs (script_sigma d) = true) by (destruct Hrs as [<-|[<-|[<-|[]]]]; auto).
  destruct (rules_ok_total ns _ _ Hk) as (g & Eg & Hg). rewrite Eg in E1. injection E1 as <-.
  intros s t Hs Ht. destruct (Hg s Hs) as (u & Eu & Ho). rewrite Eu in Ht. destruct Ht as [<-|[]]. exact Ho.
Qed.

Lemma shipped_visual_agree ns nsb is_mn d : In d all_scripts ->
  exists f fb, script_visual_norm ns is_mn d = Some f /\ byte_script_visual_norm nsb is_mn d = Some fb /\
    forall s t, over (script_sigma d) s = true -> utf8 s t -> Forall2 utf8 (f s) (fb t).
Proof.
  intros Hd. destruct (shipped_byte_visual ns nsb is_mn d Hd) as (f & fb & E1 & E2 & H).
  exists f, fb. split; auto. split; auto. apply agree; auto; [apply shipped_sigma_plain; auto|].
  destruct (shipped_visual_total ns is_mn d Hd) as (g & Eg & Hg). rewrite Eg in E1. injection E1 as <-.
  intros s t Hs Ht. destruct (Hg s Hs) as (u & Eu & Ho). rewrite Eu in Ht. destruct Ht as [<-|[]]. exact Ho.
Qed.

Lemma well_formed_agree d s t : re_plain (accept_well_formed d) -> plain s -> utf8 s t ->
  well_formed (byte_data d) t = well_formed d s.
Proof. intros Hd Hs Ht. apply utf8_bytes in Ht. subst t. apply well_formed_same; auto. Qed.

Lemma well_formed_image d t : re_plain (accept_well_formed d) ->
  (well_formed (byte_data d) t = true <-> exists s, utf8 s t /\ well_formed d s = true).
Proof.
  intros Hd. rewrite well_formed_bytes. split; intros (s & H1 & H2); exists s; split; auto.
  - subst t. apply plain_utf8. eapply matches_plain; [apply accepts_spec; exact H2|exact Hd].
  - apply utf8_bytes; auto.
Qed.

Lemma shipped_tables_plain d : In d all_scripts -> re_plain (accept_well_formed d).
Proof.
  intros Hd. apply re_plainb_spec. pose proof all_tables_plain as H. rewrite forallb_forall in H. auto.
Qed.

(** Outside of the alphabet of the script the two modes differ. *)
Definition mode_witness : option (list str * list str) :=
  match script_visual_norm (fun _ => 0) (fun _ => false) data_Deva,
        byte_script_visual_norm (fun _ => 0) (fun _ => false) data_Deva with
  | Some f, Some fb => Some (f [97%N], fb [97%N])
  | _, _ => None
  end.

Lemma modes_differ : exists d ns is_mn f fb s t,
  In d all_scripts /\ script_visual_norm ns is_mn d = Some f /\
  byte_script_visual_norm ns is_mn d = Some fb /\ plain s /\ utf8 s t /\ f s = [] /\ fb t = [t].
Proof.
  assert (E : mode_witness = Some ([], [[97%N]])) by (vm_compute; reflexivity).
  unfold mode_witness in E.
  destruct (script_visual_norm (fun _ => 0) (fun _ => false) data_Deva) as [f|] eqn:E1; [|discriminate].
  destruct (byte_script_visual_norm (fun _ => 0) (fun _ => false) data_Deva) as [fb|] eqn:E2; [|discriminate].
  injection E as Ef Efb. exists data_Deva, (fun _ => 0), (fun _ => false), f, fb, [97%N], [97%N].
  assert (Hp : plain [97%N]) by (apply scalars_plain; reflexivity).
  split; [unfold all_scripts; cbn [In]; tauto|]. repeat (split; [assumption|]).
  split; [exact (plain_utf8 _ Hp)|]. auto.
Qed.
