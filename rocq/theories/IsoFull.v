From Verif Require Import Base RuleModel VisualModel ScriptData ScriptModel ScriptTables.
From Verif Require RuleSpec RuleProofs RewriteProofs VisualProofs ScriptChecks NfcTables NfcProofs.
From Verif Require Import IsoModel IsoSpec IsoProofs IsoFullModel IsoRoundSpec IsoRound.
From Coq Require Import Lia.

(** ** The NFC grammars *)
Lemma shipped_nfc_tables d : In d all_scripts -> In (sd_nfc d) NfcTables.nfc_brahmic_tables.
Proof.
  unfold all_scripts, NfcTables.nfc_brahmic_tables. cbn [In]. intros H. repeat (destruct H as [<-|H]; [repeat (first [left; reflexivity|right])|]). destruct H.
Qed.
Lemma shipped_nfc ns d : In d all_scripts -> exists f, script_nfc ns d = Some f /\
  (forall s, over (script_sigma d) s = true -> exists t, f s = [t] /\ f t = [t] /\ over (script_sigma d) t = true /\ forall r, In r (sd_nfc d) -> ~ is_infix (lhs r) t) /\
  (forall s, over (script_sigma d) s = false -> f s = []).
Proof.
  intros H. pose proof ScriptChecks.all_scripts_ok as Q. rewrite forallb_forall in Q. specialize (Q _ H). unfold ScriptChecks.script_ok in Q. apply andb_prop in Q as [Q _]. apply andb_prop in Q as [Q _].
  unfold script_nfc. destruct (ScriptChecks.rules_ok_total ns _ _ Q) as (f & Hf & Ht). exists f. split; [exact Hf|].
  unfold ScriptChecks.rules_ok in Q. apply andb_prop in Q as [Q _]. apply andb_prop in Q as [Qn Qo]. rewrite forallb_forall in Qn, Qo.
  assert (Hne : RuleSpec.nonempty_lhs (sd_nfc d)). { intros r Hr. specialize (Qn r Hr). apply negb_true_iff, str_eqb_neq in Qn. exact Qn. }
  destruct (NfcProofs.brahmic_nfc_idempotent ns (sd_nfc d) (script_sigma d)) as (f' & Hf' & Hi); [right; exact (shipped_nfc_tables d H)|exact Qo|].
  assert (f' = f) by congruence. subst f'. split.
  - intros s Ho. destruct (Hi s Ho) as (t & E1 & E2 & E3). destruct (Ht s Ho) as (t' & E1' & E4). assert (t' = t) by congruence. subst t'. exists t. repeat split; assumption.
  - pose proof (RewriteProofs.fst_from_rules_spec ns _ _ Hne Qo) as S. destruct (partition_unordered (sd_nfc d)); try congruence. destruct S as (g & Hg & _ & Hn). assert (g = f) by congruence. subst g. exact Hn.
Qed.
(** ** Best outputs of the compositions *)
Lemma best_among_in l o : In o (best_among l) <-> exists w, In (o, w) l /\ forall p, In p l -> (w <= snd p)%N.
Proof.
  unfold best_among. destruct (least l) as [m|] eqn:E.
  - apply least_spec in E as [(o0 & H0) L]. rewrite in_map_iff. split.
    + intros ([o' w] & <- & H). apply filter_In in H as [H Q]. apply N.eqb_eq in Q. cbn in Q. subst w. exists m. split; [exact H|exact L].
    + intros (w & H & M). exists (o, w). split; [reflexivity|]. apply filter_In. split; [exact H|]. cbn. apply N.eqb_eq. specialize (L _ H). specialize (M _ H0). cbn in *. lia.
  - split; [intros []|]. intros (w & H & _). destruct l as [|p l]; [destruct H|discriminate E].
Qed.
Lemma best_outs_among r s : best_outs r s = best_among (outs r s).
Proof. reflexivity. Qed.
Lemma from_best ns d x : In d all_scripts -> over (script_sigma d) x = true ->
  exists nfc t l, script_nfc ns d = Some nfc /\ nfc x = [t] /\ from_script ns d x = Some l /\ best_among l = best_outs (iso_wt d) t.
Proof.
  intros H Ho. destruct (shipped_nfc ns d H) as (f & Hf & Ht & _). destruct (Ht x Ho) as (t & E & _). exists f, t, (outs (iso_wt d) t). unfold from_script. rewrite Hf, E. cbn [flat_map]. rewrite app_nil_r. repeat split.
Qed.
Lemma guru_nfc ns : exists f, script_nfc ns data_Guru = Some f /\ forall s, over (script_sigma data_Guru) s = true -> f s = [flat_map (VisualProofs.subst_char (sd_nfc data_Guru)) s].
Proof.
  unfold script_nfc, fst_from_rules. assert (E : partition_unordered (sd_nfc data_Guru) = Layers [sd_nfc data_Guru]) by (vm_compute; reflexivity). rewrite E.
  exists (rewrite (sd_nfc data_Guru) (script_sigma data_Guru)). split; [reflexivity|]. intros s Ho. apply VisualProofs.rewrite_chars; [| |exact Ho].
  - intros r Hr. repeat (destruct Hr as [<-|Hr]; [eexists; reflexivity|]). destruct Hr.
  - cbn [sd_nfc data_Guru map lhs]. repeat constructor; cbn [In]; intuition discriminate.
Qed.
(** A text that becomes [t] by splitting SHA becomes [t] by NFC, when [t] has NFC form *)
Lemma guru_nfc_split z t : sha_split z = t -> flat_map (VisualProofs.subst_char (sd_nfc data_Guru)) t = t -> flat_map (VisualProofs.subst_char (sd_nfc data_Guru)) z = t.
Proof.
  set (g := VisualProofs.subst_char (sd_nfc data_Guru)). assert (G : forall c, length (g c) = 1 -> g c = [c] -> True) by (intros; exact I).
  assert (L : forall c, (1 <= length (g c))%nat).
  { intros c. unfold g, VisualProofs.subst_char. destruct (find _ _) as [r|] eqn:F; [|cbn; lia]. apply find_some in F as [F _]. repeat (destruct F as [<-|F]; [cbn; lia|]). destruct F. }
  assert (M : forall s, flat_map g s = s -> forall c, In c s -> g c = [c]).
  { assert (M0 : forall s, (length s <= length (flat_map g s))%nat). { induction s as [|c s IH]; cbn [flat_map]; [lia|]. rewrite app_length. specialize (L c). cbn [length]. lia. }
    induction s as [|d s IH]; cbn [flat_map]; intros E c K; [destruct K|]. destruct (g d) as [|e [|e' r]] eqn:D.
    - specialize (L d). rewrite D in L. cbn in L. lia.
    - cbn in E. injection E as -> E. destruct K as [<-|K]; [exact D|exact (IH E c K)].
    - exfalso. apply (f_equal (@length N)) in E. rewrite app_length in E. cbn [length] in E. specialize (M0 s). lia. }
  intros E N0. specialize (M t N0). subst t. clear N0. induction z as [|c z IH]; [reflexivity|]. cbn [sha_split flat_map] in *. fold (sha_split z) in *. f_equal.
  - destruct (N.eqb c 2614) eqn:Q; [apply N.eqb_eq in Q; subst c; reflexivity|]. apply M. left. reflexivity.
  - apply IH. intros d K. apply M. apply in_or_app. right. exact K.
Qed.
Lemma to_script_in ns d nfc y o w : script_nfc ns d = Some nfc -> exists l, to_script ns d y = Some l /\
  (In (o, w) l <-> exists z, In (z, w) (outs (w_invert (iso_wt d)) y) /\ In o (nfc z)).
Proof.
  intros H. unfold to_script. rewrite H. eexists. split; [reflexivity|]. rewrite in_flat_map. split.
  - intros ([z v] & K & Q). apply in_map_iff in Q as (t & E & Q). injection E as -> ->. exists z. split; assumption.
  - intros (z & K & Q). exists (z, w). split; [exact K|]. apply in_map_iff. exists o. split; [reflexivity|exact Q].
Qed.
(** Back after forth is NFC, for every script *)
Lemma full_round_trip ns d : In d all_scripts -> forall x l y, over (script_sigma d) x = true -> from_script ns d x = Some l -> In y (best_among l) ->
  exists nfc t l', script_nfc ns d = Some nfc /\ nfc x = [t] /\ to_script ns d y = Some l' /\ forall z, In z (best_among l') <-> z = t.
Proof.
  intros H x l y Ho Hl Hy. destruct (from_best ns d x H Ho) as (nfc & t & l0 & Hn & Et & Hl0 & Hb). assert (l0 = l) by congruence. subst l0. rewrite Hb in Hy.
  destruct (shipped_nfc ns d H) as (f & Hf & Ht & Hz). assert (f = nfc) by congruence. subst f. destruct (Ht x Ho) as (t' & E1 & Ett & Hot & Hinf). assert (t' = t) by congruence. subst t'.
  exists nfc, t. unfold to_script. rewrite Hn. eexists. split; [reflexivity|]. split; [exact Et|]. split; [reflexivity|].
  destruct (shipped_star_ok d H) as [K K'].
  assert (P : In t (best_outs (w_invert (iso_wt d)) y) /\ forall z, In z (best_outs (w_invert (iso_wt d)) y) -> forall o, In o (nfc z) -> o = t).
  { apply all_scripts_split in H as [H| ->].
    - split; [apply (round_trip d H t y t Hy); reflexivity|]. intros z Bz o Q. apply (round_trip d H t y z Hy) in Bz. subst z. rewrite Ett in Q. destruct Q as [<-|[]]. reflexivity.
    - destruct (guru_nfc ns) as (g & Hg & Hs). assert (g = nfc) by congruence. subst g. rewrite (Hs _ Hot) in Ett. injection Ett as Ett.
      assert (S : sha_split t = t).
      { assert (NI : ~ In 2614%N t). { intros I'. apply in_split in I' as (a & b & E). apply (Hinf (Rule [2614] [2616; 2620])%N); [right; left; reflexivity|]. exists a, b. exact E. }
        clear - NI. induction t as [|c t IH]; [reflexivity|]. cbn [sha_split flat_map]. fold (sha_split t). rewrite IH by (intros Q; apply NI; right; exact Q). destruct (N.eqb c 2614) eqn:Q; [|reflexivity].
        apply N.eqb_eq in Q. destruct NI. left. exact Q. }
      destruct (guru_round_trip t y S Hy) as [G1 G2]. split; [exact G1|]. intros z Bz o Q. destruct (over (script_sigma data_Guru) z) eqn:Oz.
      + rewrite (Hs _ Oz) in Q. destruct Q as [<-|[]]. apply guru_nfc_split; [exact (G2 z Bz)|exact Ett].
      + rewrite (Hz _ Oz) in Q. destruct Q. }
  destruct P as [P1 P2]. rewrite best_outs_among in P1. pose proof P1 as P1'. apply best_among_in in P1' as (w & Ow & Mw).
  intros z. rewrite best_among_in. split.
  - intros (v & Iv & Mv). apply in_flat_map in Iv as ([z0 v0] & I0 & Q). apply in_map_iff in Q as (t0 & E & Q). injection E as -> ->.
    apply (P2 z0); [|exact Q]. rewrite best_outs_among. apply best_among_in. exists v. split; [exact I0|]. intros p Hp. specialize (Mw _ Hp).
    assert (Iw : In (t, w) (flat_map (fun '(z, w) => map (fun t => (t, w)) (nfc z)) (outs (w_invert (iso_wt d)) y))).
    { apply in_flat_map. exists (t, w). split; [exact Ow|]. apply in_map_iff. exists t. split; [reflexivity|]. rewrite Ett. left. reflexivity. }
    specialize (Mv _ Iw). cbn in Mv. lia.
  - intros ->. exists w. split.
    + apply in_flat_map. exists (t, w). split; [exact Ow|]. apply in_map_iff. exists t. split; [reflexivity|]. rewrite Ett. left. reflexivity.
    + intros [o v] I0. apply in_flat_map in I0 as ([z0 v0] & I0 & Q). apply in_map_iff in Q as (t0 & E & Q). injection E as -> ->. exact (Mw _ I0).
Qed.
(** Texts with one romanization have one NFC form *)
Lemma full_no_clash ns d : In d all_scripts -> forall x x' l l' y, over (script_sigma d) x = true -> over (script_sigma d) x' = true ->
  from_script ns d x = Some l -> from_script ns d x' = Some l' -> In y (best_among l) -> In y (best_among l') ->
  exists nfc, script_nfc ns d = Some nfc /\ nfc x = nfc x'.
Proof.
  intros H x x' l l' y O O' E E' B B'. destruct (full_round_trip ns d H _ _ _ O E B) as (f & t & k & Hf & Ht & Hk & Z). destruct (full_round_trip ns d H _ _ _ O' E' B') as (f' & t' & k' & Hf' & Ht' & Hk' & Z').
  assert (f' = f) by congruence. subst f'. assert (k' = k) by congruence. subst k'. exists f. split; [exact Hf|]. rewrite Ht, Ht'. f_equal. apply Z'. apply Z. reflexivity.
Qed.
(** ** What does not hold *)
Lemma guru_two_readings : exists y z z', In z (best_outs (w_invert (iso_wt data_Guru)) y) /\ In z' (best_outs (w_invert (iso_wt data_Guru)) y) /\ z <> z'.
Proof. exists [347; 97]%N, [2614]%N, [2616; 2620]%N. split; [vm_compute; tauto|]. split; [vm_compute; tauto|discriminate]. Qed.
Lemma deva_not_back : exists y z, In z (best_outs (w_invert (iso_wt data_Deva)) y) /\ best_outs (iso_wt data_Deva) z <> [] /\ ~ In y (best_outs (iso_wt data_Deva) z).
Proof. exists [97; 97]%N, [2309; 2309]%N. split; [vm_compute; tauto|]. split; vm_compute; [discriminate|intuition discriminate]. Qed.
