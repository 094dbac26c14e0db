(** Facts about the shipped script tables, by computation over the finite list
    of tables, and what they give for visual normalization. *)
From Verif Require Import Base RuleModel RuleSpec RuleProofs RewriteProofs CleanCheck
  VisualModel VisualSpec VisualProofs ScriptData ScriptModel ScriptTables.

Fixpoint nodupN (l : list N) : bool :=
  match l with [] => true | c :: l => negb (memN c l) && nodupN l end.

Lemma nodupN_spec l : nodupN l = true -> NoDup l.
Proof.
  induction l as [|c l IH]; simpl; [constructor|]. intros H.
  apply andb_true_iff in H as [H1 H2]. constructor; auto.
  apply memN_false. destruct (memN c l); auto; discriminate.
Qed.

Definition good_preserveb (P : list preserve_item) (sigma : list N) : bool :=
  nodupN (map psym P) &&
  forallb (fun p => negb (memN (psym p) sigma) && over sigma (pseq p) &&
                    negb (match pseq p with [] => true | _ => false end)) P &&
  over sigma joiners.

Lemma good_preserveb_sound P sigma : good_preserveb P sigma = true -> good_preserve P sigma.
Proof.
  unfold good_preserveb. intros H. apply andb_true_iff in H as [H H3].
  apply andb_true_iff in H as [H1 H2]. split; [apply nodupN_spec; auto|]. split; auto.
  intros p Hp. rewrite forallb_forall in H2. specialize (H2 p Hp).
  apply andb_true_iff in H2 as [H2 H5]. apply andb_true_iff in H2 as [H2 H4].
  split; [|split]; auto.
  - destruct (memN (psym p) sigma); auto; discriminate.
  - destruct (pseq p); discriminate.
Qed.

(** Prefix-freeness of a rule list, by position. *)
Fixpoint prefix_freeb (rs : list rule) : bool :=
  match rs with
  | [] => true
  | r :: rs => forallb (fun q => negb (prefixb (lhs r) (lhs q)) && negb (prefixb (lhs q) (lhs r))) rs &&
               prefix_freeb rs
  end.

Lemma prefix_freeb_sound rs : prefix_freeb rs = true -> prefix_free rs.
Proof.
  induction rs as [|r rs IH]; intros H.
  - split; [constructor|intros a b []].
  - simpl in H. apply andb_true_iff in H as [H1 H2]. destruct (IH H2) as [Hnd Hpf].
    rewrite forallb_forall in H1.
    assert (H1' : forall q, In q rs -> ~ is_prefix (lhs r) (lhs q) /\ ~ is_prefix (lhs q) (lhs r)).
    { intros q Hq. specialize (H1 q Hq). apply andb_true_iff in H1 as [A B].
      split; intros C; apply prefixb_spec in C; rewrite C in *; discriminate. }
    split.
    + constructor; auto. intros Hin. destruct (H1' r Hin) as [A _]. apply A. exists []. rewrite app_nil_r; auto.
    + intros a b [<-|Ha] [<-|Hb] Hne; try congruence.
      * apply H1'; auto.
      * apply H1'; auto.
      * apply Hpf; auto.
Qed.

Definition preserve_ok (d : script_data) : bool :=
  good_preserveb (sd_preserve d) (script_sigma d) && prefix_freeb (spans (sd_preserve d)) &&
  forallb (fun p => existsb (fun j => memN j (pseq p)) joiners) (sd_preserve d).

Lemma all_preserve_ok : forallb preserve_ok all_scripts = true.
Proof. vm_compute. reflexivity. Qed.

Lemma shipped_preserve d : In d all_scripts ->
  good_preserve (sd_preserve d) (script_sigma d) /\ prefix_free (spans (sd_preserve d)) /\
  forall it, In it (sd_preserve d) -> exists j, In j joiners /\ In j (pseq it).
Proof.
  intros Hd. pose proof all_preserve_ok as H. rewrite forallb_forall in H. specialize (H d Hd).
  apply andb_true_iff in H as [H H3]. apply andb_true_iff in H as [H1 H2].
  split; [apply good_preserveb_sound; auto|]. split; [apply prefix_freeb_sound; auto|].
  intros it Hit. rewrite forallb_forall in H3. specialize (H3 it Hit).
  apply existsb_exists in H3 as (j & Hj & H4). exists j; split; auto. apply memN_spec; auto.
Qed.

(** ** Totality of the shipped grammars *)

Definition rules_ok (rs : list rule) (sigma : list N) : bool :=
  forallb (fun r => negb (str_eqb (lhs r) [])) rs &&
  forallb (fun r => over sigma (rhs r)) rs &&
  match partition_unordered rs with Layers _ => true | _ => false end.

Lemma rules_ok_total ns rs sigma : rules_ok rs sigma = true ->
  exists f, fst_from_rules ns rs sigma = Some f /\
    forall s, over sigma s = true -> exists t, f s = [t] /\ over sigma t = true.
Proof.
  intros H. apply andb_true_iff in H as [H H3]. apply andb_true_iff in H as [H1 H2].
  rewrite forallb_forall in H1, H2.
  assert (Hne : nonempty_lhs rs).
  { intros r Hr. apply H1 in Hr. apply negb_true_iff, str_eqb_neq in Hr. exact Hr. }
  pose proof (fst_from_rules_spec ns rs sigma Hne H2) as HS.
  destruct (partition_unordered rs) as [ls| |]; try discriminate.
  destruct HS as (f & Hf & Hs & _). exists f. split; auto. intros s Ho.
  destruct (Hs s Ho) as (t & E & Ho' & _). eauto.
Qed.

Definition script_ok (d : script_data) : bool :=
  rules_ok (sd_nfc d) (script_sigma d) && rules_ok (sd_visual_rewrite d) (script_sigma d) &&
  rules_ok (sd_reading_norm d) (script_sigma d).

Lemma all_scripts_ok : forallb script_ok all_scripts = true.
Proof. vm_compute. reflexivity. Qed.

Lemma dedup_total ns chars sigma : chars <> [] ->
  exists f, dedup_chars ns chars sigma = Some f /\
    forall s, over sigma s = true -> exists t, f s = [t] /\ over sigma t = true.
Proof.
  intros Hne. destruct (dedup_chars_spec ns chars sigma Hne) as (f & Hf & H & _).
  exists f; split; auto. intros s Ho. destruct (runs_exist s) as (r & Hm & <-).
  exists (expand (shrink chars r)). split; [apply H; auto|]. clear - Ho.
  unfold over in *. rewrite forallb_forall in *. intros c Hc. apply Ho.
  apply in_flat_map in Hc as ([d n] & Hp & Hc). unfold shrink in Hp.
  apply in_map_iff in Hp as ([e m] & E & Hp). apply in_flat_map. exists (e, m). split; auto.
  cbn [fst snd] in *.
  destruct (memN e chars); injection E as <- <-; apply repeat_spec in Hc; subst; left; auto.
Qed.

Lemma visual_norm_total ns is_mn d :
  rules_ok (sd_nfc d) (script_sigma d) = true ->
  rules_ok (sd_visual_rewrite d) (script_sigma d) = true ->
  good_preserve (sd_preserve d) (script_sigma d) ->
  prefix_free (spans (sd_preserve d)) ->
  exists f, script_visual_norm ns is_mn d = Some f /\
    forall s, over (script_sigma d) s = true -> exists t, f s = [t] /\ over (script_sigma d) t = true.
Proof.
  intros H1 H2 Hg Hp. unfold script_visual_norm, script_nfc, script_dedup.
  destruct (rules_ok_total ns _ _ H1) as (nfc & -> & Hn).
  destruct (dedup_total ns (mark_chars (script_chars d) is_mn) (script_sigma d)) as (dd & -> & Hd).
  { discriminate. }
  destruct (rules_ok_total ns _ _ H2) as (rw & -> & Hr).
  destruct (visual_total ns nfc dd rw _ (inputs (sd_consonant d)) _ Hg Hp) as (f & Hf & H).
  exists f; split; auto. intros s Ho.
  destruct (Hn s Ho) as (a & Ea & Oa). destruct (Hd a Oa) as (b & Eb & Ob).
  destruct (Hr b Ob) as (u & Eu & Ou). destruct (H s a b u Ea Eb Eu Ou) as (t & Et).
  exists t; split; auto.
  destruct (visual_joiners _ _ _ _ _ _ _ f Hg Hf s t) as [Hov _]; auto. rewrite Et; left; auto.
Qed.

Lemma shipped_visual_total ns is_mn d : In d all_scripts ->
  exists f, script_visual_norm ns is_mn d = Some f /\
    forall s, over (script_sigma d) s = true -> exists t, f s = [t] /\ over (script_sigma d) t = true.
Proof.
  intros Hd. destruct (shipped_preserve d Hd) as (Hg & Hp & _).
  pose proof all_scripts_ok as H. rewrite forallb_forall in H. specialize (H d Hd).
  unfold script_ok in H. apply andb_true_iff in H as [H _]. apply andb_true_iff in H as [H1 H2].
  apply visual_norm_total; auto.
Qed.

Lemma shipped_reading_total ns d : In d all_scripts ->
  exists f, script_reading_norm ns d = Some f /\
    forall s, over (script_sigma d) s = true -> exists t, f s = [t] /\ over (script_sigma d) t = true.
Proof.
  intros Hd.
  pose proof all_scripts_ok as H. rewrite forallb_forall in H. specialize (H d Hd).
  unfold script_ok in H. apply andb_true_iff in H as [_ H]. apply rules_ok_total; auto.
Qed.

(** Joiners in the output of a shipped visual normalizer. *)
Lemma shipped_joiners ns is_mn d f : In d all_scripts -> script_visual_norm ns is_mn d = Some f ->
  forall s t a j b, over (script_sigma d) s = true -> In t (f s) -> t = a ++ j :: b -> In j joiners ->
  exists x y p q it, In it (sd_preserve d) /\ pseq it = p ++ j :: q /\ a = x ++ p /\ b = q ++ y.
Proof.
  intros Hd Hf s t a j b Ho Ht E Hj. destruct (shipped_preserve d Hd) as (Hg & Hp & _).
  pose proof all_scripts_ok as H. rewrite forallb_forall in H. specialize (H d Hd).
  unfold script_ok in H. apply andb_true_iff in H as [H _]. apply andb_true_iff in H as [H1 H2].
  unfold script_visual_norm, script_nfc, script_dedup in Hf.
  destruct (rules_ok_total ns _ _ H1) as (nfc & En & Hn).
  destruct (dedup_total ns (mark_chars (script_chars d) is_mn) (script_sigma d)) as (dd & Ed & Hdd).
  { discriminate. }
  destruct (rules_ok_total ns _ _ H2) as (rw & Er & Hr).
  rewrite En, Ed, Er in Hf.
  destruct (visual_joiners _ _ _ _ _ _ _ f Hg Hf s t Ht) as (_ & u & Hu & H).
  assert (Ou : over (script_sigma d) u = true).
  { destruct Hu as (x & y & Hx & Hy & Hu).
    destruct (Hn s Ho) as (x' & Ex & Ox). rewrite Ex in Hx. destruct Hx as [<-|[]].
    destruct (Hdd x' Ox) as (y' & Ey & Oy). rewrite Ey in Hy. destruct Hy as [<-|[]].
    destruct (Hr y' Oy) as (u' & Eu & Ou'). rewrite Eu in Hu. destruct Hu as [<-|[]]. auto. }
  destruct (H Ou) as (_ & Hin & _). eapply Hin; eauto.
Qed.
