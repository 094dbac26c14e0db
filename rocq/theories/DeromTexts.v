(** The scripts of Hindi and Tamil, and the readings of their words. *)
From Coq Require Import String Lia.
From Verif Require Import Base RuleModel VisualModel ScriptData ScriptModel ScriptTables IsoModel IsoSpec IsoPieceSpec Utf8Model NatModel NatSpec.
From Verif Require RuleSpec RuleProofs RewriteProofs IdemProofs ScriptChecks.
From Verif Require Import IsoFullModel IsoRoundSpec IsoProofs IsoRound IsoFull DeromSpec DeromIso DeromCost DeromAgree.
Local Open Scope list_scope.

Definition in1 (f : string_file) (c : N) : bool := existsb (fun r : str * option str => str_eqb (fst r) [c]) f.
Definition cls_of (d : script_data) (c : N) : cls :=
  if in1 (sd_virama d) c then kV else if N.eqb c 2364 then kX else if N.eqb c 2947 then kY else if in1 (sd_consonant d) c then kC else if in1 (sd_vowel_sign d) c then kS else if in1 (sd_vowel d) c then kI else if in1 (sd_coda d) c then kK else kO.
Lemma hi_costs : costs_ok data_Deva (cls_of data_Deva) = true. Proof. vm_compute. reflexivity. Qed.
Lemma ta_costs : costs_ok data_Taml (cls_of data_Taml) = true. Proof. vm_compute. reflexivity. Qed.
Lemma hi_texts_ok : texts_ok hindi = true. Proof. vm_compute. reflexivity. Qed.
Lemma ta_texts_ok : texts_ok tamil = true. Proof. vm_compute. reflexivity. Qed.
Lemma hi_aksharas : forallb (akshara_b data_Deva (cls_of data_Deva) hindi) (all_aksharas hindi) = true. Proof. vm_compute. reflexivity. Qed.
Lemma ta_aksharas : forallb (akshara_b data_Taml (cls_of data_Taml) tamil) (all_aksharas tamil) = true. Proof. vm_compute. reflexivity. Qed.

(** ** NFC leaves the texts alone *)
Fixpoint pairs (s : str) : list (N * N) := match s with a :: (b :: _) as s' => (a, b) :: pairs s' | _ => [] end.
Lemma pairs_app a b x y : In (x, y) (pairs (a ++ b)) -> In (x, y) (pairs a) \/ In (x, y) (pairs b) \/ exists b', b = y :: b'.
Proof.
  induction a as [|c a IH]; [auto|]. destruct a as [|c' a].
  - destruct b as [|e b]; [auto|]. cbn [app pairs]. intros [E|H]; [injection E as <- <-; right; right; exists b; reflexivity|auto].
  - cbn [app pairs]. intros [E|H]; [left; left; exact E|]. destruct (IH H) as [H'|H']; [left; right; exact H'|right; exact H'].
Qed.
Lemma pairs_infix a b s : is_infix [a; b] s -> In (a, b) (pairs s).
Proof. intros (u & v & ->). induction u as [|c u IH]; [left; reflexivity|]. change ((c :: u) ++ [a; b] ++ v) with (c :: (u ++ [a; b] ++ v)). destruct (u ++ [a; b] ++ v) as [|e w] eqn:E; [destruct u; discriminate E|]. cbn [pairs]. right. exact IH. Qed.
Definition pair_in (p : N * N) (l : list (N * N)) : bool := existsb (fun q => N.eqb (fst p) (fst q) && N.eqb (snd p) (snd q)) l.
Lemma pair_in_ok p l : In p l -> pair_in p l = true.
Proof. intros H. apply existsb_exists. exists p. split; [exact H|]. rewrite !N.eqb_refl. reflexivity. Qed.
Definition lhs_free (pieces : list str) (l : str) : bool :=
  match l with
  | [a] => forallb (fun s => negb (existsb (N.eqb a) s)) pieces
  | [a; b] => forallb (fun s => negb (pair_in (a, b) (pairs s)) && match s with [] => false | c :: _ => negb (N.eqb b c) end) pieces
  | _ => false
  end.
Lemma free_infix pieces l : lhs_free pieces l = true -> forall ps, Forall (fun s => In s pieces) ps -> ~ is_infix l (concat ps).
Proof.
  intros C ps F I. destruct l as [|a [|b [|]]]; try discriminate C; cbn [lhs_free] in C; rewrite forallb_forall in C.
  - destruct I as (u & v & E). assert (In a (concat ps)) by (rewrite E; apply in_or_app; right; left; reflexivity). apply in_concat in H as (s & Is & Ia). rewrite Forall_forall in F. specialize (C s (F s Is)). apply negb_true_iff in C. rewrite <- not_true_iff_false in C. apply C. apply existsb_exists. exists a. split; [exact Ia|apply N.eqb_refl].
  - apply pairs_infix in I. induction F as [|s ps Hs F IH]; [destruct I|]. cbn [concat] in I. apply pairs_app in I as [I|[I|(b' & E)]]; [|exact (IH I)|].
    + specialize (C s Hs). apply andb_prop in C as [C _]. rewrite (pair_in_ok _ _ I) in C. discriminate C.
    + destruct F as [|s' ps Hs' F]; [discriminate E|]. specialize (C s' Hs'). apply andb_prop in C as [_ C]. destruct s' as [|c s']; [discriminate C|]. cbn in E. injection E as -> _. rewrite N.eqb_refl in C. discriminate C.
Qed.
Definition nfc_free (d : script_data) (o : orthography) : bool :=
  let ps := map (ncp o) (all_aksharas o) in forallb (fun r => lhs_free ps (lhs r)) (sd_nfc d) && forallb (over (script_sigma d)) ps.
Lemma hi_nfc_free : nfc_free data_Deva hindi = true. Proof. vm_compute. reflexivity. Qed.
Lemma ta_nfc_free : nfc_free data_Taml tamil = true. Proof. vm_compute. reflexivity. Qed.
Lemma over_app s a b : over s (a ++ b) = over s a && over s b. Proof. apply forallb_app. Qed.
Lemma nfc_text ns d o l : In d all_scripts -> nfc_free d o = true -> Forall (known o) l -> over (script_sigma d) (native_code o l) = true /\ exists f, script_nfc ns d = Some f /\ f (native_code o l) = [native_code o l].
Proof.
  intros Hd C F. unfold nfc_free in C. apply andb_prop in C as [C1 C2]. rewrite forallb_forall in C1, C2.
  assert (O : over (script_sigma d) (native_code o l) = true).
  { induction F as [|x l K _ IH]; [reflexivity|]. unfold native_code. cbn [flat_map]. rewrite over_app. fold (native_code o l). rewrite IH, andb_true_r. apply C2, in_map, known_all, K. }
  split; [exact O|]. destruct (shipped_nfc ns d Hd) as (f & Hf & _). exists f. split; [exact Hf|]. unfold script_nfc in Hf.
  pose proof ScriptChecks.all_scripts_ok as Q. rewrite forallb_forall in Q. specialize (Q _ Hd). unfold ScriptChecks.script_ok in Q. apply andb_prop in Q as [Q _]. apply andb_prop in Q as [Q _].
  unfold ScriptChecks.rules_ok in Q. apply andb_prop in Q as [Q _]. apply andb_prop in Q as [Qn Qo]. rewrite forallb_forall in Qn, Qo.
  apply (IdemProofs.no_lhs_identity ns (sd_nfc d) (script_sigma d)); [|exact Qo|exact Hf|exact O|].
  - intros r Hr. specialize (Qn r Hr). apply negb_true_iff, str_eqb_neq in Qn. exact Qn.
  - intros r Hr. unfold native_code. rewrite flat_map_concat_map. apply (free_infix (map (ncp o) (all_aksharas o))); [exact (C1 r Hr)|]. apply Forall_forall. intros s Is. apply in_map_iff in Is as (x & <- & Ix). apply in_map, known_all. rewrite Forall_forall in F. exact (F x Ix).
Qed.

(** ** The agreement *)
Lemma deva_all : In data_Deva all_scripts. Proof. unfold all_scripts. cbn [In]. tauto. Qed.
Lemma taml_all : In data_Taml all_scripts. Proof. unfold all_scripts. cbn [In]. tauto. Qed.
Lemma agree ns d cl o l : In d all_scripts -> costs_ok d cl = true -> forallb (akshara_b d cl o) (all_aksharas o) = true -> nfc_free d o = true -> Forall (known o) l -> chained true l ->
  exists r, from_script ns d (native_code o l) = Some r /\ forall y, In y (best_among r) <-> y = iso_code o l.
Proof.
  intros Hd C A Nf F Ch. destruct (nfc_text ns d o l Hd Nf F) as (O & f & Hf & Ef). destruct (from_best ns d _ Hd O) as (f' & t & r & Hf' & Et & Hr & B).
  rewrite Hf in Hf'. injection Hf' as <-. rewrite Ef in Et. injection Et as <-. exists r. split; [exact Hr|]. rewrite B.
  assert (I : In (iso_code o l) (best_outs (iso_wt d) (native_code o l))).
  { apply best_outs_best; [exact (proj1 (shipped_star_ok d Hd))|]. eexists. exact (best_text d cl o A C l F Ch). }
  intros y. split; [intros Hy; exact (one_romanization d Hd _ _ _ Hy I)|intros ->; exact I].
Qed.
