(** The reader of letters finds the romanizations of the shipped scripts. *)
From Verif Require Import Base RuleModel VisualModel ScriptData ScriptTables ScriptModel IsoModel IsoSpec IsoPieceSpec IsoPieces IsoRoundSpec IsoRound IsoProofs IsoFullModel IsoFull IsoTextSpec IsoText IsoLongest.
From Coq Require Import Lia.

Lemma exchanges : forallb (fun d => script_exchange_ok d []) longest_scripts = true. Proof. vm_cast_no_check (eq_refl true). Qed.
Lemma bengali_exchange : script_exchange_ok data_Beng bengali_odd = true. Proof. vm_cast_no_check (eq_refl true). Qed.
Lemma kannada_exchange : script_exchange_ok data_Knda kannada_odd = true. Proof. vm_cast_no_check (eq_refl true). Qed.
Lemma longest_all d : In d longest_scripts -> In d all_scripts.
Proof. unfold longest_scripts, all_scripts. cbn [In]. intros H. repeat (destruct H as [<-|H]; [repeat (first [left; reflexivity|right])|]). destruct H. Qed.
Lemma beng_all : In data_Beng all_scripts. Proof. unfold all_scripts. cbn [In]. tauto. Qed.
Lemma knda_all : In data_Knda all_scripts. Proof. unfold all_scripts. cbn [In]. tauto. Qed.
Lemma reader d odd : In d all_scripts -> script_exchange_ok d odd = true -> forall x, avoids odd x -> forall y, In y (best_outs (iso_wt d) x) <-> romanize d x = Some y.
Proof.
  intros I X x A y. pose proof (proj1 (forallb_forall _ _) all_letters_ok d I) as Q. cbv beta in Q. destruct (shipped_star_ok d I) as [S _].
  assert (B : forall z, romanize d x = Some z -> In z (best_outs (iso_wt d) x)).
  { intros z Z. apply best_outs_best; [exact S|]. exact (romanize_best d odd Q X _ _ A Z). }
  split; [|apply B]. intros H. destruct (proj1 (best_outs_best _ _ _ S) H) as (w & R & _). destruct (rel_romanize d odd Q X _ _ _ A R) as (z & Z).
  rewrite (one_romanization d I x y z H (B z Z)). exact Z.
Qed.
Lemma romanize_all d : In d longest_scripts -> forall x y, In y (best_outs (iso_wt d) x) <-> romanize d x = Some y.
Proof. intros I x. apply (reader d [] (longest_all d I)); [exact (proj1 (forallb_forall _ _) exchanges d I)|]. intros o []. Qed.
Lemma romanize_bengali x : lacks bengali_odd x -> forall y, In y (best_outs (iso_wt data_Beng) x) <-> romanize data_Beng x = Some y.
Proof. exact (reader data_Beng bengali_odd beng_all bengali_exchange x). Qed.
Lemma romanize_kannada x : lacks kannada_odd x -> forall y, In y (best_outs (iso_wt data_Knda) x) <-> romanize data_Knda x = Some y.
Proof. exact (reader data_Knda kannada_odd knda_all kannada_exchange x). Qed.
(** the exported romanization *)
Lemma exported ns d : In d longest_scripts -> forall x, over (script_sigma d) x = true ->
  exists nfc t l, script_nfc ns d = Some nfc /\ nfc x = [t] /\ from_script ns d x = Some l /\ forall y, In y (best_among l) <-> romanize d t = Some y.
Proof. intros I x O. destruct (from_best ns d x (longest_all d I) O) as (f & t & l & Hf & Et & Hl & B). exists f, t, l. repeat split; try assumption; rewrite B; apply romanize_all, I. Qed.
(** reading back *)
Lemma romanize_back d : In d longest_scripts -> In d one_reading_scripts -> forall x y, romanize d x = Some y -> forall z, In z (best_outs (w_invert (iso_wt d)) y) <-> z = x.
Proof. intros I J x y H z. apply (round_trip d J). apply romanize_all; assumption. Qed.
Lemma romanize_one d : In d longest_scripts -> In d one_reading_scripts -> forall x x' y, romanize d x = Some y -> romanize d x' = Some y -> x = x'.
Proof. intros I J x x' y H H'. apply (romanize_back d I J x' y H'). apply (romanize_back d I J x y H). reflexivity. Qed.
(** a text of letters has a romanization *)
Lemma read_total v l : ~ (exists o, In (Subjoined o) l) -> forall p, exists y, read (Some v) p l = Some y.
Proof.
  intros H. induction l as [|c l IH]; intros p; [destruct p; eexists; reflexivity|].
  assert (H' : ~ (exists o, In (Subjoined o) l)) by (intros (o & I); apply H; exists o; right; exact I).
  assert (K : forall a p', exists y, write (Some a) (read (Some v) p' l) = Some y) by (intros a p'; destruct (IH H' p') as (y & ->); eexists; reflexivity).
  assert (W : forall a r, (exists y, r = Some y) -> exists y, write (Some a) r = Some y) by (intros a r (y & ->); eexists; reflexivity).
  destruct c as [o|o|o| |o|o]; try (destruct H; exists o; left; reflexivity); cbn [read];
    destruct p as [|[]|]; repeat first [apply K|apply IH, H'|apply W].
Qed.
Lemma romanize_total d : inherent d <> None -> forall x l, letters d 0 x = Some l -> ~ (exists o, In (Subjoined o) l) -> exists y, romanize d x = Some y.
Proof. intros V x l E H. unfold romanize. rewrite E. destruct (inherent d) as [v|]; [apply read_total, H|destruct (V eq_refl)]. Qed.
(** the exceptions *)
Lemma bengali_refuted : exists x y, In y (best_outs (iso_wt data_Beng) x) /\ romanize data_Beng x <> Some y.
Proof. exists [2441; 2494; 2492]%N. eexists. split; [vm_compute; left; reflexivity|vm_compute; discriminate]. Qed.
Lemma kannada_refuted : exists x y, In y (best_outs (iso_wt data_Knda) x) /\ romanize data_Knda x <> Some y.
Proof. exists [3206; 3277; 3247; 3277; 3205]%N. eexists. split; [vm_compute; left; reflexivity|vm_compute; discriminate]. Qed.
