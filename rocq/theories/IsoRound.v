From Verif Require Import Base RuleModel VisualModel ScriptData ScriptModel ScriptTables IsoModel IsoSpec IsoProofs MachineModel MachineProofs SymModel SymProofs IsoDists IsoRoundSpec.
From Coq Require Import Lia.

(** ** The numbered form is the expression *)
Lemma iso_body_denotes d : WStar (denote (iso_maps d) iso_body) = iso_wt d.
Proof. unfold iso_wt, iso_units, ques_safe, string_map, w_ques, iso_maps. cbv zeta. destruct (sd_subjoined_consonant d); reflexivity. Qed.
Lemma map_at_flip env n : map_at (flip env) n = map (fun p => (snd p, fst p)) (map_at env n).
Proof. unfold map_at, flip. rewrite nth_error_map. destruct (nth_error env n); reflexivity. Qed.
Lemma flip_denotes env s : denote (flip env) s = w_invert (denote env s).
Proof. induction s as [n|w|a IHa b IHb|a IHa b IHb|a IHa]; cbn [denote w_invert]; rewrite ?map_at_flip, ?IHa, ?IHb; reflexivity. Qed.
Lemma iso_body_inverse d : WStar (denote (flip (iso_maps d)) iso_body) = w_invert (iso_wt d).
Proof. rewrite flip_denotes, <- iso_body_denotes. reflexivity. Qed.

(** ** Checks *)
Definition one_way (env : maps) (l : list (positive * positive * N * N)) : bool :=
  match decide env iso_body l 1000 with Some _ => true | None => false end.
Definition both_ways (env : maps) (l m : list (positive * positive * N * N)) : bool :=
  match decide env iso_body l 1000, decide (flip env) iso_body m 1000 with
  | Some F, Some G => inverse_ok F G (alphabet_of env) 2000
  | _, _ => false
  end.
Definition certificates : list (script_data * (list (positive * positive * N * N) * list (positive * positive * N * N))) :=
  [(data_Beng, (dists_from_Beng, dists_to_Beng)); (data_Bugi, (dists_from_Bugi, dists_to_Bugi)); (data_Deva, (dists_from_Deva, dists_to_Deva));
   (data_Gujr, (dists_from_Gujr, dists_to_Gujr)); (data_Knda, (dists_from_Knda, dists_to_Knda)); (data_Lepc, (dists_from_Lepc, dists_to_Lepc));
   (data_Limb, (dists_from_Limb, dists_to_Limb)); (data_Mlym, (dists_from_Mlym, dists_to_Mlym)); (data_Mtei, (dists_from_Mtei, dists_to_Mtei));
   (data_Newa, (dists_from_Newa, dists_to_Newa)); (data_Orya, (dists_from_Orya, dists_to_Orya)); (data_Sinh, (dists_from_Sinh, dists_to_Sinh));
   (data_Sylo, (dists_from_Sylo, dists_to_Sylo)); (data_Takr, (dists_from_Takr, dists_to_Takr)); (data_Taml, (dists_from_Taml, dists_to_Taml));
   (data_Telu, (dists_from_Telu, dists_to_Telu)); (data_Tglg, (dists_from_Tglg, dists_to_Tglg)); (data_Thaa, (dists_from_Thaa, dists_to_Thaa));
   (data_Tirh, (dists_from_Tirh, dists_to_Tirh))].
Lemma all_both_ways : forallb (fun p => both_ways (iso_maps (fst p)) (fst (snd p)) (snd (snd p))) certificates = true.
Proof. vm_cast_no_check (eq_refl true). Qed.
(** Gurmukhi without the row of SHA *)
Definition no_sha (env : maps) : maps := map (filter (fun p : str * str => negb (memN 2614 (fst p)))) env.
Lemma guru_one_way : one_way (iso_maps data_Guru) dists_from_Guru = true.
Proof. vm_cast_no_check (eq_refl true). Qed.
Lemma guru_both_ways : both_ways (no_sha (iso_maps data_Guru)) dists_from_Guru_nfc dists_to_Guru_nfc = true.
Proof. vm_cast_no_check (eq_refl true). Qed.

(** ** What they mean *)
Definition single (r : wt) : Prop := forall x o o' w w', best r x o w -> best r x o' w' -> o = o'.
Lemma one_way_sound env l : one_way env l = true -> single (WStar (denote env iso_body)).
Proof.
  unfold one_way. destruct (decide env iso_body l 1000) as [M|] eqn:E; [|discriminate]. intros _ x o o' w w' H H'.
  destruct (decide_sound _ _ _ _ _ (Nat.lt_0_succ 999) E) as [S _].
  assert (A : srun M 1 x = Some o) by (apply S; exists w; exact H). assert (B : srun M 1 x = Some o') by (apply S; exists w'; exact H'). congruence.
Qed.
Lemma both_ways_sound env l m : both_ways env l m = true ->
  single (WStar (denote env iso_body)) /\ single (WStar (denote (flip env) iso_body)) /\
  forall x y w, best (WStar (denote env iso_body)) x y w -> exists w', best (WStar (denote (flip env) iso_body)) y x w'.
Proof.
  intros H. split; [|split].
  - apply (one_way_sound env l). unfold both_ways in H. unfold one_way. destruct (decide env iso_body l 1000); [reflexivity|discriminate].
  - apply (one_way_sound (flip env) m). unfold both_ways in H. unfold one_way. destruct (decide env iso_body l 1000); [|discriminate]. destruct (decide (flip env) iso_body m 1000); [reflexivity|discriminate].
  - unfold both_ways in H. destruct (decide env iso_body l 1000) as [F|] eqn:EF; [|discriminate]. destruct (decide (flip env) iso_body m 1000) as [G|] eqn:EG; [|discriminate]. intros x y w B.
    destruct (decide_sound _ _ _ _ _ (Nat.lt_0_succ 999) EF) as [SF CF]. destruct (decide_sound _ _ _ _ _ (Nat.lt_0_succ 999) EG) as [SG _].
    apply SG. apply (inverse_sound F G (alphabet_of env) CF _ H). apply SF. exists w. exact B.
Qed.
Lemma shipped_both_ways d : In d one_reading_scripts -> single (iso_wt d) /\ single (w_invert (iso_wt d)) /\
  forall x y w, best (iso_wt d) x y w -> exists w', best (w_invert (iso_wt d)) y x w'.
Proof.
  intros H. assert (K : In d (map fst certificates)) by exact H. apply in_map_iff in K as ([d0 [l m]] & E & K). cbn in E. subst d0.
  pose proof all_both_ways as Q. rewrite forallb_forall in Q. specialize (Q _ K). cbn [fst snd] in Q. apply both_ways_sound in Q. rewrite iso_body_denotes, iso_body_inverse in Q. exact Q.
Qed.

(** ** Gurmukhi *)
Section Hom.
Variable h : str -> str.
Hypothesis h_nil : h [] = [].
Hypothesis h_app : forall a b, h (a ++ b) = h a ++ h b.
Variables env env' : maps.
Hypothesis sent : forall n i o, In (i, o) (map_at env n) -> In (h i, o) (map_at env' n).
Hypothesis part : forall n i o, In (i, o) (map_at env' n) -> In (i, o) (map_at env n).
Lemma hom_rel r i o w : rel r i o w -> forall s, r = denote env s -> rel (denote env' s) (h i) o w.
Proof.
  induction 1 as [l i o H|w|a b i o w i' o' w' _ IH1 _ IH2|a b i o w _ IH|a b i o w _ IH|a|a i o w i' o' w' _ IH1 _ IH2]; intros s E; destruct s as [n|v|s1 s2|s1 s2|s1]; try discriminate E; cbn [denote] in E |- *; injection E as E.
  - subst l. constructor. apply sent. exact H.
  - subst v. rewrite h_nil. constructor.
  - rewrite h_app. constructor; auto.
  - apply R_alt1; auto.
  - apply R_alt2; auto.
  - rewrite h_nil. constructor.
  - rewrite h_app. constructor; [auto|]. apply (IH2 (SStar s1)). cbn. congruence.
Qed.
Lemma part_rel r i o w : rel r i o w -> forall s, r = denote env' s -> rel (denote env s) i o w.
Proof.
  induction 1 as [l i o H|w|a b i o w i' o' w' _ IH1 _ IH2|a b i o w _ IH|a b i o w _ IH|a|a i o w i' o' w' _ IH1 _ IH2]; intros s E; destruct s as [n|v|s1 s2|s1 s2|s1]; try discriminate E; cbn [denote] in E |- *; injection E as E.
  - subst l. constructor. apply part. exact H.
  - subst v. constructor.
  - constructor; auto.
  - apply R_alt1; auto.
  - apply R_alt2; auto.
  - constructor.
  - constructor; [auto|]. apply (IH2 (SStar s1)). cbn. congruence.
Qed.
Variable s : swt.
(** Back: a best text becomes a best text of the smaller tables *)
Lemma hom_best_back y z w : best (w_invert (denote env s)) y z w -> best (w_invert (denote env' s)) y (h z) w.
Proof.
  intros [R M]. split; [apply invert_rel, (hom_rel _ _ _ _ (proj1 (inverse _ _ _ _) R)); reflexivity|].
  intros o' w' R'. apply (M o'). apply invert_rel. apply (part_rel _ _ _ _ (proj1 (inverse _ _ _ _) R')). reflexivity.
Qed.
Lemma part_best_back y z w : best (w_invert (denote env' s)) y z w -> best (w_invert (denote env s)) y z w.
Proof.
  intros [R M]. split; [apply invert_rel, (part_rel _ _ _ _ (proj1 (inverse _ _ _ _) R)); reflexivity|].
  intros o' w' R'. apply (M (h o')). apply invert_rel. apply (hom_rel _ _ _ _ (proj1 (inverse _ _ _ _) R')). reflexivity.
Qed.
(** Forth: nothing changes for a text that is left as it is *)
Lemma hom_best_same x y w : h x = x -> (best (denote env' s) x y w <-> best (denote env s) x y w).
Proof.
  intros E. assert (Q : forall o v, rel (denote env' s) x o v <-> rel (denote env s) x o v).
  { intros o v. split; intros R; [apply (part_rel _ _ _ _ R); reflexivity|]. pose proof (hom_rel _ _ _ _ R s eq_refl) as K. rewrite E in K. exact K. }
  unfold best. rewrite Q. split; intros [R M]; (split; [exact R|]); intros o v R'; apply (M o v), Q, R'.
Qed.
End Hom.
Lemma sha_split_app a b : sha_split (a ++ b) = sha_split a ++ sha_split b.
Proof. apply flat_map_app. Qed.
Lemma map_at_no_sha env n : map_at (no_sha env) n = filter (fun p : str * str => negb (memN 2614 (fst p))) (map_at env n).
Proof. unfold map_at, no_sha. rewrite nth_error_map. destruct (nth_error env n); reflexivity. Qed.
Lemma map_at_in env n i o : In (i, o) (map_at env n) -> In (map_at env n) env.
Proof. unfold map_at. destruct (nth_error env n) as [l|] eqn:E; [intros _; exact (nth_error_In _ _ E)|intros []]. Qed.
Lemma guru_sent : forall n i o, In (i, o) (map_at (iso_maps data_Guru) n) -> In (sha_split i, o) (map_at (no_sha (iso_maps data_Guru)) n).
Proof.
  intros n i o H. rewrite map_at_no_sha. pose proof (map_at_in _ _ _ _ H) as E.
  assert (C : forallb (fun l => forallb (fun p => existsb (fun q => str_eqb (fst q) (sha_split (fst p)) && str_eqb (snd q) (snd p)) (filter (fun p : str * str => negb (memN 2614 (fst p))) l)) l) (iso_maps data_Guru) = true) by (vm_compute; reflexivity).
  rewrite forallb_forall in C. specialize (C _ E). rewrite forallb_forall in C. specialize (C _ H). apply existsb_exists in C as ([i' o'] & K & Q). cbn [fst snd] in Q.
  apply andb_prop in Q as [Q1 Q2]. apply str_eqb_eq in Q1. apply str_eqb_eq in Q2. subst. exact K.
Qed.
Lemma guru_part : forall n i o, In (i, o) (map_at (no_sha (iso_maps data_Guru)) n) -> In (i, o) (map_at (iso_maps data_Guru) n).
Proof. intros n i o. rewrite map_at_no_sha. intros H. apply filter_In in H as [H _]. exact H. Qed.
Lemma guru_back y z z' w w' : best (w_invert (iso_wt data_Guru)) y z w -> best (w_invert (iso_wt data_Guru)) y z' w' -> sha_split z = sha_split z'.
Proof.
  rewrite <- iso_body_denotes. change (WStar (denote (iso_maps data_Guru) iso_body)) with (denote (iso_maps data_Guru) (SStar iso_body)). intros H H'.
  apply (hom_best_back sha_split eq_refl sha_split_app _ _ guru_sent guru_part) in H. apply (hom_best_back sha_split eq_refl sha_split_app _ _ guru_sent guru_part) in H'.
  destruct (both_ways_sound _ _ _ guru_both_ways) as (_ & S & _). rewrite flip_denotes in S. exact (S _ _ _ _ _ H H').
Qed.
Lemma guru_round x y w : sha_split x = x -> best (iso_wt data_Guru) x y w -> exists w', best (w_invert (iso_wt data_Guru)) y x w'.
Proof.
  rewrite <- iso_body_denotes. change (WStar (denote (iso_maps data_Guru) iso_body)) with (denote (iso_maps data_Guru) (SStar iso_body)). intros E H.
  apply (hom_best_same sha_split eq_refl sha_split_app _ _ guru_sent guru_part _ _ _ _ E) in H.
  destruct (both_ways_sound _ _ _ guru_both_ways) as (_ & _ & S). destruct (S _ _ _ H) as (w' & B). exists w'. rewrite flip_denotes in B.
  exact (part_best_back sha_split eq_refl sha_split_app _ _ guru_sent guru_part (SStar iso_body) _ _ _ B).
Qed.

(** ** In terms of outputs *)
Lemma all_scripts_split d : In d all_scripts -> In d one_reading_scripts \/ d = data_Guru.
Proof.
  unfold all_scripts, one_reading_scripts. cbn [In]. intros H.
  repeat (destruct H as [<-|H]; [first [right; reflexivity|left; repeat (first [left; reflexivity|right])]|]). destruct H.
Qed.
Lemma one_romanization d : In d all_scripts -> forall x o o', In o (best_outs (iso_wt d) x) -> In o' (best_outs (iso_wt d) x) -> o = o'.
Proof.
  intros H x o o' B B'. destruct (shipped_star_ok d H) as [K _]. apply (best_outs_best _ _ _ K) in B as (w & B). apply (best_outs_best _ _ _ K) in B' as (w' & B').
  apply all_scripts_split in H as [H| ->].
  - destruct (shipped_both_ways d H) as [S _]. exact (S _ _ _ _ _ B B').
  - pose proof (one_way_sound _ _ guru_one_way) as S. rewrite iso_body_denotes in S. exact (S _ _ _ _ _ B B').
Qed.
Lemma one_reading_in d : In d one_reading_scripts -> In d all_scripts.
Proof.
  unfold all_scripts, one_reading_scripts. cbn [In]. intros H. repeat (destruct H as [<-|H]; [repeat (first [left; reflexivity|right])|]). destruct H.
Qed.
Lemma one_reading d : In d one_reading_scripts -> forall y z z', In z (best_outs (w_invert (iso_wt d)) y) -> In z' (best_outs (w_invert (iso_wt d)) y) -> z = z'.
Proof.
  intros H y z z' B B'. destruct (shipped_star_ok d (one_reading_in d H)) as [_ K]. apply (best_outs_best _ _ _ K) in B as (w & B). apply (best_outs_best _ _ _ K) in B' as (w' & B').
  destruct (shipped_both_ways d H) as (_ & S & _). exact (S _ _ _ _ _ B B').
Qed.
Lemma round_trip d : In d one_reading_scripts -> forall x y z, In y (best_outs (iso_wt d) x) -> (In z (best_outs (w_invert (iso_wt d)) y) <-> z = x).
Proof.
  intros H x y z B. destruct (shipped_star_ok d (one_reading_in d H)) as [K K']. apply (best_outs_best _ _ _ K) in B as (w & B).
  destruct (shipped_both_ways d H) as (_ & S & R). destruct (R _ _ _ B) as (w' & B'). split.
  - intros Hz. apply (best_outs_best _ _ _ K') in Hz as (v & Bz). exact (S _ _ _ _ _ Bz B').
  - intros ->. apply (best_outs_best _ _ _ K'). exists w'. exact B'.
Qed.
Lemma no_clash d : In d one_reading_scripts -> forall x x' y, In y (best_outs (iso_wt d) x) -> In y (best_outs (iso_wt d) x') -> x = x'.
Proof. intros H x x' y B B'. symmetry. apply (round_trip d H x y x' B). apply (round_trip d H x' y x' B'). reflexivity. Qed.
Lemma guru_in : In data_Guru all_scripts.
Proof. cbn [all_scripts In]. tauto. Qed.
Lemma guru_one_reading y z z' : In z (best_outs (w_invert (iso_wt data_Guru)) y) -> In z' (best_outs (w_invert (iso_wt data_Guru)) y) -> sha_split z = sha_split z'.
Proof.
  intros B B'. destruct (shipped_star_ok _ guru_in) as [_ K]. apply (best_outs_best _ _ _ K) in B as (w & B). apply (best_outs_best _ _ _ K) in B' as (w' & B'). exact (guru_back _ _ _ _ _ B B').
Qed.
Lemma guru_round_trip x y : sha_split x = x -> In y (best_outs (iso_wt data_Guru) x) ->
  In x (best_outs (w_invert (iso_wt data_Guru)) y) /\ forall z, In z (best_outs (w_invert (iso_wt data_Guru)) y) -> sha_split z = x.
Proof.
  intros E B. destruct (shipped_star_ok _ guru_in) as [K K']. apply (best_outs_best _ _ _ K) in B as (w & B). destruct (guru_round _ _ _ E B) as (w' & B').
  assert (I' : In x (best_outs (w_invert (iso_wt data_Guru)) y)) by (apply (best_outs_best _ _ _ K'); exists w'; exact B'). split; [exact I'|].
  intros z Hz. rewrite <- E. exact (guru_one_reading y z x Hz I').
Qed.
