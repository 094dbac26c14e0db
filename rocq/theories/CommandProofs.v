(** Proofs about the command-line programs. *)
From Coq Require Import String Ascii.
From Verif Require Import Base CommandModel CommandSpec.
Local Open Scope list_scope.

Section Flags.
  Variable parse_number : str -> option Z.
  Variable parse_truth : str -> option bool.
  Notation can_read := (can_read parse_number parse_truth).
  Notation readable := (readable parse_number parse_truth).
  Notation acceptable := (acceptable parse_number parse_truth).

  Lemma readable_spec k v : readable k v = true <-> can_read k v.
  Proof.
    unfold CommandSpec.can_read, CommandModel.readable. destruct k.
    - tauto.
    - destruct (parse_number v); split; congruence.
    - destruct (parse_truth v); split; congruence.
  Qed.

  Lemma kind_of_In defined name k : kind_of defined name = Some k -> In (name, k) defined.
  Proof.
    induction defined as [|[n k'] d IH]; simpl; [discriminate|]. destruct (str_eqb n name) eqn:E.
    - intros [= ->]. apply str_eqb_eq in E. subst. now left.
    - auto.
  Qed.
  Lemma kind_of_unique defined name k : NoDup (map fst defined) -> In (name, k) defined ->
    kind_of defined name = Some k.
  Proof.
    induction defined as [|[n k'] d IH]; simpl; [intros _ []|]. intros Hn [H|H].
    - injection H as -> ->. now rewrite (proj2 (str_eqb_eq _ _) eq_refl).
    - inversion Hn as [|? ? Hn1 Hn2]; subst. destruct (str_eqb n name) eqn:E; [|auto].
      apply str_eqb_eq in E. subst. destruct Hn1. exact (in_map fst _ _ H).
  Qed.

  Lemma acceptable_spec defined l : NoDup (map fst defined) ->
    (acceptable defined l = true <-> sound_args defined can_read l).
  Proof.
    intro Hn. unfold sound_args. induction l as [|[n v] l IH]; simpl.
    - split; [intros _ name v []|reflexivity].
    - destruct (kind_of defined n) as [k|] eqn:E.
      + rewrite andb_true_iff, readable_spec, IH. split.
        * intros [H1 H2] name v' [H|H]; [injection H as <- <-; exists k; split; [now apply kind_of_In|exact H1]|auto].
        * intro H. split; [|intros name v' Hv; apply H; now right].
          destruct (H n v (or_introl eq_refl)) as (k' & K1 & K2).
          rewrite (kind_of_unique _ _ _ Hn K1) in E. injection E as <-. exact K2.
      + split; [discriminate|]. intro H. destruct (H n v (or_introl eq_refl)) as (k' & K1 & _).
        rewrite (kind_of_unique _ _ _ Hn K1) in E. discriminate.
  Qed.

  Lemma assigned_spec l name : forall now,
    (exists v, given l name v /\ assigned l name now = Some v) \/
    (~ In name (map fst l) /\ assigned l name now = now).
  Proof.
    induction l as [|[n v] l IH]; intro now; cbn [assigned map fst].
    - right. split; [intros []|reflexivity].
    - destruct (IH (if str_eqb n name then Some v else now)) as [(v' & (a & b & -> & Hb) & H)|(Hn & H)].
      + left. exists v'. split; [|exact H]. exists ((n, v) :: a), b. split; [reflexivity|exact Hb].
      + destruct (str_eqb n name) eqn:E.
        * apply str_eqb_eq in E. subst. left. exists v. split; [|exact H]. exists [], l. auto.
        * apply str_eqb_neq in E. right. split; [intros [K|K]; auto|exact H].
  Qed.

  Lemma given_once l name v w : given l name v -> given l name w -> v = w.
  Proof.
    intros (a & b & -> & Hb) (a' & b' & E & Hb').
    revert a' E. induction a as [|x a IH]; intros [|x' a'] E; simpl in E.
    - now injection E.
    - injection E as <- ->. destruct Hb. rewrite map_app. apply in_app_iff. right. now left.
    - injection E as -> <-. destruct Hb'. rewrite map_app. apply in_app_iff. right. now left.
    - injection E as _ E. exact (IH a' E).
  Qed.
  Lemma given_In l name v : given l name v -> In (name, v) l.
  Proof. intros (a & b & -> & _). apply in_app_iff. right. now left. Qed.
  Lemma given_name l name v : given l name v -> In name (map fst l).
  Proof. intro H. exact (in_map fst _ _ (given_In _ _ _ H)). Qed.

  Lemma text_says l name d x : get_text l name d = x <-> says as_it_is l name d x.
  Proof.
    unfold get_text, says, as_it_is. destruct (assigned_spec l name None) as [(v & G & ->)|(Hn & ->)].
    - split.
      + intros <-. left. exists v. auto.
      + intros [(w & Gw & [= <-])|(Hn & _)]; [exact (given_once _ _ _ _ G Gw)|].
        destruct (Hn (given_name _ _ _ G)).
    - split; [intros <-; right; auto|]. intros [(w & Gw & _)|(_ & ->)]; [|reflexivity].
      destruct (Hn (given_name _ _ _ Gw)).
  Qed.

  Section Typed.
    Variables (A : Type) (read : str -> option A) (K : kind).
    Hypothesis HK : forall v, can_read K v -> read v <> None.
    Lemma typed_says defined l name d x : NoDup (map fst defined) -> In (name, K) defined ->
      sound_args defined can_read l ->
      (match assigned l name None with
       | Some v => match read v with Some z => z | None => d end
       | None => d end = x <-> says read l name d x).
    Proof.
      intros Hn Hd Hs. unfold says.
      destruct (assigned_spec l name None) as [(v & G & ->)|(Ha & ->)].
      - assert (R : read v <> None).
        { destruct (Hs name v (given_In _ _ _ G)) as (k & K1 & K2). apply HK.
          pose proof (kind_of_unique _ _ _ Hn K1) as E1. pose proof (kind_of_unique _ _ _ Hn Hd) as E2.
          rewrite E1 in E2. injection E2 as <-. exact K2. }
        destruct (read v) as [z|] eqn:E; [|congruence]. split.
        + intros <-. left. exists v. auto.
        + intros [(w & Gw & Ew)|(Ha & _)]; [|destruct (Ha (given_name _ _ _ G))].
          rewrite (given_once _ _ _ _ G Gw) in E. congruence.
      - split; [intros <-; right; auto|]. intros [(w & Gw & _)|(_ & ->)]; [|reflexivity].
        destruct (Ha (given_name _ _ _ Gw)).
    Qed.
  End Typed.

  Lemma number_says defined l name d x : NoDup (map fst defined) -> In (name, Number) defined ->
    sound_args defined can_read l ->
    (get_number parse_number l name d = x <-> says parse_number l name d x).
  Proof. apply (typed_says Z parse_number Number). auto. Qed.
  Lemma truth_says defined l name d x : NoDup (map fst defined) -> In (name, Truth) defined ->
    sound_args defined can_read l ->
    (get_truth parse_truth l name d = x <-> says parse_truth l name d x).
  Proof. apply (typed_says bool parse_truth Truth). auto. Qed.

  Lemma empty_spec s : negb (empty s) = true <-> s <> [].
  Proof. destruct s; simpl; split; congruence. Qed.

  (** All names of flags are different. *)
  Fixpoint distinct (l : list str) : bool :=
    match l with [] => true | x :: r => negb (existsb (str_eqb x) r) && distinct r end.
  Lemma distinct_NoDup l : distinct l = true -> NoDup l.
  Proof.
    induction l as [|x l IH]; simpl; intro H; constructor; apply andb_true_iff in H as [H1 H2]; auto.
    intro K. assert (E : existsb (str_eqb x) l = true).
    { apply existsb_exists. exists x. split; [exact K|]. now apply str_eqb_eq. }
    now rewrite E in H1.
  Qed.

  Lemma rejoin_works l i s k o :
    rejoin_main parse_number parse_truth l = Works (i, s, k, o) <->
    sound_args rejoin_flags can_read l /\
    says as_it_is l (text "ifile") [] i /\ says as_it_is l (text "split_file") [] s /\
    says parse_number l (text "kbest") (-1)%Z k /\ says as_it_is l (text "ofile") [] o /\
    i <> [] /\ s <> [] /\ o <> [].
  Proof.
    assert (ND : NoDup (map fst rejoin_flags)) by (apply distinct_NoDup; vm_compute; reflexivity).
    assert (IK : In (text "kbest", Number) rejoin_flags) by (simpl; tauto).
    unfold rejoin_main. change chars with text. pose proof (acceptable_spec _ l ND) as HA.
    destruct (acceptable rejoin_flags l) eqn:E.
    - pose proof (proj1 HA eq_refl) as HS.
      rewrite <- !text_says, <- (number_says _ l (text "kbest") (-1)%Z k ND IK HS).
      split.
      + intro H. destruct (_ && _ && _) eqn:E2; [|discriminate]. injection H as <- <- <- <-.
        rewrite !andb_true_iff, !empty_spec in E2. tauto.
      + intros (_ & <- & <- & <- & <- & H1 & H2 & H3).
        rewrite (proj2 (empty_spec _) H1), (proj2 (empty_spec _) H2), (proj2 (empty_spec _) H3).
        reflexivity.
    - split; [discriminate|]. intros (H & _). apply HA in H. discriminate.
  Qed.

  Lemma ensemble_works l i n k o :
    ensemble_main parse_number parse_truth l = Works (i, n, k, o) <->
    sound_args ensemble_flags can_read l /\
    says as_it_is l (text "ifiles") [] i /\ says as_it_is l (text "input_length_file") [] n /\
    says parse_number l (text "kbest") 20%Z k /\ says as_it_is l (text "ofile") [] o /\
    i <> [] /\ o <> [].
  Proof.
    assert (ND : NoDup (map fst ensemble_flags)) by (apply distinct_NoDup; vm_compute; reflexivity).
    assert (IK : In (text "kbest", Number) ensemble_flags) by (simpl; tauto).
    unfold ensemble_main. change chars with text. pose proof (acceptable_spec _ l ND) as HA.
    destruct (acceptable ensemble_flags l) eqn:E.
    - pose proof (proj1 HA eq_refl) as HS.
      rewrite <- !text_says, <- (number_says _ l (text "kbest") 20%Z k ND IK HS).
      split.
      + intro H. destruct (_ && _) eqn:E2; [|discriminate]. injection H as <- <- <- <-.
        rewrite !andb_true_iff, !empty_spec in E2. tauto.
      + intros (_ & <- & <- & <- & <- & H1 & H2).
        rewrite (proj2 (empty_spec _) H1), (proj2 (empty_spec _) H2).
        reflexivity.
    - split; [discriminate|]. intros (H & _). apply HA in H. discriminate.
  Qed.

  Lemma extract_works l i o k b1 b2 :
    extract_main parse_number parse_truth l = Works (i, o, k, b1, b2) <->
    sound_args extract_flags can_read l /\
    says as_it_is l (text "ifile") [] i /\ says as_it_is l (text "ofile") [] o /\
    says parse_number l (text "kbest") 20%Z k /\ says parse_truth l (text "show_score") false b1 /\
    says parse_truth l (text "show_full_input_string") false b2 /\
    i <> [] /\ o <> [].
  Proof.
    assert (ND : NoDup (map fst extract_flags)) by (apply distinct_NoDup; vm_compute; reflexivity).
    assert (IK : In (text "kbest", Number) extract_flags) by (simpl; tauto).
    assert (I1 : In (text "show_score", Truth) extract_flags) by (simpl; tauto).
    assert (I2 : In (text "show_full_input_string", Truth) extract_flags) by (simpl; tauto).
    unfold extract_main. change chars with text. pose proof (acceptable_spec _ l ND) as HA.
    destruct (acceptable extract_flags l) eqn:E.
    - pose proof (proj1 HA eq_refl) as HS.
      rewrite <- !text_says, <- (number_says _ l (text "kbest") 20%Z k ND IK HS),
        <- (truth_says _ l (text "show_score") false b1 ND I1 HS),
        <- (truth_says _ l (text "show_full_input_string") false b2 ND I2 HS).
      split.
      + intro H. destruct (_ && _) eqn:E2; [|discriminate]. injection H as <- <- <- <- <-.
        rewrite !andb_true_iff, !empty_spec in E2. tauto.
      + intros (_ & <- & <- & <- & <- & <- & H1 & H2).
        rewrite (proj2 (empty_spec _) H1), (proj2 (empty_spec _) H2).
        reflexivity.
    - split; [discriminate|]. intros (H & _). apply HA in H. discriminate.
  Qed.

  Lemma error_rate_works l r t o b1 b2 :
    error_rate_main parse_number parse_truth l = Works (r, t, o, b1, b2) <->
    sound_args error_rate_flags can_read l /\
    says as_it_is l (text "reference") [] r /\ says as_it_is l (text "testfile") [] t /\
    says as_it_is l (text "ofile") [] o /\ says parse_truth l (text "split_chars") true b1 /\
    says parse_truth l (text "pairwise_edits") false b2 /\
    r <> [] /\ t <> [] /\ o <> [].
  Proof.
    assert (ND : NoDup (map fst error_rate_flags)) by (apply distinct_NoDup; vm_compute; reflexivity).
    assert (I1 : In (text "split_chars", Truth) error_rate_flags) by (simpl; tauto).
    assert (I2 : In (text "pairwise_edits", Truth) error_rate_flags) by (simpl; tauto).
    unfold error_rate_main. change chars with text. pose proof (acceptable_spec _ l ND) as HA.
    destruct (acceptable error_rate_flags l) eqn:E.
    - pose proof (proj1 HA eq_refl) as HS.
      rewrite <- !text_says,
        <- (truth_says _ l (text "split_chars") true b1 ND I1 HS),
        <- (truth_says _ l (text "pairwise_edits") false b2 ND I2 HS).
      split.
      + intro H. destruct (_ && _ && _) eqn:E2; [|discriminate]. injection H as <- <- <- <- <-.
        rewrite !andb_true_iff, !empty_spec in E2. tauto.
      + intros (_ & <- & <- & <- & <- & <- & H1 & H2 & H3).
        rewrite (proj2 (empty_spec _) H1), (proj2 (empty_spec _) H2), (proj2 (empty_spec _) H3).
        reflexivity.
    - split; [discriminate|]. intros (H & _). apply HA in H. discriminate.
  Qed.

  Lemma unknown_flag defined l name : ~ In name (map fst defined) -> In name (map fst l) ->
    acceptable defined l = false.
  Proof.
    intros Hn Hl. induction l as [|[n v] l IH]; [destruct Hl|]. cbn [CommandModel.acceptable].
    destruct (kind_of defined n) as [k|] eqn:E; [|reflexivity].
    destruct Hl as [Hl|Hl].
    - simpl in Hl. subst. destruct Hn. exact (in_map fst _ _ (kind_of_In _ _ _ E)).
    - rewrite (IH Hl). apply andb_false_r.
  Qed.
End Flags.

Section Decoder.
  Variable parse_number : str -> option Z.
  Variable parse_truth : str -> option bool.
  Variable others : Type.
  Variable parse_config : str -> option (config others).
  Variable read_text : str -> option str.
  Variable decoder_ok : config others -> Z -> Z -> str -> str -> bool.
  Notation config_source := (config_source read_text).
  Notation main := (decoder_main parse_number parse_truth others parse_config read_text decoder_ok).

  Lemma config_text_spec l t : config_text read_text l = Some t <-> config_source l t.
  Proof.
    unfold config_text, CommandSpec.config_source. change chars with text.
    destruct (get_text l (text "pairlm_config") []) as [|c s] eqn:E1; cbn [empty negb];
      [destruct (get_text l (text "pairlm_config_file") []) as [|c2 s2] eqn:E2; cbn [empty negb]|].
    - apply text_says in E1, E2. split.
      + intros [= <-]. exists [], []. tauto.
      + intros (i & f & H1 & H2 & H). apply text_says in E1, E2, H1, H2.
        rewrite E1 in H1. rewrite E2 in H2. subst. destruct H as [(H & _)|[(_ & H & _)|(_ & _ & H)]]; [now destruct H|now destruct H|now rewrite H].
    - apply text_says in E1, E2. split.
      + intro H. exists [], (c2 :: s2). split; [exact E1|]. split; [exact E2|]. right. left.
        split; [reflexivity|]. split; [discriminate|exact H].
      + intros (i & f & H1 & H2 & H). apply text_says in E1, E2, H1, H2.
        rewrite E1 in H1. rewrite E2 in H2. subst. destruct H as [(H & _)|[(_ & _ & H)|(_ & H & _)]]; [now destruct H|exact H|discriminate].
    - apply text_says in E1. split.
      + intros [= <-]. exists (c :: s), (get_text l (text "pairlm_config_file") []).
        split; [exact E1|]. split; [now apply text_says|]. left. split; [discriminate|reflexivity].
      + intros (i & f & H1 & H2 & H). apply text_says in E1, H1. rewrite E1 in H1. subst.
        destruct H as [(_ & H)|[(H & _)|(H & _)]]; [now rewrite H|discriminate|discriminate].
  Qed.

  Lemma model_used_once p l c u v : model_used p l c u -> model_used p l c v -> u = v.
  Proof. intros [(?&?)|[(?&?&?)|(?&?&?)]] [(?&?)|[(?&?&?)|(?&?&?)]]; congruence. Qed.

  Lemma decoder_works l c k w i o e :
    main l = Works (c, k, w, i, o, e) <->
    sound_args decoder_flags (can_read parse_number parse_truth) l /\
    exists t c0 pair lm, config_source l t /\ parse_config t = Some c0 /\
      says as_it_is l (text "input_pairlm_fst_file") [] pair /\
      says as_it_is l (text "input_lm_fst_file") [] lm /\
      lm_file _ c = lm_file _ c0 /\ other_fields _ c = other_fields _ c0 /\
      model_used pair lm (pairlm_file _ c0) (pairlm_file _ c) /\
      says parse_number l (text "kbest") 1%Z k /\ says parse_number l (text "num_workers") 1%Z w /\
      says as_it_is l (text "ifile") [] i /\ says as_it_is l (text "ofile") [] o /\
      e = (if decoder_ok c k w i o then 0%Z else 1%Z).
  Proof.
    assert (ND : NoDup (map fst decoder_flags)) by (apply distinct_NoDup; vm_compute; reflexivity).
    assert (I1 : In (text "kbest", Number) decoder_flags) by (simpl; tauto).
    assert (I2 : In (text "num_workers", Number) decoder_flags) by (simpl; tauto).
    unfold decoder_main. change chars with text.
    pose proof (acceptable_spec parse_number parse_truth _ l ND) as HA.
    destruct (acceptable parse_number parse_truth decoder_flags l) eqn:E.
    2:{ split; [discriminate|]. intros (H & _). apply HA in H. discriminate. }
    pose proof (proj1 HA eq_refl) as HS.
    pose proof (fun x => number_says parse_number parse_truth _ l (text "kbest") 1%Z x ND I1 HS) as N1.
    pose proof (fun x => number_says parse_number parse_truth _ l (text "num_workers") 1%Z x ND I2 HS) as N2.
    assert (OV : forall c0, lm_file _ (override_files others l c0) = lm_file _ c0 /\
      other_fields _ (override_files others l c0) = other_fields _ c0 /\
      model_used (get_text l (text "input_pairlm_fst_file") []) (get_text l (text "input_lm_fst_file") [])
        (pairlm_file _ c0) (pairlm_file _ (override_files others l c0))).
    { intro c0. unfold override_files, model_used. change chars with text.
      destruct (get_text l (text "input_pairlm_fst_file") []) as [|p ps];
      destruct (get_text l (text "input_lm_fst_file") []) as [|q qs]; cbn [empty negb set_pairlm_file lm_file other_fields pairlm_file];
      (split; [reflexivity|]); (split; [reflexivity|]).
      - right; right; auto.
      - left. split; [discriminate|reflexivity].
      - right. left. split; [reflexivity|]. split; [discriminate|reflexivity].
      - left. split; [discriminate|reflexivity]. }
    split.
    - intro H. split; [exact HS|]. destruct (config_text read_text l) as [t|] eqn:Et; [|discriminate].
      destruct (parse_config t) as [c0|] eqn:Ec; [|discriminate].
      injection H as H1 H2 H3 H4 H5 H6.
      exists t, c0, (get_text l (text "input_pairlm_fst_file") []), (get_text l (text "input_lm_fst_file") []).
      destruct (OV c0) as (O1 & O2 & O3). rewrite H1 in O1, O2, O3.
      split; [now apply config_text_spec|]. split; [exact Ec|]. split; [now apply text_says|].
      split; [now apply text_says|]. split; [exact O1|]. split; [exact O2|]. split; [exact O3|].
      split; [now apply N1|]. split; [now apply N2|]. split; [now apply text_says|].
      split; [now apply text_says|]. subst. reflexivity.
    - intros (_ & t & c0 & pair & lm & H1 & H2 & H3 & H4 & H5 & H6 & H7 & H8 & H9 & H10 & H11 & ->).
      apply config_text_spec in H1. rewrite H1, H2. apply text_says in H3, H4, H10, H11. apply N1 in H8. apply N2 in H9.
      destruct (OV c0) as (O1 & O2 & O3). rewrite H3, H4 in O3.
      assert (EC : override_files others l c0 = c).
      { destruct (override_files others l c0) as [x1 x2 x3]. destruct c as [y1 y2 y3].
        cbn [lm_file other_fields pairlm_file] in *.
        rewrite (model_used_once _ _ _ _ _ O3 H7). congruence. }
      rewrite EC, H8, H9, H10, H11. reflexivity.
  Qed.

  (** The flag for the language model sets the pair model. *)
  Lemma lm_flag_lost l c k w i o e lm : main l = Works (c, k, w, i, o, e) ->
    says as_it_is l (text "input_lm_fst_file") [] lm -> lm <> [] ->
    pairlm_file _ c = lm /\
    exists t c0, config_source l t /\ parse_config t = Some c0 /\ lm_file _ c = lm_file _ c0.
  Proof.
    intros H Hl Hn. apply decoder_works in H as (_ & t & c0 & pair & lm' & H1 & H2 & _ & H4 & H5 & _ & H7 & _).
    apply text_says in Hl, H4. rewrite Hl in H4. subst lm'. split; [|exists t, c0; auto].
    destruct H7 as [(_ & H)|[(H & _)|(H & _)]]; [exact H|congruence|congruence].
  Qed.

  Lemma pairlm_flag l c k w i o e pair : main l = Works (c, k, w, i, o, e) ->
    says as_it_is l (text "input_pairlm_fst_file") [] pair -> pair <> [] ->
    says as_it_is l (text "input_lm_fst_file") [] [] -> pairlm_file _ c = pair.
  Proof.
    intros H Hp Hn Hl. apply decoder_works in H as (_ & t & c0 & pair' & lm' & _ & _ & H3 & H4 & _ & _ & H7 & _).
    apply text_says in Hp, Hl, H3, H4. rewrite Hl in H4. rewrite Hp in H3. subst.
    destruct H7 as [(H & _)|[(_ & _ & H)|(_ & H & _)]]; congruence.
  Qed.
End Decoder.

(** ** Usage texts *)
Fixpoint up_to_equals (s : str) : option str :=
  match s with
  | [] => None
  | c :: r => if N.eqb c 61 then Some [] else match up_to_equals r with Some n => Some (c :: n) | None => None end
  end.
Definition flag_here (s : str) : list str :=
  match s with
  | a :: b :: r => if N.eqb a 45 then if N.eqb b 45 then match up_to_equals r with Some n => [n] | None => [] end else [] else []
  | _ => []
  end.
Fixpoint flags_in (s : str) : list str := flag_here s ++ match s with [] => [] | _ :: r => flags_in r end.

Lemma up_to_equals_spec n : forall b, ~ In 61%N n -> up_to_equals (n ++ 61%N :: b) = Some n.
Proof.
  induction n as [|c n IH]; intros b H; [reflexivity|]. cbn [app up_to_equals].
  destruct (N.eqb c 61) eqn:E; [apply N.eqb_eq in E; subst; destruct H; now left|].
  rewrite IH; [reflexivity|]. intro K. apply H. now right.
Qed.
Lemma usage_found u n : usage_names u n -> In n (flags_in u).
Proof.
  intros (a & b & -> & H1 & H2). induction a as [|c a IH].
  - change ([] ++ [45; 45]%N ++ n ++ [61]%N ++ b) with (45%N :: 45%N :: (n ++ [61]%N ++ b)).
    cbn [flags_in]. apply in_app_iff. left. unfold flag_here. rewrite !N.eqb_refl. cbn [app].
    rewrite (up_to_equals_spec n b H1). now left.
  - change ((c :: a) ++ [45; 45]%N ++ n ++ [61]%N ++ b) with (c :: (a ++ [45; 45]%N ++ n ++ [61]%N ++ b)).
    cbn [flags_in]. apply in_app_iff. right. exact IH.
Qed.
Lemma flags_skip x y : simple_name x -> flags_in (x ++ 32%N :: y) = flags_in y.
Proof.
  induction x as [|c x IH]; intro H.
  - cbn [app flags_in]. destruct y; reflexivity.
  - cbn [app flags_in]. rewrite IH.
    + assert (E : flag_here (c :: x ++ 32%N :: y) = []); [|now rewrite E].
      destruct x as [|c2 x]; cbn [app flag_here].
      * destruct (N.eqb c 45); reflexivity.
      * destruct (N.eqb c 45) eqn:E1; [|reflexivity]. destruct (N.eqb c2 45) eqn:E2; [|reflexivity].
        apply N.eqb_eq in E1, E2. subst. destruct H. exists [], x. reflexivity.
    + intros (a & b & ->). apply H. exists (c :: a), b. reflexivity.
Qed.

Lemma usage_flags name program rest : simple_name program ->
  usage_names (text "Usage: " ++ program ++ 32%N :: rest) name -> In name (flags_in rest).
Proof.
  intros Hp H. apply usage_found in H.
  change (text "Usage: ") with (text "Usage:" ++ [32]%N) in H. rewrite <- app_assoc in H.
  change ([32]%N ++ program ++ 32%N :: rest) with (32%N :: (program ++ 32%N :: rest)) in H.
  rewrite flags_skip in H.
  - now rewrite flags_skip in H.
  - intros (a & b & E). assert (K : In 45%N (text "Usage:")) by (rewrite E; apply in_app_iff; right; now left).
    vm_compute in K. repeat (destruct K as [K|K]; [discriminate|]). exact K.
Qed.

Ltac usage :=
  intros Hp H; match type of H with usage_names ?u _ => idtac end;
  apply (fun r => usage_flags _ _ r Hp) in H; vm_compute in H;
  repeat (destruct H as [H|H]; [subst; vm_compute; tauto|]); destruct H.
Lemma ensemble_usage_known program name : simple_name program ->
  usage_names (ensemble_usage program) name -> In name (map fst ensemble_flags).
Proof. usage. Qed.
Lemma error_rate_usage_known program name : simple_name program ->
  usage_names (error_rate_usage program) name -> In name (map fst error_rate_flags).
Proof. usage. Qed.

Lemma rejoin_usage_unknown : (forall program, usage_names (rejoin_usage program) (text "ifiles")) /\
  forall parse_number parse_truth l, In (text "ifiles") (map fst l) ->
    rejoin_main parse_number parse_truth l = Bad_arguments.
Proof.
  split.
  - intro p. exists (text "Usage: " ++ p ++ [32]%N), (text "<infile> --ofile=<outfile> --split_file=<splitfile>").
    split; [unfold rejoin_usage; rewrite <- !app_assoc; reflexivity|].
    split; intro H; vm_compute in H; repeat (destruct H as [H|H]; [discriminate|]); exact H.
  - intros pn pt l H. unfold rejoin_main. rewrite (unknown_flag pn pt rejoin_flags l _) with (2 := H); [reflexivity|].
    intro K. vm_compute in K. repeat (destruct K as [K|K]; [discriminate|]). exact K.
Qed.
Lemma extract_usage_unknown : (forall program, usage_names (extract_usage program) (text "ifiles")) /\
  usage_names extract_sample (text "show_scores") /\
  forall parse_number parse_truth l,
    In (text "ifiles") (map fst l) \/ In (text "show_scores") (map fst l) ->
    extract_main parse_number parse_truth l = Bad_arguments.
Proof.
  split; [|split].
  - intro p. exists (text "Usage: " ++ p ++ [32]%N), (text "<infile> --ofile=<outfile> --kbest=[number_to_output] --show_score=[true/false]").
    split; [unfold extract_usage; rewrite <- !app_assoc; reflexivity|].
    split; intro H; vm_compute in H; repeat (destruct H as [H|H]; [discriminate|]); exact H.
  - exists (text "./extract-kbest-full-string --ifile=lattice.out.tsv --ofile=sys.out.tsv --kbest=20 "), (text "true").
    split; [reflexivity|].
    split; intro H; vm_compute in H; repeat (destruct H as [H|H]; [discriminate|]); exact H.
  - intros pn pt l [H|H]; unfold extract_main; rewrite (unknown_flag pn pt extract_flags l _) with (2 := H); try reflexivity;
    intro K; vm_compute in K; repeat (destruct K as [K|K]; [discriminate|]); exact K.
Qed.

Lemma lm_flag_refuted :
  exists read_number read_truth others parse_config read_file decoder_ok l c k w i o e lm,
    decoder_main read_number read_truth others parse_config read_file decoder_ok l = Works (c, k, w, i, o, e) /\
    given l (text "input_lm_fst_file") lm /\ lm <> [] /\ lm_file _ c <> lm.
Proof.
  exists (fun _ => None), (fun _ => None), unit, (fun _ => Some (Config unit (text "p") (text "q") tt)),
    (fun _ => None), (fun _ _ _ _ _ => true), [(text "input_lm_fst_file", text "l")],
    (Config unit (text "l") (text "q") tt), 1%Z, 1%Z, [], [], 0%Z, (text "l").
  split; [reflexivity|]. split; [exists [], []; split; [reflexivity|intros []]|]. split; vm_compute; discriminate.
Qed.
