From Verif Require Import Base Utf8Model Utf8Spec Utf8Proofs DelimModel DelimSpec KbestModel KbestSpec KbestProofs RejoinProofs CacheModel DecoderSpec.

(** ** Maps *)
Lemma lookup_assign {A} k k' (a : A) m : lookup k (assign k' a m) = if str_eqb k k' then Some a else lookup k m.
Proof.
  induction m as [|[x b] m IH]; simpl; [destruct (str_eqb k k'); auto|].
  destruct (str_eqb k' x) eqn:E.
  - apply str_eqb_eq in E. subst x. simpl. destruct (str_eqb k k'); auto.
  - simpl. rewrite IH. destruct (str_eqb k x) eqn:E2; auto. apply str_eqb_eq in E2. subst x.
    destruct (str_eqb k k') eqn:E3; auto. apply str_eqb_eq in E3. subst k'. rewrite str_eqb_refl in E. discriminate.
Qed.
Lemma lookup_same {A} k (a : A) m : lookup k (assign k a m) = Some a.
Proof. rewrite lookup_assign, str_eqb_refl. auto. Qed.
Lemma lookup_other {A} k k' (a : A) m : k <> k' -> lookup k (assign k' a m) = lookup k m.
Proof. intros N. rewrite lookup_assign. apply str_eqb_neq in N. rewrite N. auto. Qed.
Lemma assign_new {A} k (a : A) m : lookup k m = None -> assign k a m = m ++ [(k, a)].
Proof.
  induction m as [|[x b] m IH]; simpl; auto. destruct (str_eqb k x); [discriminate|]. intros H. rewrite IH; auto.
Qed.
Lemma member_spec k l : member k l = true <-> In k l.
Proof.
  unfold member. rewrite existsb_exists. split.
  - intros (x & I & E). apply str_eqb_eq in E. subst. auto.
  - intros I. exists k. split; auto. apply str_eqb_refl.
Qed.
Lemma lookup_not_in {A} k (m : list (str * A)) : ~ In k (map fst m) -> lookup k m = None.
Proof.
  induction m as [|[x b] m IH]; simpl; auto. intros H. destruct (str_eqb k x) eqn:E; [apply str_eqb_eq in E; subst; tauto|]. apply IH. tauto.
Qed.
Lemma add_all_new cs : forall m, NoDup (map fst (m ++ cs)) -> add_all cs m = m ++ cs.
Proof.
  unfold add_all. induction cs as [|[k v] cs IH]; intros m N; cbn [fold_left fst snd]; [rewrite app_nil_r; auto|].
  rewrite assign_new.
  - rewrite IH; rewrite <- app_assoc; auto.
  - apply lookup_not_in. rewrite map_app in N. cbn [map fst] in N. apply NoDup_remove_2 in N. intros I. apply N. apply in_app_iff. auto.
Qed.

(** ** Configuration *)
Lemma utf8_check_always s : exists b, Utf8Check s = Fine b /\ b = true.
Proof.
  unfold Utf8Check. destruct (is_valid s) eqn:V.
  - apply is_valid_spec in V. destruct V as (cs & ps & Sp). rewrite (split_spec _ _ _ Sp). eexists. split; [reflexivity|].
    apply forallb_forall. destruct Sp as [F _]. intros p I. induction F as [|c q cs ps H F IH]; [contradiction|].
    destruct I as [<-|I]; auto. rewrite (single_spec c q H). auto.
  - rewrite split_invalid; [eauto|]. intros W. apply is_valid_spec in W. congruence.
Qed.
Lemma external_covers atod override lines : forall d d',
  fold_left (fun acc line => bind acc (fun c => external_line atod override c line)) lines (Fine d) = Fine d' -> covers d -> covers d'.
Proof.
  induction lines as [|line lines IH]; intros d d' H C; cbn [fold_left] in H; [injection H as <-; auto|].
  cbn [bind] in H. destruct (external_line atod override d line) as [| | |d1] eqn:E;
    try (exfalso; clear - H; induction lines as [|l lines IHl]; cbn [fold_left] in H; [discriminate|apply IHl; exact H]).
  apply (IH d1 d'); auto. unfold external_line in E. destruct (fields line) as [|f0 [|f1 [|f2 [|? ?]]]]; try discriminate.
  destruct (atod f2) as [cost|]; [|discriminate].
  destruct (utf8_check_always f0) as (b0 & E0 & ->). destruct (utf8_check_always f1) as (b1 & E1 & ->). rewrite E0, E1 in E. cbn [bind andb] in E.
  injection E as <-. intros w I. cbn [overrides global] in *. rewrite lookup_assign. destruct (str_eqb w f0) eqn:Ew; [discriminate|]. apply C.
  destruct override; auto. destruct I as [<-|I]; auto. rewrite str_eqb_refl in Ew. discriminate.
Qed.
Lemma init_covers atod mix_cost cfg st d : InitializePairLMDecoder atod mix_cost cfg = Fine (st, d) -> covers d.
Proof.
  unfold InitializePairLMDecoder, InitializeExternalTransliterations. destruct (cfg_cands cfg) as [lines|].
  - destruct (fold_left _ lines _) as [| | |c] eqn:E; try discriminate. cbn [bind]. intros H. injection H as <- <-.
    apply (external_covers _ _ _ _ _ E). intros w [].
  - cbn [bind]. intros H. injection H as <- <-. intros w [].
Qed.
Lemma init_settings atod mix_cost cfg st d : InitializePairLMDecoder atod mix_cost cfg = Fine (st, d) ->
  add_to_cache_ st = default_to (cfg_add_to_cache cfg) true /\ max_parallel_tokens_ st = default_to (cfg_max_parallel_tokens cfg) 4 /\
  oov_cost_ st = default_to (cfg_oov_cost cfg) 10%Z /\ max_word_cands_ st = default_to (cfg_max_word_cands cfg) 100 /\
  word_cand_thresh_ st = default_to (cfg_word_cand_thresh cfg) 12%Z /\ min_cand_posterior_ st = default_to (cfg_min_cand_posterior cfg) 0%Z /\
  pairlm_translit_weight_ st = Some 0%Z.
Proof.
  unfold InitializePairLMDecoder. destruct (InitializeExternalTransliterations atod mix_cost cfg) as [| | |r]; try discriminate. cbn [bind].
  intros H. injection H as <- <-. repeat split.
Qed.

Lemma external_step atod override d line e : external_entry atod line e ->
  exists d', external_line atod override d line = Fine d' /\
    (forall a b, cost_in d' a b = if same_words a b e then Some (snd e) else cost_in d a b) /\
    overrides d' = if override then fst (fst e) :: overrides d else overrides d.
Proof.
  intros (f & Hf & Ha). apply fields_spec in Hf. unfold external_line. rewrite Hf, Ha. destruct e as [[x y] z]. cbn [fst snd] in *.
  destruct (utf8_check_always x) as (b0 & E0 & ->). destruct (utf8_check_always y) as (b1 & E1 & ->). rewrite E0, E1. cbn [bind andb].
  eexists. split; [reflexivity|]. split; auto. intros a b. unfold cost_in, same_words. cbn [global fst snd]. rewrite lookup_assign.
  destruct (str_eqb a x) eqn:Ea; cbn [andb]; auto. apply str_eqb_eq in Ea. subst a. rewrite lookup_assign. destruct (str_eqb b y); auto.
  destruct (lookup x (global d)); auto.
Qed.
Lemma filter_app_snoc {A} (p : A -> bool) l x : filter p (rev (l ++ [x])) = if p x then x :: filter p (rev l) else filter p (rev l).
Proof. rewrite rev_app_distr. simpl. auto. Qed.
Lemma external_spec atod override lines es : Forall2 (external_entry atod) lines es ->
  exists d, fold_left (fun acc line => bind acc (fun c => external_line atod override c line)) lines (Fine (Caches [] [])) = Fine d /\
    (forall a b, cost_in d a b = last_cost es a b) /\
    (forall w, In w (overrides d) <-> override = true /\ exists e, In e es /\ fst (fst e) = w).
Proof.
  intros F. assert (forall pre d, (forall a b, cost_in d a b = last_cost pre a b) ->
    (forall w, In w (overrides d) <-> override = true /\ exists e, In e pre /\ fst (fst e) = w) ->
    exists d', fold_left (fun acc line => bind acc (fun c => external_line atod override c line)) lines (Fine d) = Fine d' /\
    (forall a b, cost_in d' a b = last_cost (pre ++ es) a b) /\
    (forall w, In w (overrides d') <-> override = true /\ exists e, In e (pre ++ es) /\ fst (fst e) = w)) as G.
  { induction F as [|line e lines es H F IH]; intros pre d C O; cbn [fold_left].
    - exists d. rewrite app_nil_r. auto.
    - cbn [bind]. destruct (external_step atod override d line e H) as (d1 & E1 & C1 & O1). rewrite E1.
      destruct (IH (pre ++ [e]) d1) as (d' & R).
      + intros a b. rewrite C1, C. unfold last_cost. rewrite filter_app_snoc. destruct (same_words a b e); auto.
      + intros w. rewrite O1. destruct override.
        * cbn [In]. rewrite O. split.
          -- intros [<-|(_ & x & I & E)]; split; auto; [exists e|exists x]; split; auto; apply in_app_iff; simpl; auto.
          -- intros (_ & x & I & E). apply in_app_iff in I. destruct I as [I|[<-|[]]]; auto. right. split; auto. exists x. auto.
        * rewrite O. split; intros [? _]; discriminate.
      + rewrite <- app_assoc in R. exists d'. auto. }
  apply (G []).
  - auto.
  - intros w. cbn. split; [intros []|intros (_ & e & [] & _)].
Qed.

(** ** Words *)
Section Words.
  Variable pair_lm : str -> nat -> cands.
  Variable push : cands -> cands.
  Variable mix : cands -> cands -> cands.
  Variable join : nat -> list cands -> cands.
  Variable segment : str -> list str.
  Notation word b := (TransliterateWord pair_lm push mix join segment b).
  Notation words b := (TransliterateWords pair_lm push mix join segment b).

  Lemma bind_fine {A B} (r : run A) (f : A -> run B) b : bind r f = Fine b -> exists a, r = Fine a /\ f a = Fine b.
  Proof. destruct r; try discriminate. eauto. Qed.

  (** What a call may do to the context. *)
  Definition segmented (w : str) (ws : list str) : Prop := match segment w with _ :: _ :: _ => ws = segment w | _ => ws = [w] end.
  Lemma unsegmented_context w k d c r c' : TransliterateUnsegmentedWord pair_lm push w k d c = Fine (r, c') ->
    input_syms c' = input_syms c /\
    (forall v, v <> w -> lookup v (word_cache c') = lookup v (word_cache c) /\ lookup v (mixed c') = lookup v (mixed c)) /\
    (CheckCache d w = false -> c' = c) /\
    (lookup w (word_cache c) <> None -> lookup w (word_cache c') <> None).
  Proof.
    unfold TransliterateUnsegmentedWord. destruct (pair_lm w k) as [|b bs].
    - destruct (CheckCache d w).
      + intros H. apply bind_fine in H. destruct H as (cs & _ & H). injection H as <- <-. cbn [input_syms word_cache mixed]. split; auto.
        split; [intros v N; rewrite !lookup_other by auto; auto|]. split; [discriminate|]. rewrite lookup_same. discriminate.
      + intros H. injection H as <- <-. auto.
    - intros H. injection H as <- <-. auto.
  Qed.
  Lemma segments_context k d ws : forall c rs c', transliterate_segments pair_lm push ws k d c = Fine (rs, c') ->
    input_syms c' = input_syms c /\
    (forall v, ~ In v ws -> lookup v (word_cache c') = lookup v (word_cache c) /\ lookup v (mixed c') = lookup v (mixed c)).
  Proof.
    induction ws as [|w ws IH]; intros c rs c' H; cbn [transliterate_segments] in H; [injection H as <- <-; auto|].
    apply bind_fine in H. destruct H as ([r c1] & H1 & H). apply bind_fine in H. destruct H as ([rs' c2] & H2 & H). injection H as <- <-.
    apply unsegmented_context in H1. apply IH in H2. destruct H1 as (A1 & B1 & _), H2 as (A2 & B2). cbn [snd] in *. split; [congruence|].
    intros v N. destruct (B2 v) as [-> ->]; [intros I; apply N; right; auto|]. apply B1. intros ->. apply N. left. auto.
  Qed.
  Definition inner (w : str) (k : nat) (d : caches) (c : context) : run (cands * context) :=
    match segment w with
    | _ :: _ :: _ => TransliterateSegmentedWord pair_lm push join (segment w) k d c
    | _ => TransliterateUnsegmentedWord pair_lm push w k d c
    end.
  Lemma inner_context w k d c r c' : inner w k d c = Fine (r, c') -> proper segment w ->
    input_syms c' = input_syms c /\
    (forall v, v <> w -> ~ In v (segment w) -> lookup v (word_cache c') = lookup v (word_cache c) /\ lookup v (mixed c') = lookup v (mixed c)) /\
    (CheckCache d w = false -> lookup w (word_cache c') = lookup w (word_cache c) /\ lookup w (mixed c') = lookup w (mixed c)).
  Proof.
    unfold inner, proper. intros H P.
    assert (TransliterateUnsegmentedWord pair_lm push w k d c = Fine (r, c') -> 
      input_syms c' = input_syms c /\
      (forall v, v <> w -> ~ In v (segment w) -> lookup v (word_cache c') = lookup v (word_cache c) /\ lookup v (mixed c') = lookup v (mixed c)) /\
      (CheckCache d w = false -> lookup w (word_cache c') = lookup w (word_cache c) /\ lookup w (mixed c') = lookup w (mixed c))) as U.
    { intros H'. apply unsegmented_context in H'. destruct H' as (A & B & C & _). split; auto. split; [intros v N _; apply B; auto|].
      intros E. rewrite (C E). auto. }
    destruct (segment w) as [|s1 [|s2 ss]] eqn:Es; auto.
    rewrite <- Es in *. unfold TransliterateSegmentedWord in H. apply bind_fine in H. destruct H as ([rs c1] & H1 & H). cbn [fst snd] in H.
    destruct (join k rs); [discriminate|]. injection H as <- <-. apply segments_context in H1. destruct H1 as (A & B). split; auto.
  Qed.

  (** A finished word: cached, and marked. *)
  Definition settled (w : str) (r : cands) (c : context) : Prop := lookup w (word_cache c) = Some r /\ lookup w (mixed c) = Some true.
  Lemma at_key_fine {A} k (m : list (str * A)) a : at_key k m = Fine a <-> lookup k m = Some a.
  Proof. unfold at_key. destruct (lookup k m); split; intros H; try discriminate; injection H as ->; auto. Qed.

  Lemma word_cases b w k d c r d' c' : word b w k d c = Fine (r, d', c') ->
    exists c1 m1, initialise_word push w d c = Fine c1 /\ lookup w (mixed c1) = Some m1 /\
      ((CheckCache d w = true /\ m1 = true /\ lookup w (word_cache c1) = Some r /\ d' = d /\ c' = c1) \/
       (CheckCache d w && m1 = false /\ exists wt c2, inner w k d c1 = Fine (wt, c2) /\
         ((lookup w (mixed c2) = Some true /\ lookup w (word_cache c2) = Some r /\ d' = d /\ c' = c2) \/
          (lookup w (mixed c2) = Some false /\ exists cached, lookup w (word_cache c2) = Some cached /\ r = mix wt cached /\
             c' = Context (input_syms c2) (assign w r (word_cache c2)) (assign w true (mixed c2)) /\
             d' = if b then Caches (match r with [] => global d | _ => assign w (add_all r (default_to (lookup w (global d)) [])) (global d) end)
                                   (if member w (overrides d) then overrides d else w :: overrides d) else d)))).
  Proof.
    unfold TransliterateWord. intros H. apply bind_fine in H. destruct H as (c1 & H1 & H). apply bind_fine in H. destruct H as (m1 & Hm & H).
    apply at_key_fine in Hm. exists c1, m1. split; auto. split; auto. destruct (CheckCache d w && m1) eqn:E.
    - left. apply andb_true_iff in E. destruct E as [E1 E2]. apply bind_fine in H. destruct H as (r' & Hr & H). apply at_key_fine in Hr.
      injection H as <- <- <-. auto.
    - right. split; auto. apply bind_fine in H. destruct H as ([wt c2] & Hi & H). exists wt, c2. split; [exact Hi|].
      apply bind_fine in H. destruct H as (m2 & Hm2 & H). apply bind_fine in H. destruct H as (cached & Hc & H). apply at_key_fine in Hm2, Hc.
      destruct m2.
      + left. injection H as <- <- <-. auto.
      + right. split; auto. exists cached. split; auto. injection H as <- <- <-. auto.
  Qed.
  Lemma word_settles b w k d c r d' c' : word b w k d c = Fine (r, d', c') -> settled w r c'.
  Proof.
    intros H. apply word_cases in H. destruct H as (c1 & m1 & _ & Hm & [(_ & -> & Hr & _ & ->)|(_ & wt & c2 & _ & [(Hm2 & Hr & _ & ->)|(_ & cached & _ & _ & -> & _)])]).
    - split; auto.
    - split; auto.
    - split; apply lookup_same.
  Qed.
  Lemma settled_again b w k d c r r2 d2 c2 : settled w r c -> proper segment w -> word b w k d c = Fine (r2, d2, c2) -> r2 = r /\ d2 = d.
  Proof.
    intros (S1 & S2) P H. apply word_cases in H. destruct H as (c1 & m1 & Hi & Hm & D).
    unfold initialise_word in Hi. rewrite S1 in Hi. injection Hi as <-. rewrite S2 in Hm. injection Hm as <-.
    destruct D as [(_ & _ & Hr & -> & _)|(E & wt & c3 & Hin & D)]; [split; congruence|]. rewrite andb_true_r in E.
    apply inner_context in Hin; auto. destruct Hin as (_ & _ & C). destruct (C E) as [C1 C2].
    destruct D as [(_ & Hr & -> & _)|(Hm & _)]; [split; congruence|congruence].
  Qed.
  Lemma word_repeated b b' w k k' d c r d' c' r2 d2 c2 : proper segment w -> word b w k d c = Fine (r, d', c') ->
    word b' w k' d' c' = Fine (r2, d2, c2) -> r2 = r /\ d2 = d'.
  Proof. intros P H1 H2. eapply settled_again; eauto. eapply word_settles; eauto. Qed.

  Lemma word_no_caching w k d c r d' c' : word false w k d c = Fine (r, d', c') -> d' = d.
  Proof.
    intros H. apply word_cases in H. destruct H as (c1 & m1 & _ & _ & [(_ & _ & _ & -> & _)|(_ & wt & c2 & _ & [(_ & _ & -> & _)|(_ & cached & _ & _ & _ & ->)])]); auto.
  Qed.
  Lemma words_no_caching ws k : forall d c rs d' c', words false ws k d c = Fine (rs, d', c') -> d' = d.
  Proof.
    induction ws as [|w ws IH]; intros d c rs d' c' H; cbn [TransliterateWords] in H; [injection H as <- <- <-; auto|].
    apply bind_fine in H. destruct H as ([[r d1] c1] & H1 & H). apply bind_fine in H. destruct H as ([[rs' d2] c2] & H2 & H). injection H as <- <- <-.
    cbn [fst snd] in *. apply IH in H2. apply word_no_caching in H1. congruence.
  Qed.

  (** Words that need no decoding. *)
  Lemma override_spec b w k d c cs : In w (overrides d) -> lookup w (global d) = Some cs -> lookup w (word_cache c) = None ->
    exists c', word b w k d c = Fine (push cs, d, c').
  Proof.
    intros O G N. unfold TransliterateWord, initialise_word. rewrite N.
    assert (CheckCache d w = true) as Ck by (unfold CheckCache; rewrite G; auto). rewrite Ck. unfold extract_cached. rewrite G. cbn [bind].
    assert (member w (overrides d) = true) as -> by (apply member_spec; auto). unfold at_key. cbn [mixed word_cache]. rewrite !lookup_same. cbn [bind andb].
    eexists. reflexivity.
  Qed.

  Hypothesis mix_nonempty : forall a b, a <> [] -> mix a b <> [].
  Hypothesis push_nonempty : forall a, a <> [] -> push a <> [].
  Lemma unsegmented_nonempty w k d c r c' : filled d -> TransliterateUnsegmentedWord pair_lm push w k d c = Fine (r, c') -> r <> [].
  Proof.
    intros Fd. unfold TransliterateUnsegmentedWord. destruct (pair_lm w k) as [|x xs].
    - unfold CheckCache, extract_cached. destruct (lookup w (global d)) as [cs|] eqn:E; cbn [bind]; intros H; injection H as <- <-.
      + apply push_nonempty. eapply Fd; eauto.
      + discriminate.
    - intros H. injection H as <- <-. discriminate.
  Qed.
  Lemma inner_nonempty w k d c r c' : filled d -> inner w k d c = Fine (r, c') -> r <> [].
  Proof.
    intros Fd. unfold inner. destruct (segment w) as [|s1 [|s2 ss]]; try (apply unsegmented_nonempty; auto; fail).
    unfold TransliterateSegmentedWord. intros H. apply bind_fine in H. destruct H as (rs & _ & H). destruct (join k (fst rs)); [discriminate|].
    injection H as <- <-. discriminate.
  Qed.
  Lemma assign_nonempty k v (m : cands) : assign k v m <> [].
  Proof. destruct m as [|[x y] m]; simpl; [discriminate|]. destruct (str_eqb k x); discriminate. Qed.
  Lemma add_all_nonempty cs : forall m, cs <> [] \/ m <> [] -> add_all cs m <> [].
  Proof.
    unfold add_all. induction cs as [|p cs IH]; intros m H; cbn [fold_left]; [destruct H as [H|H]; auto|]. apply IH. right. apply assign_nonempty.
  Qed.
  Lemma word_sound b w k d c r d' c' : sound d -> word b w k d c = Fine (r, d', c') -> sound d'.
  Proof.
    intros [C Fd] H. apply word_cases in H.
    destruct H as (c1 & m1 & _ & _ & [(_ & _ & _ & -> & _)|(_ & wt & c2 & Hi & [(_ & _ & -> & _)|(_ & cached & _ & -> & _ & ->)])]); try (split; auto; fail).
    destruct b; [|split; auto]. apply inner_nonempty in Hi; auto. assert (mix wt cached <> []) as N by auto.
    destruct (mix wt cached) as [|x xs] eqn:E; [contradiction|]. rewrite <- E in *. split.
    - intros v Iv. cbn [global overrides] in *. rewrite lookup_assign. destruct (str_eqb v w) eqn:Ev; [discriminate|]. apply C.
      destruct (member w (overrides d)); auto. destruct Iv as [->|Iv]; auto. rewrite str_eqb_refl in Ev. discriminate.
    - intros v cs. cbn [global]. rewrite lookup_assign. destruct (str_eqb v w); [|apply Fd]. intros H. injection H as <-. apply add_all_nonempty. auto.
  Qed.
  (** A word first seen in line with [k]: what other lines get for it, whatever
      their limit. *)
  Lemma word_remembered w k d c r d' c' : sound d -> proper segment w -> lookup w (word_cache c) = None -> lookup w (global d) = None ->
    word true w k d c = Fine (r, d', c') -> NoDup (map fst r) ->
    forall b k2 c2, lookup w (word_cache c2) = None -> exists c3, word b w k2 d' c2 = Fine (push r, d', c3).
  Proof.
    intros [Cv Fd] P Nw Ng H N b k2 c2 N2. apply word_cases in H. destruct H as (c1 & m1 & Hi & Hm & D).
    assert (CheckCache d w = false) as Ck by (unfold CheckCache; rewrite Ng; auto).
    destruct D as [(E & _)|(_ & wt & c3 & Hin & D)]; [congruence|].
    pose proof (inner_nonempty _ _ _ _ _ _ Fd Hin) as Nwt. apply inner_context in Hin; auto. destruct Hin as (_ & _ & C). destruct (C Ck) as [C1 C2].
    unfold initialise_word in Hi. rewrite Nw, Ck in Hi. cbn [bind] in Hi. injection Hi as <-. cbn [word_cache mixed] in *. rewrite lookup_same in *.
    assert (member w (overrides d) = false) as Mo.
    { destruct (member w (overrides d)) eqn:E; auto. apply member_spec in E. apply Cv in E. congruence. }
    destruct D as [(Hm2 & _)|(_ & cached & _ & -> & _ & ->)].
    - rewrite Mo, lookup_same in C2. congruence.
    - assert (mix wt cached <> []) as Nm by auto. destruct (mix wt cached) as [|x xs] eqn:E; [contradiction|]. rewrite <- E in *.
      apply override_spec; auto; cbn [overrides global].
      + rewrite Mo. left. auto.
      + rewrite lookup_same, Ng. cbn [default_to]. rewrite add_all_new; auto.
  Qed.

  (** ** Symbols of the words *)
  Definition known (ws : list str) (c : context) : Prop :=
    forall w, In w ws -> lookup w (word_cache c) <> None -> In w (input_syms c).
  Lemma initialise_known ws w d c c1 : known ws c -> In w ws -> initialise_word push w d c = Fine c1 ->
    known ws c1 /\ In w (input_syms c1) /\ incl (input_syms c) (input_syms c1) /\ lookup w (word_cache c1) <> None.
  Proof.
    intros K Iw. unfold initialise_word. destruct (lookup w (word_cache c)) as [x|] eqn:E.
    - intros H. injection H as <-. split; auto. split; [apply K; congruence|]. split; [apply incl_refl|congruence].
    - intros H. apply bind_fine in H. destruct H as (cached & _ & H). injection H as <-. cbn [input_syms word_cache].
      assert (In w (if member w (input_syms c) then input_syms c else input_syms c ++ [w])) as I1.
      { destruct (member w (input_syms c)) eqn:M; [apply member_spec; auto|]. apply in_app_iff. simpl. auto. }
      assert (incl (input_syms c) (if member w (input_syms c) then input_syms c else input_syms c ++ [w])) as I2.
      { destruct (member w (input_syms c)); [apply incl_refl|apply incl_appl, incl_refl]. }
      split; [|split; auto; split; auto; rewrite lookup_same; discriminate].
      intros v Iv. cbn [word_cache input_syms]. rewrite lookup_assign. destruct (str_eqb v w) eqn:Ev; [apply str_eqb_eq in Ev; subst; auto|].
      intros Nv. apply I2. apply K; auto.
  Qed.
  Lemma word_known b ws w k d c r d' c' : no_segments segment ws -> In w ws -> known ws c -> word b w k d c = Fine (r, d', c') ->
    known ws c' /\ In w (input_syms c') /\ incl (input_syms c) (input_syms c').
  Proof.
    intros S Iw K H. apply word_cases in H. destruct H as (c1 & m1 & Hi & Hm & D).
    destruct (initialise_known ws w d c c1 K Iw Hi) as (K1 & I1 & I2 & L1).
    destruct D as [(_ & _ & _ & _ & ->)|(_ & wt & c2 & Hin & D)]; auto.
    assert (input_syms c2 = input_syms c1 /\ forall v, In v ws -> v <> w -> lookup v (word_cache c2) = lookup v (word_cache c1)) as [E2 L2].
    { specialize (S w Iw). unfold inner in Hin. destruct (segment w) as [|s1 [|s2 ss]] eqn:Es.
      - apply unsegmented_context in Hin. destruct Hin as (A & B & _). split; auto. intros v _ N. apply B. auto.
      - apply unsegmented_context in Hin. destruct Hin as (A & B & _). split; auto. intros v _ N. apply B. auto.
      - rewrite <- Es in *. unfold TransliterateSegmentedWord in Hin. apply bind_fine in Hin. destruct Hin as ([rs c0] & H1 & Hin). cbn [fst snd] in Hin.
        destruct (join k rs); [discriminate|]. injection Hin as _ <-. apply segments_context in H1. destruct H1 as (A & B). split; auto.
        intros v Iv _. apply B. auto. }
    assert (known ws c2) as K2.
    { intros v Iv Nv. rewrite E2. destruct (list_eq_dec N.eq_dec v w) as [->|N]; auto. apply K1; auto. rewrite <- (L2 v Iv N). auto. }
    destruct D as [(_ & _ & _ & ->)|(_ & cached & _ & _ & -> & _)].
    - split; auto. rewrite E2. auto.
    - cbn [input_syms]. rewrite E2. split; auto. intros v Iv. cbn [word_cache input_syms]. rewrite lookup_assign.
      destruct (str_eqb v w) eqn:Ev; [apply str_eqb_eq in Ev; subst; auto|]. intros Nv. rewrite <- E2. apply K2; auto.
  Qed.
  Lemma words_known b all k : forall ws d c rs d' c', no_segments segment all -> incl ws all -> known all c -> words b ws k d c = Fine (rs, d', c') ->
    incl ws (input_syms c') /\ incl (input_syms c) (input_syms c').
  Proof.
    induction ws as [|w ws IH]; intros d c rs d' c' S I K H; cbn [TransliterateWords] in H.
    { injection H as <- <- <-. split; [intros x []|apply incl_refl]. }
    apply bind_fine in H. destruct H as ([[r d1] c1] & H1 & H). apply bind_fine in H. destruct H as ([[rs' d2] c2] & H2 & H). injection H as <- <- <-.
    cbn [fst snd] in *. destruct (word_known b all w k d c r d1 c1 S (I w (or_introl eq_refl)) K H1) as (K1 & I1 & I2).
    destruct (IH d1 c1 rs' d2 c2 S (fun x Ix => I x (or_intror Ix)) K1 H2) as (J1 & J2). split.
    - intros x [<-|Ix]; auto.
    - intros x Ix. apply J2, I2. auto.
  Qed.
  Lemma fresh_known ws : known ws fresh_context.
  Proof. intros w _ H. exfalso. apply H. reflexivity. Qed.
End Words.
