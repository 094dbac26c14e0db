From Verif Require Import Base Utf8Model Utf8Spec Utf8Proofs DelimModel DelimSpec KbestModel KbestSpec KbestProofs RejoinProofs
  ErrorRateModel ErrorRateProofs PairlmModel PairlmSpec.

(** ** Segments *)
Lemma encoding_nil : encoding [] [].
Proof. exists []. split; [constructor|reflexivity]. Qed.
Lemma encoding_app a b x y : encoding a x -> encoding b y -> encoding (a ++ b) (x ++ y).
Proof.
  intros (p & Fp & ->) (q & Fq & ->). exists (p ++ q). split; [apply Forall2_app; auto|]. rewrite concat_app. auto.
Qed.
Lemma encoding_one c p : encodes c p -> encoding [c] p.
Proof. intros H. exists [p]. apply spells_one. auto. Qed.
Lemma codepoint_spec c p : encodes c p -> GetUtf8Codepoint p = Fine c.
Proof. intros H. unfold GetUtf8Codepoint. rewrite (single_spec c p H). reflexivity. Qed.
Lemma codepoints_spec cs ps : Forall2 encodes cs ps -> map_run GetUtf8Codepoint ps = Fine cs.
Proof.
  intros F. apply map_run_spec. induction F as [|c p cs ps H F IH]; constructor; auto. apply codepoint_spec; auto.
Qed.

Section Segments.
  Variable covered : N -> bool.
  Let key c := (covered c, c).

  Lemma segment_loop_spec cs ps : Forall2 encodes cs ps -> forall k cur tok acc, cur <> [] -> encoding cur tok ->
    exists vs segs ts, runs (map (pair k) cur ++ map key cs) ((k, vs) :: segs) /\
      segment_loop k tok (combine ps (map covered cs)) acc = acc ++ ts /\
      Forall2 encoding (map snd ((k, vs) :: segs)) ts.
  Proof.
    induction 1 as [|c p cs ps Hc F IH]; intros k cur tok acc N E; cbn [segment_loop combine map].
    - exists cur, [], [tok]. split; [|split; [reflexivity|cbn [map snd]; repeat constructor; auto]].
      split; [unfold spread; cbn; rewrite !app_nil_r; auto|]. split; [constructor; auto|]. apply neighbours_one.
    - destruct (Bool.eqb (covered c) k) eqn:Ek; cbn [negb].
      + apply Bool.eqb_prop in Ek.
        destruct (IH (covered c) (cur ++ [c]) (tok ++ p) acc) as (vs & segs & ts & R & L & G).
        * destruct cur; discriminate.
        * apply encoding_app; auto. apply encoding_one; auto.
        * rewrite Ek in *. exists vs, segs, ts. split; auto. rewrite map_app, <- app_assoc in R.
          cbn [map app] in R. unfold key at 1. rewrite Ek. exact R.
      + destruct (IH (covered c) [c] p (acc ++ [tok])) as (vs & segs & ts & (Sp & P & D) & L & G);
          [discriminate|apply encoding_one; auto|].
        exists cur, ((covered c, vs) :: segs), (tok :: ts). split; [split; [|split]|split].
        * unfold spread in *. cbn [flat_map fst snd] in *. rewrite Sp. reflexivity.
        * constructor; auto.
        * cbn [map fst]. apply neighbours_cons. split; auto. intros ->. rewrite Bool.eqb_reflx in Ek. discriminate.
        * rewrite L, <- app_assoc. reflexivity.
        * cbn [map snd]. constructor; auto.
  Qed.

  Lemma filter_length_le {A} (f : A -> bool) l : length (filter f l) <= length l.
  Proof. induction l as [|a l IH]; cbn [filter length]; auto. destruct (f a); cbn [length]; lia. Qed.
  Lemma filter_negb_all l : length (filter negb l) = length l -> Forall (fun b => b = false) l.
  Proof.
    induction l as [|b l IH]; intros H; constructor; cbn [filter length] in H.
    - destruct b; auto. cbn [negb] in H. pose proof (filter_length_le negb l). lia.
    - apply IH. destruct b; cbn [negb length] in H; [pose proof (filter_length_le negb l)|]; lia.
  Qed.
  Lemma filter_negb_none l : length (filter negb l) = 0 -> Forall (fun b => b = true) l.
  Proof.
    induction l as [|b l IH]; intros H; constructor; cbn [filter length] in H; destruct b; auto; discriminate.
  Qed.
  Lemma uniform_run k cs : cs <> [] -> Forall (fun c => covered c = k) cs -> runs (map key cs) [(k, cs)].
  Proof.
    intros N F. split; [|split; [constructor; auto|apply neighbours_one]]. unfold spread. cbn. rewrite app_nil_r.
    apply map_ext_Forall. eapply Forall_impl; [|exact F]. intros c H. unfold key. congruence.
  Qed.

  Lemma concat_encodings segs ts : Forall2 encoding segs ts -> encoding (concat segs) (concat ts).
  Proof. induction 1; simpl; [apply encoding_nil|apply encoding_app; auto]. Qed.
  Lemma spread_values segs : map snd (@spread bool N segs) = concat (map snd segs).
  Proof.
    unfold spread. induction segs as [|[k vs] segs IH]; auto. cbn [flat_map map concat fst snd]. rewrite map_app, IH. f_equal.
    rewrite map_map. simpl. apply map_id.
  Qed.
  Lemma runs_concat cs segs : runs (map key cs) segs -> concat (map snd segs) = cs.
  Proof. intros (S & _). rewrite <- spread_values, S, map_map. unfold key. simpl. apply map_id. Qed.

  Lemma segments_exist cs : exists segs, runs (map key cs) segs.
  Proof.
    induction cs as [|c cs (segs & Sp & F & D)].
    - exists []. split; [reflexivity|]. split; [constructor|]. intros [|? pre] x y post H; discriminate.
    - destruct segs as [|[k vs] segs].
      + exists [(covered c, [c])]. destruct cs; [|discriminate]. apply uniform_run; [discriminate|constructor; auto].
      + destruct (Bool.bool_dec (covered c) k) as [E|E].
        * exists ((k, c :: vs) :: segs). inversion F as [|? ? Hv F']; subst. split; [|split; auto].
          -- unfold spread in *. cbn [flat_map fst snd map app] in *. rewrite Sp. reflexivity.
          -- constructor; auto. discriminate.
        * exists ((covered c, [c]) :: (k, vs) :: segs). split; [|split].
          -- cbn [map]. rewrite <- Sp. reflexivity.
          -- constructor; auto. discriminate.
          -- cbn [map fst] in *. apply neighbours_cons. auto.
  Qed.

  Lemma segment_spec cs word segs : encoding cs word -> runs (map key cs) segs ->
    exists ts, Forall2 encoding (map snd segs) ts /\ concat ts = word /\
      SegmentCoveredChars covered word = Fine (if length segs <=? 1 then [] else ts).
  Proof.
    intros E R. assert (E' := E). destruct E' as (ps & F & Ew).
    assert (forall ts, Forall2 encoding (map snd segs) ts -> concat ts = word) as Cat.
    { intros ts H. apply concat_encodings in H. rewrite (runs_concat cs segs R) in H. eapply encoding_fun; eauto. }
    assert (exists ts, Forall2 encoding (map snd segs) ts) as (ts0 & T0).
    { clear - F R. destruct R as (S & _ & _). revert cs ps F S. induction segs as [|[k vs] segs IH]; intros cs ps F S; [exists []; constructor|].
      unfold spread in S. cbn [flat_map fst snd] in S. symmetry in S. apply map_eq_app in S. destruct S as (c1 & c2 & -> & S1 & S2).
      apply Forall2_app_inv_l in F. destruct F as (p1 & p2 & F1 & F2 & ->). destruct (IH c2 p2 F2 (eq_sym S2)) as (ts & T).
      assert (vs = c1) as ->. { apply (f_equal (map snd)) in S1. rewrite !map_map in S1. unfold key in S1. simpl in S1. rewrite !map_id in S1. auto. }
      exists (concat p1 :: ts). constructor; auto. exists p1. split; auto. }
    destruct word as [|b w] eqn:Ewd.
    { assert (cs = []) as ->. { destruct cs as [|c cs]; auto. inversion F; subst. destruct (encodes_ne _ _ H1); destruct y; auto; discriminate. }
      destruct segs as [|[k vs] segs].
      - exists []. split; [constructor|]. split; auto.
      - exfalso. destruct R as (S & P & _). inversion P; subst. simpl in *. destruct vs; [contradiction|discriminate]. }
    rewrite <- Ewd in *. unfold SegmentCoveredChars. rewrite Ewd. rewrite <- Ewd.
    assert (str_split_by_char word = Some ps) as -> by (apply (split_spec cs); split; auto).
    rewrite (map_run_spec _ ps (map covered cs)).
    2:{ clear - F. induction F as [|c p cs ps H F IH]; constructor; auto. rewrite (codepoint_spec c p H). reflexivity. }
    cbn [bind]. assert (length ps = length cs) as Lp by (symmetry; eapply Forall2_len; eauto).
    assert (length (map covered cs) = length ps) as Lm by (rewrite map_length; auto).
    assert (cs <> []) as Nc. { intros ->. inversion F; subst. discriminate. }
    destruct (Nat.eqb_spec (length (filter negb (map covered cs))) 0) as [Z|NZ]; cbn [orb].
    { apply filter_negb_none in Z. rewrite Forall_map in Z.
      rewrite (runs_unique _ _ _ R (uniform_run true cs Nc Z)) in *. exists ts0. cbn [length Nat.leb]. auto. }
    destruct (Nat.eqb_spec (length (filter negb (map covered cs))) (length ps)) as [A|NA].
    { rewrite <- Lm in A. apply filter_negb_all in A. rewrite Forall_map in A.
      rewrite (runs_unique _ _ _ R (uniform_run false cs Nc A)) in *. exists ts0. cbn [length Nat.leb]. auto. }
    destruct F as [|c p cs ps Hc F]; [contradiction|]. cbn [map combine].
    destruct (segment_loop_spec cs ps F (covered c) [c] p []) as (vs & segs' & ts & R' & L & G); [discriminate|apply encoding_one; auto|].
    cbn [map app] in R'. change (covered c, c) with (key c) in R'. change (key c :: map key cs) with (map key (c :: cs)) in R'.
    rewrite (runs_unique _ _ _ R R') in *. exists ts. split; auto. split; auto. rewrite L. cbn [app].
    destruct segs' as [|s segs']; [|reflexivity]. exfalso.
    destruct R' as (S & _). unfold spread in S. cbn in S. rewrite app_nil_r in S.
    assert (Forall (fun x => covered x = covered c) (c :: cs)) as U.
    { clear - S. change (map (pair (covered c)) vs = map key (c :: cs)) in S. revert vs S. generalize (c :: cs) as l. generalize (covered c) as k. intros k l.
      induction l as [|x l IH]; intros [|v vs] S; try discriminate; [constructor|]. cbn [map] in S. unfold key at 1 in S. injection S as E1 E2 E3. constructor; [auto|]. apply (IH vs). exact E3. }
    assert (forall b, Forall (fun x => covered x = b) (c :: cs) -> length (filter negb (map covered (c :: cs))) = if b then 0 else length (c :: cs)) as Cnt.
    { intros b' H. clear - H. revert H. generalize (c :: cs) as l. intros l. induction 1 as [|x l Hx H IH]; [destruct b'; auto|]. cbn [map filter].
      rewrite Hx. destruct b'; cbn [negb length]; auto. }
    specialize (Cnt _ U). destruct (covered c); rewrite Cnt in *; [lia|]. cbn [length] in *. lia.
  Qed.
  Lemma segment_malformed word : ~ well_formed_utf8 word -> SegmentCoveredChars covered word = Fine [].
  Proof. intros H. unfold SegmentCoveredChars. destruct word; auto. rewrite (split_invalid _ H). reflexivity. Qed.
End Segments.

(** ** Word pieces *)
Lemma next_state_spec vocab st c : GetNextTrieState vocab st c =
  if existsb (prefixb (st ++ [c])) vocab then Some (st ++ [c]) else None.
Proof. reflexivity. Qed.
Lemma in_trie vocab p w : In w vocab -> is_prefix p w -> existsb (prefixb p) vocab = true.
Proof. intros I H. apply existsb_exists. exists w. split; auto. apply prefixb_spec; auto. Qed.
Lemma final_spec vocab st : is_final vocab st = true <-> In st vocab.
Proof.
  unfold is_final. rewrite existsb_exists. split.
  - intros (w & I & E). apply str_eqb_eq in E. subst; auto.
  - intros I. exists st. split; auto. apply str_eqb_refl.
Qed.

Lemma match_loop_spec vocab ls : forall st m ml m' ml', match_loop vocab ls st m ml = (m', ml') ->
  exists q, m' = m ++ q /\ is_prefix q ls /\
   ((ml' = ml /\ forall v, v <> [] -> is_prefix v ls -> ~ In (st ++ v) vocab) \/
    exists w, w <> [] /\ is_prefix w q /\ ml' = length m + length w /\ In (st ++ w) vocab /\
      forall v, is_prefix v ls -> In (st ++ v) vocab -> length v <= length w).
Proof.
  induction ls as [|c ls IH]; intros st m ml m' ml' H; cbn [match_loop] in H.
  - injection H as <- <-. exists []. rewrite app_nil_r. split; auto. split; [exists []; auto|]. left. split; auto.
    intros v N (t & E). destruct v; [contradiction|discriminate].
  - rewrite next_state_spec in H. destruct (existsb (prefixb (st ++ [c])) vocab) eqn:Ex.
    + apply IH in H. destruct H as (q & -> & (t & Et) & D). exists (c :: q). rewrite <- app_assoc. split; auto.
      split; [exists t; simpl; congruence|]. rewrite app_length in D. cbn [length] in D.
      destruct D as [(E & No)|(w & Nw & Pw & E & Iw & Lw)].
      * destruct (is_final vocab (st ++ [c])) eqn:Ef.
        -- right. exists [c]. apply final_spec in Ef. split; [discriminate|]. split; [exists q; auto|].
           cbn [length] in *. split; [lia|]. split; auto. intros v (t' & Ev) Iv.
           destruct v as [|x [|y v]]; cbn [length]; try lia. exfalso. injection Ev as -> Ev.
           apply (No (y :: v)); [discriminate|exists t'; simpl; auto|]. rewrite <- app_assoc. auto.
        -- left. split; auto. intros v Nv (t' & Ev) Iv. destruct v as [|x v]; [contradiction|]. injection Ev as -> Ev.
           destruct v as [|y v].
           ++ apply final_spec in Iv. congruence.
           ++ apply (No (y :: v)); [discriminate|exists t'; simpl; auto|]. rewrite <- app_assoc. auto.
      * right. exists (c :: w). split; [discriminate|]. destruct Pw as (t' & ->). split; [exists t'; auto|].
        cbn [length] in *. split; [lia|]. rewrite <- app_assoc in Iw. split; auto.
        intros v (t2 & Ev) Iv. destruct v as [|x v]; cbn [length]; [lia|]. injection Ev as -> Ev.
        assert (length v <= length w); [|lia]. apply Lw; [exists t2; auto|]. rewrite <- app_assoc. auto.
    + injection H as <- <-. exists []. rewrite app_nil_r. split; auto. split; [exists (c :: ls); auto|]. left. split; auto.
      intros v Nv (t & Ev) Iv. destruct v as [|x v]; [contradiction|]. injection Ev as -> Ev.
      erewrite in_trie in Ex; [discriminate|exact Iv|]. exists v. rewrite <- app_assoc. auto.
Qed.

Lemma prefix_firstn {A} (w q : list A) : (exists t, q = w ++ t) -> firstn (length w) q = w.
Proof. intros (t & ->). rewrite firstn_app, Nat.sub_diag, firstn_all. simpl. apply app_nil_r. Qed.

Lemma matched_spec vocab ls st : let w := GetMatchedTokens vocab ls st in
  (w = [] /\ forall v, v <> [] -> is_prefix v ls -> ~ In (st ++ v) vocab) \/
  longest_match (fun v => In (st ++ v) vocab) ls w.
Proof.
  unfold GetMatchedTokens. destruct (match_loop vocab ls st [] 0) as [m ml] eqn:E.
  apply match_loop_spec in E. destruct E as (q & E1 & (t & Et) & D). cbn [app] in E1. subst q.
  destruct D as [(-> & No)|(w & Nw & Pw & -> & Iw & Lw)].
  - left. destruct m; cbn; auto.
  - right. cbn [length Nat.add]. assert ((if length w <? length m then firstn (length w) m else m) = w) as ->.
    { destruct Pw as (t' & ->). destruct (length w <? length (w ++ t')) eqn:El.
      - apply prefix_firstn. eauto.
      - apply Nat.ltb_ge in El. rewrite app_length in El. destruct t'; [apply app_nil_r|simpl in El; lia]. }
    split; auto. split; [|split; auto]. destruct Pw as (t' & ->). exists (t' ++ t). rewrite Et, <- app_assoc. auto.
Qed.

Section Parse.
  Variable syms : list str.
  Variable oov : option nat.
  Variable prefix : str.
  Hypothesis distinct : NoDup syms.

  Lemma find_sym_nth t i : nth_error syms i = Some t -> find_sym t syms = Some i.
  Proof.
    intros H. destruct (find_sym t syms) as [j|] eqn:F.
    - apply find_sym_some in F. f_equal. apply (proj1 (NoDup_nth_error syms) distinct); [apply nth_error_Some; congruence|congruence].
    - exfalso. apply find_sym_none in F. apply F. eapply nth_error_In; eauto.
  Qed.

  (** The words of the trie are the texts of the symbols. *)
  Lemma codepoints_inv ls cs : map_run GetUtf8Codepoint ls = Fine cs -> Forall2 encodes cs ls.
  Proof.
    intros H. apply map_run_inv in H. induction H as [|p c ls cs H F IH]; constructor; auto.
    unfold GetUtf8Codepoint in H. destruct (decode_single_unicode_char p) as [ok v] eqn:D.
    destruct ok; cbn [qcheck] in H; [|discriminate]. injection H as ->. apply single_true. auto.
  Qed.
  Lemma split_concat s ls : str_split_by_char s = Some ls -> ls <> [] -> concat ls = s.
  Proof.
    intros H N. destruct (is_valid s) eqn:V.
    - apply is_valid_spec in V. destruct V as (cs & ps & Sp). rewrite (split_spec _ _ _ Sp) in H. injection H as <-.
      destruct Sp as [_ ->]. auto.
    - destruct (not_valid s) as [Hn _].
      + intros W. apply is_valid_spec in W. congruence.
      + unfold str_split_by_char in H. rewrite Hn in H. injection H as <-. contradiction.
  Qed.

  Lemma combine_seq_in {A} (l : list A) : forall k i x, In (i, x) (combine (seq k (length l)) l) <-> k <= i /\ nth_error l (i - k) = Some x.
  Proof.
    induction l as [|a l IH]; intros k i x; cbn [length seq combine].
    - split; [intros []|intros [_ H]; destruct (i - k); discriminate].
    - cbn [In]. rewrite IH. split.
      + intros [H|[H1 H2]]; [injection H as <- <-; rewrite Nat.sub_diag; split; auto|].
        split; [lia|]. replace (i - k) with (S (i - S k)) by lia. auto.
      + intros [H1 H2]. destruct (Nat.eq_dec i k) as [->|N].
        * left. rewrite Nat.sub_diag in H2. simpl in H2. congruence.
        * right. split; [lia|]. replace (i - k) with (S (i - S k)) in H2 by lia. auto.
  Qed.

  Lemma trie_words_spec vocab : trie_words syms oov = Fine vocab -> forall w, w <> [] ->
    (In w vocab <-> exists bs label, encoding w bs /\ nth_error syms label = Some bs /\ 0 < label /\ Some label <> oov).
  Proof.
    unfold trie_words. intros H w Nw. apply map_run_inv in H.
    set (names := map snd _) in H.
    assert (forall s, In s names <-> exists label, nth_error syms label = Some s /\ 0 < label /\ Some label <> oov) as Nm.
    { intros s. unfold names. rewrite in_map_iff. split.
      - intros ([l s'] & E & I). cbn in E. subst s'. apply filter_In in I. destruct I as [I T]. apply combine_seq_in in I.
        destruct I as [_ I]. rewrite Nat.sub_0_r in I. exists l. split; auto. cbn [fst] in T. apply andb_true_iff in T. destruct T as [T1 T2].
        apply negb_true_iff, Nat.eqb_neq in T1. split; [lia|]. intros E. rewrite <- E in T2. rewrite Nat.eqb_refl in T2. discriminate.
      - intros (l & I & P & No). exists (l, s). split; auto. apply filter_In. split; [apply combine_seq_in; rewrite Nat.sub_0_r; split; [lia|auto]|].
        cbn [fst]. apply andb_true_iff. split; [apply negb_true_iff, Nat.eqb_neq; lia|].
        destruct oov as [o|]; auto. apply negb_true_iff, Nat.eqb_neq. congruence. }
    assert (In w vocab <-> exists s, In s names /\ encoding w s) as V.
    { clear Nm. induction H as [|s v names' vocab' Hs F IH]; [split; [intros []|intros (s & [] & _)]|].
      destruct (str_split_by_char s) as [ls|] eqn:Sp; [|discriminate]. split.
      - intros [->|I]; [|apply IH in I; destruct I as (s' & I & E); exists s'; split; [right|]; auto].
        exists s. split; [left; auto|]. apply codepoints_inv in Hs. exists ls. split; auto. symmetry. apply split_concat; auto.
        intros ->. inversion Hs; subst; contradiction.
      - intros (s' & [->|I] & E); [left|right; apply IH; eauto]. destruct E as (ps & E). rewrite (split_spec _ _ _ E) in Sp. injection Sp as <-.
        destruct E as [E _]. rewrite (codepoints_spec _ _ E) in Hs. congruence. }
    rewrite V. split.
    - intros (s & I & E). apply Nm in I. destruct I as (l & I). exists s, l. intuition.
    - intros (s & l & E & I). exists s. split; auto. apply Nm. exists l. intuition.
  Qed.

  Lemma walk_spec vocab ls : forall st st', walk vocab st ls = Fine st' -> st' = st ++ ls.
  Proof.
    induction ls as [|c ls IH]; intros st st' H; cbn [walk] in H.
    - injection H as <-. rewrite app_nil_r. auto.
    - rewrite next_state_spec in H. destruct (existsb (prefixb (st ++ [c])) vocab); [|discriminate]. apply IH in H. rewrite <- app_assoc in H. auto.
  Qed.

  Variable trie : list (list N) * list N.
  Variable pcs : list N.
  Hypothesis prefix_text : encoding pcs prefix.
  Hypothesis built : InitializeWordPieceTrie syms oov prefix = Fine trie.

  Lemma trie_built : trie_words syms oov = Fine (fst trie) /\ snd trie = pcs /\ prefix <> [].
  Proof.
    unfold InitializeWordPieceTrie in built. destruct prefix as [|b p] eqn:Ep; [discriminate|]. rewrite <- Ep in *. cbn [qcheck] in built.
    destruct (trie_words syms oov) as [| | |vocab]; try discriminate. cbn [bind] in built.
    destruct prefix_text as (ps & Sp). rewrite (split_spec _ _ _ Sp) in built.
    rewrite (codepoints_spec pcs ps (proj1 Sp)) in built. cbn [bind] in built.
    destruct (walk vocab [] pcs) as [| | |st] eqn:W; try discriminate. apply walk_spec in W. cbn [app] in W. subst st.
    injection built as <-. split; auto. split; auto. rewrite Ep. discriminate.
  Qed.

  Definition initial := in_vocabulary syms oov [].
  Definition internal := in_vocabulary syms oov prefix.

  Lemma initial_spec w : w <> [] -> (In w (fst trie) <-> initial w).
  Proof.
    intros N. rewrite (trie_words_spec (fst trie) (proj1 trie_built) w N). unfold initial, in_vocabulary, symbol_of. split.
    - intros (bs & l & H). exists l, bs. intuition.
    - intros (l & bs & H). exists bs, l. intuition.
  Qed.
  Lemma encoding_split a b s : encoding (a ++ b) s -> exists x y, s = x ++ y /\ encoding a x /\ encoding b y.
  Proof.
    intros (ps & F & ->). apply Forall2_app_inv_l in F. destruct F as (p1 & p2 & F1 & F2 & ->).
    exists (concat p1), (concat p2). split; [apply concat_app|]. split; [exists p1|exists p2]; split; auto.
  Qed.
  Lemma internal_spec w : w <> [] -> (In (pcs ++ w) (fst trie) <-> internal w).
  Proof.
    intros N. rewrite (trie_words_spec (fst trie) (proj1 trie_built)) by (destruct pcs; [simpl; auto|discriminate]).
    unfold internal, in_vocabulary, symbol_of. split.
    - intros (bs & l & E & H). apply encoding_split in E. destruct E as (x & y & -> & Ex & Ey).
      rewrite (encoding_fun _ _ _ Ex prefix_text) in H. exists l, y. intuition.
    - intros (l & bs & E & H). exists (prefix ++ bs), l. split; [apply encoding_app; auto|]. intuition.
  Qed.

  Lemma longest_ext (P Q : list N -> Prop) s w : (forall v, v <> [] -> (P v <-> Q v)) -> longest_match P s w -> longest_match Q s w.
  Proof.
    intros H (N & Pre & Pw & L). split; auto. split; auto. split; [apply H; auto|]. intros v Hv Qv.
    destruct v as [|x v]; [simpl; lia|]. apply L; auto. apply H; [discriminate|auto].
  Qed.

  Lemma labels_string w bs : encoding w bs -> LabelsToUTF8String w = Fine bs.
  Proof. intros (ps & F & ->). unfold LabelsToUTF8String. rewrite (append_all_spec _ _ F). reflexivity. Qed.

  Definition usable := exists o, oov = Some o /\ 0 < o.
  Lemma usable_dec : usable \/ ~ usable.
  Proof.
    unfold usable. destruct oov as [[|o]|]; [right|left|right].
    - intros (o & E & H). injection E as <-. lia.
    - exists (S o). split; auto. lia.
    - intros (o & E & _). discriminate.
  Qed.

  (** One of the two situations: before the first piece, and after it. *)
  Definition situation (P : list N -> Prop) (st : list N) (pre : str) : Prop :=
    (P = initial /\ st = [] /\ pre = []) \/ (P = internal /\ st = pcs /\ pre = prefix).

  Lemma parse_loop_spec fuel : forall ls bs P st pre, length ls <= fuel -> encoding ls bs -> situation P st pre ->
    exists ps, greedy internal P ls ps /\
      ((forall p, In p ps -> is_unknown p = true -> usable) ->
        exists labels, parse_loop syms oov prefix fuel (fst trie) (snd trie) ls st pre = Some (Fine (labels, length (filter is_unknown ps))) /\
          match ps, labels with
          | [], [] => True
          | p :: ps', l :: labels' => labelled syms oov pre p l /\ Forall2 (labelled syms oov prefix) ps' labels'
          | _, _ => False
          end) /\
      ((exists p, In p ps /\ is_unknown p = true) -> ~ usable ->
        parse_loop syms oov prefix fuel (fst trie) (snd trie) ls st pre = Some Check).
  Proof.
    destruct trie_built as (_ & Est & Npre).
    induction fuel as [|fuel IH]; intros ls bs P st pre Hl E Sit.
    { destruct ls; [|simpl in Hl; lia]. exists []. split; [constructor|]. split; [intros _; exists []; split; auto|].
      intros (p & [] & _). }
    destruct ls as [|c ls].
    { exists []. split; [constructor|]. split; [intros _; exists []; split; auto|]. intros (p & [] & _). }
    assert (situation internal (snd trie) (match pre with [] => prefix | _ => pre end)) as Sit'.
    { right. split; auto. split; auto. destruct Sit as [(_ & _ & ->)|(_ & _ & ->)]; auto. destruct prefix; auto. }
    assert (forall v, v <> [] -> (In (st ++ v) (fst trie) <-> P v)) as Pspec.
    { intros v Nv. destruct Sit as [(-> & -> & _)|(-> & -> & _)]; [apply initial_spec|apply internal_spec]; auto. }
    cbn [parse_loop]. destruct (matched_spec (fst trie) (c :: ls) st) as [(Em & No)|L].
    - rewrite Em.
      assert (exists b1 b2, bs = b1 ++ b2 /\ encoding ls b2) as (b1 & b2 & _ & E2).
      { destruct (encoding_split [c] ls bs E) as (x & y & ? & ? & ?). eauto. }
      destruct (IH ls b2 internal (snd trie) (match pre with [] => prefix | _ => pre end)) as (ps & G & Ok & Bad);
        [simpl in Hl; lia|auto|auto|].
      exists (Unknown c :: ps). split; [|split].
      + constructor; auto. intros v Nv Hv Pv. apply (No v Nv Hv). apply Pspec; auto.
      + intros U. destruct (U (Unknown c)) as (o & Eo & Po); [left; auto|reflexivity|].
        destruct Ok as (labels & R & Lab); [intros p I; apply U; right; auto|].
        exists (o :: labels). rewrite Eo in *. apply Nat.ltb_lt in Po. rewrite Po, R. cbn [bind fst snd filter is_unknown length].
        split; auto. split; [exact eq_refl|].
        destruct ps as [|p ps], labels as [|l labels]; try contradiction; [constructor|]. destruct Lab as [L1 L2]. constructor; auto.
        destruct Sit as [(_ & _ & ->)|(_ & _ & ->)]; auto. destruct prefix; auto.
      + intros _ NU. destruct oov as [o|] eqn:Eo; auto. destruct o; [reflexivity|]. exfalso. apply NU. exists (S o). split; auto. lia.
    - set (w := GetMatchedTokens (fst trie) (c :: ls) st) in *.
      pose proof L as (Nw & (r & Er) & Iw & _).
      assert (P w) as Pw by (apply Pspec; auto).
      destruct (encoding_split w r bs) as (bw & br & _ & Ew & Ebr); [rewrite <- Er; auto|].
      assert (skipn (length w) (c :: ls) = r) as Esk. { rewrite Er, skipn_app, Nat.sub_diag, skipn_all. reflexivity. }
      assert (exists l, symbol_of syms oov pre w l /\ find_sym (pre ++ bw) syms = Some l /\ 0 < l) as (l & Sy & Fi & Pl).
      { assert (exists l, symbol_of syms oov pre w l) as (l & Sy).
        { destruct Sit as [(-> & _ & ->)|(-> & _ & ->)]; exact Pw. }
        exists l. split; auto. destruct Sy as (b & Eb & Nb & Pl & _). rewrite (encoding_fun _ _ _ Ew Eb).
        split; auto. apply find_sym_nth; auto. }
      destruct (IH r br internal (snd trie) (match pre with [] => prefix | _ => pre end)) as (ps & G & Ok & Bad).
      { assert (length (c :: ls) = length w + length r) as Ll by (rewrite Er, app_length; auto). destruct w; [contradiction|]. simpl in *; lia. }
      { auto. } { auto. }
      exists (Known w :: ps). split; [|].
      + rewrite Er. constructor; auto. rewrite <- Er. eapply longest_ext; [|exact L]. auto.
      + destruct w as [|x w'] eqn:Exw; [contradiction|]. rewrite <- Exw in *. clearbody w.
        assert (forall X : option (run (list nat * nat)), X = X) by auto.
        rewrite Exw. rewrite <- Exw. rewrite (labels_string w bw Ew). cbn [bind]. rewrite Fi, Esk.
        assert (0 <? l = true) as -> by (apply Nat.ltb_lt; auto). split.
        * intros U. destruct Ok as (labels & R & Lab); [intros p I; apply U; right; auto|].
          exists (l :: labels). rewrite R. cbn [bind fst snd filter is_unknown]. split; auto. split; auto.
          destruct ps as [|p ps], labels as [|l' labels]; try contradiction; [constructor|]. destruct Lab as [L1 L2]. constructor; auto.
          destruct Sit as [(_ & _ & ->)|(_ & _ & ->)]; auto. destruct prefix; auto.
        * intros (p & [<-|I] & U) NU; [discriminate|]. rewrite Bad; eauto.
  Qed.

  Lemma parse_spec cs word : encoding cs word ->
    exists ps, greedy internal initial cs ps /\
      ((forall p, In p ps -> is_unknown p = true -> usable) ->
        exists labels, ParseCandWordPiece syms oov prefix trie word = Some (Fine (labels, length (filter is_unknown ps))) /\
          all_labelled syms oov prefix ps labels) /\
      ((exists p, In p ps /\ is_unknown p = true) -> ~ usable ->
        ParseCandWordPiece syms oov prefix trie word = Some Check).
  Proof.
    intros E. unfold ParseCandWordPiece. pose proof E as (qs & Sp). rewrite (split_spec _ _ _ Sp).
    rewrite (codepoints_spec cs qs (proj1 Sp)). apply (parse_loop_spec (length cs) cs word initial [] []); auto. left. auto.
  Qed.
End Parse.

Lemma greedy_text Q P s ps : greedy Q P s ps -> concat (map piece_text ps) = s.
Proof. induction 1; cbn [map concat piece_text]; auto; [congruence|simpl; congruence]. Qed.
Lemma prefix_same_length {A} (v w s : list A) : (exists t, s = v ++ t) -> (exists t, s = w ++ t) -> length v = length w -> v = w.
Proof.
  intros (t & E) (u & F) L. rewrite <- (prefix_firstn v s) by eauto. rewrite L. apply prefix_firstn. eauto.
Qed.
Lemma greedy_unique Q P s ps : greedy Q P s ps -> forall qs, greedy Q P s qs -> ps = qs.
Proof.
  induction 1 as [P|P w r ps L G IH|P c r ps No G IH]; intros qs H.
  - inversion H as [|? ? ? ? L' |]; subst; auto. destruct L' as (N & _). destruct w; [contradiction|discriminate].
  - inversion H as [E1 E2|P' w' r' ps' L' G' E1 E2 E3|P' c' r' ps' No' G' E1 E2 E3]; subst.
    + destruct L as (N & _). destruct w; [contradiction|discriminate].
    + assert (w' = w) as ->.
      { destruct L as (_ & _ & Pw & Lw), L' as (_ & P2 & Pw' & Lw').
        rewrite E2 in P2, Lw'. apply (prefix_same_length _ _ (w ++ r)); [exact P2|exists r; auto|].
        assert (length w' <= length w) by (apply Lw; auto). assert (length w <= length w') by (apply Lw'; [exists r; auto|auto]). lia. }
      apply app_inv_head in E2. subst. f_equal. auto.
    + exfalso. destruct L as (N & _ & Pw & _). apply (No' w N); auto. rewrite E2. exists r. auto.
  - inversion H as [E1 E2|P' w' r' ps' L' G' E1 E2 E3|P' c' r' ps' No' G' E1 E2 E3]; subst.
    + exfalso. destruct L' as (N & _ & Pw & _). apply (No w' N); auto. rewrite <- E2. exists r'. auto.
    + f_equal. auto.
Qed.

Lemma word_labels cs word : encoding cs word -> WordToFst word = Fine cs.
Proof. intros (qs & Sp). unfold WordToFst. rewrite (split_spec _ _ _ Sp). apply codepoints_spec. apply Sp. Qed.
Lemma sum_from l : forall a, fold_left Z.add l a = (a + fold_left Z.add l 0)%Z.
Proof. induction l as [|x l IH]; intros a; cbn [fold_left]; [lia|]. rewrite (IH (a + x)%Z), (IH (0 + x)%Z). lia. Qed.
Lemma sum_right l : fold_left Z.add l 0%Z = fold_right Z.add 0%Z l.
Proof. induction l as [|x l IH]; auto. cbn [fold_left fold_right]. rewrite sum_from, IH. lia. Qed.
Lemma text_string cs word arcs final : encoding cs word -> filter (fun l => negb (N.eqb l 0)) (map fst arcs) = cs ->
  GetTextString arcs final = Fine (word, (fold_right Z.add 0 (map snd arcs) + final)%Z).
Proof. intros E H. unfold GetTextString. rewrite H, (labels_string _ _ E). cbn [bind]. rewrite sum_right. auto. Qed.
Lemma text_round_trip cs word arcs final : encoding cs word -> ~ In 0%N cs -> map fst arcs = cs ->
  WordToFst word = Fine cs /\ GetTextString arcs final = Fine (word, (fold_right Z.add 0 (map snd arcs) + final)%Z).
Proof.
  intros E N H. split; [apply word_labels; auto|]. apply (text_string cs); auto. rewrite H. clear - N. induction cs as [|c cs IH]; auto. cbn [filter].
  destruct (N.eqb_spec c 0) as [->|]; [exfalso; apply N; simpl; auto|]. cbn [negb]. rewrite IH; auto. intros I. apply N. simpl. auto.
Qed.
