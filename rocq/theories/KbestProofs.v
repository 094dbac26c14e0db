From Verif Require Import Base Utf8Model Utf8Spec Utf8Proofs DelimModel DelimSpec DelimProofs KbestModel KbestSpec.

(** ** Words *)
Lemma encoding_fun cs a b : encoding cs a -> encoding cs b -> a = b.
Proof.
  intros (ps & H1 & ->) (qs & H2 & ->). f_equal.
  revert qs H2. induction H1 as [|c p cs' ps' Hc HF IH]; intros qs H2; inversion H2; subst; auto.
  f_equal; auto. eapply encodes_fun; eauto.
Qed.
Lemma encoding_inj a b s : encoding a s -> encoding b s -> a = b.
Proof.
  intros (ps & H1) (qs & H2). apply spells_valid in H1, H2. congruence.
Qed.
Lemma encodings_fun l a b : Forall2 encoding l a -> Forall2 encoding l b -> a = b.
Proof.
  intros H. revert b. induction H as [|x y l a Hx HF IH]; intros b Hb; inversion Hb; subst; auto.
  f_equal; auto. eapply encoding_fun; eauto.
Qed.

Lemma tokens_spec s ts : tokens s = Fine ts <-> text_words s ts.
Proof.
  unfold tokens. split.
  - intros H. destruct (split_whitespace s) eqn:E; try discriminate. injection H as H. subst.
    destruct (code_points s) as [cs|] eqn:C.
    + apply code_points_spec in C. destruct C as (ps & C).
      destruct (split_words cs s (ex_intro _ ps C)) as (l & ts' & Hw & E' & HF).
      rewrite E in E'. injection E' as E'. subst. exists cs, l. repeat split; auto. exists ps; auto.
    + exfalso. assert (~ well_formed_utf8 s) as N.
      { intros (cs & ps & Hs). apply spells_valid in Hs. congruence. }
      apply split_malformed in N. congruence.
  - intros (cs & l & Hc & Hw & HF). destruct (split_words cs s Hc) as (l' & ts' & Hw' & E & HF').
    rewrite E. rewrite <- (words_unique _ _ _ _ Hw Hw') in HF'. rewrite (encodings_fun _ _ _ HF HF').
    reflexivity.
Qed.

Lemma tokens_fun s a b : text_words s a -> text_words s b -> a = b.
Proof. intros H1 H2. apply tokens_spec in H1, H2. congruence. Qed.

(** ** Most frequent value *)
Lemma insert_perm x l : Permutation (insert x l) (x :: l).
Proof.
  induction l as [|y l IH]; simpl; auto. destruct (x <=? y); auto.
  rewrite IH. apply perm_swap.
Qed.
Lemma sort_perm l : Permutation (sort l) l.
Proof. induction l as [|x l IH]; simpl; auto. rewrite insert_perm. auto. Qed.

Definition sorted_from (x : nat) (l : list nat) : Prop :=
  forall pre a b post, x :: l = pre ++ a :: b :: post -> a <= b.

Inductive asc : list nat -> Prop :=
| asc_nil : asc []
| asc_one x : asc [x]
| asc_cons x y l : x <= y -> asc (y :: l) -> asc (x :: y :: l).
Lemma insert_asc x l : asc l -> asc (insert x l).
Proof.
  induction 1 as [|y|y z l Hyz H IH]; simpl.
  - constructor.
  - destruct (x <=? y) eqn:E; [apply Nat.leb_le in E|apply Nat.leb_gt in E]; repeat constructor; lia.
  - destruct (x <=? y) eqn:E; [apply Nat.leb_le in E|apply Nat.leb_gt in E].
    + repeat constructor; auto.
    + simpl in IH. destruct (x <=? z) eqn:F; constructor; auto; lia.
Qed.
Lemma sort_asc l : asc (sort l).
Proof. induction l; simpl; [constructor|apply insert_asc; auto]. Qed.

Lemma occ_app v a b : occurrences v (a ++ b) = occurrences v a + occurrences v b.
Proof. apply count_occ_app. Qed.
Lemma occ_repeat v x n : occurrences v (repeat x n) = if Nat.eq_dec x v then n else 0.
Proof.
  unfold occurrences. induction n as [|n IH]; simpl; [destruct Nat.eq_dec; auto|].
  destruct (Nat.eq_dec x v); simpl in IH |- *; rewrite IH; auto.
Qed.
Lemma occ_none v l : ~ In v l -> occurrences v l = 0.
Proof. apply count_occ_not_In. Qed.

(** What the loop knows: the elements before the current run and its best value. *)
Definition best_so_far (d : list nat) (max : nat) (best : option nat) : Prop :=
  match best with
  | None => d = [] /\ max = 0
  | Some v => mode d v /\ max = occurrences v d
  end.

Lemma best_extend d prev curr max best : best_so_far d max best -> Forall (fun y => y < prev) d -> 1 <= curr ->
  let d' := d ++ repeat prev curr in
  (max <= curr -> best_so_far d' curr (Some prev)) /\
  (curr < max -> best_so_far d' max best).
Proof.
  intros HB Hlt Hc d'. assert (d' = d ++ repeat prev curr) as Ed by reflexivity. clearbody d'.
  assert (~ In prev d) as Nin. { intros I. rewrite Forall_forall in Hlt. specialize (Hlt _ I). lia. }
  assert (occurrences prev d' = curr) as Op.
  { rewrite Ed. rewrite occ_app, occ_repeat, (occ_none _ _ Nin). destruct Nat.eq_dec as [_|Ne]; [lia|elim Ne; reflexivity]. }
  assert (forall w, In w d -> occurrences w d' = occurrences w d) as Ow.
  { intros w I. rewrite Ed. rewrite occ_app, occ_repeat. destruct (Nat.eq_dec prev w) as [Ee|_]; [rewrite Ee in Nin; contradiction|lia]. }
  assert (forall w, In w d -> occurrences w d <= max) as Om.
  { intros w I. destruct best as [v|]; simpl in HB.
    - destruct HB as [[_ H] ->]. destruct (H w I); lia.
    - destruct HB as [HB _]. rewrite HB in I. destruct I. }
  split.
  - intros Hm. split; [|auto]. split.
    + rewrite Ed. apply in_or_app. right. destruct curr; [lia|]. left; auto.
    + intros w I. rewrite Ed in I. apply in_app_or in I. destruct I as [I|I].
      * rewrite (Ow w I), Op. rewrite Forall_forall in Hlt. specialize (Hlt w I). specialize (Om w I). lia.
      * apply repeat_spec in I. subst. right. lia.
  - intros Hm. destruct best as [v|]; simpl in HB; [|lia]. destruct HB as [[Iv H] E].
    split; [|rewrite (Ow v Iv); auto]. split.
    + rewrite Ed. apply in_or_app. auto.
    + intros w I. rewrite (Ow v Iv). rewrite Ed in I. apply in_app_or in I. destruct I as [I|I].
      * rewrite (Ow w I). auto.
      * apply repeat_spec in I. subst. left. rewrite Op. lia.
Qed.

Lemma freq_loop_spec rest : forall prev curr max best d,
  best_so_far d max best -> Forall (fun y => y < prev) d -> 1 <= curr -> asc (prev :: rest) ->
  exists d' curr' max' best' back, freq_loop prev rest curr max best = (curr', max', best', back) /\
    best_so_far d' max' best' /\ Forall (fun y => y < back) d' /\ 1 <= curr' /\
    d' ++ repeat back curr' = d ++ repeat prev curr ++ rest.
Proof.
  induction rest as [|x rest IH]; intros prev curr max best d HB Hlt Hc Ha; cbn [freq_loop].
  - exists d, curr, max, best, prev. rewrite app_nil_r. repeat split; auto.
  - inversion Ha as [| |x0 y0 l0 Hle Ha' E]; subst.
    destruct (Nat.eqb x prev) eqn:E; cbn [negb].
    + apply Nat.eqb_eq in E. subst.
      destruct (IH prev (S curr) max best d HB Hlt ltac:(lia) Ha') as (d' & c' & m' & b' & k & R & H1 & H2 & H3 & H4).
      exists d', c', m', b', k. repeat split; auto. rewrite H4. f_equal.
      change (repeat prev (S curr)) with (prev :: repeat prev curr).
      rewrite (repeat_cons curr prev), <- app_assoc. reflexivity.
    + apply Nat.eqb_neq in E. destruct (best_extend d prev curr max best HB Hlt Hc) as [B1 B2].
      assert (Forall (fun y => y < x) (d ++ repeat prev curr)) as Hlt'.
      { apply Forall_app. split.
        - eapply Forall_impl; [|exact Hlt]. intros a Ha''; cbv beta in *; lia.
        - apply Forall_forall. intros a I. apply repeat_spec in I. lia. }
      destruct (max <=? curr) eqn:M; [apply Nat.leb_le in M|apply Nat.leb_gt in M].
      * destruct (IH x 1 curr (Some prev) _ (B1 M) Hlt' ltac:(lia) Ha')
          as (d' & c' & m' & b' & k & R & H1 & H2 & H3 & H4).
        exists d', c', m', b', k. repeat split; auto. rewrite H4, <- app_assoc. reflexivity.
      * destruct (IH x 1 max best _ (B2 M) Hlt' ltac:(lia) Ha')
          as (d' & c' & m' & b' & k & R & H1 & H2 & H3 & H4).
        exists d', c', m', b', k. repeat split; auto. rewrite H4, <- app_assoc. reflexivity.
Qed.

Lemma mode_perm l l' v : Permutation l l' -> mode l v -> mode l' v.
Proof.
  intros P [I H].
  assert (forall w, occurrences w l = occurrences w l') as O.
  { intros w. apply (proj1 (Permutation_count_occ Nat.eq_dec l l') P). }
  split; [eapply Permutation_in; eauto|]. intros w Iw. rewrite <- !O. apply H.
  eapply Permutation_in; [symmetry; eauto|auto].
Qed.

Lemma most_frequent l : l <> [] -> exists v, MostFreqValue l = Fine v /\ mode l v.
Proof.
  intros Hl. unfold MostFreqValue. pose proof (sort_perm l) as P. pose proof (sort_asc l) as A.
  destruct (sort l) as [|x rest]; [apply Permutation_nil in P; contradiction|].
  destruct (freq_loop_spec rest x 1 0 None [] (conj eq_refl eq_refl) (Forall_nil _) (le_n 1) A)
    as (d & c & m & b & k & -> & HB & Hlt & Hc & E).
  cbn [app repeat] in E. rewrite <- E in P.
  destruct (best_extend d k c m b HB Hlt Hc) as [B1 B2].
  destruct b as [v|].
  - destruct (m <=? c) eqn:M; [apply Nat.leb_le in M|apply Nat.leb_gt in M].
    + exists k. split; auto. eapply mode_perm; [exact P|]. apply (B1 M).
    + exists v. split; auto. eapply mode_perm; [exact P|]. apply (B2 M).
  - exists k. split; auto. eapply mode_perm; [exact P|]. destruct HB as [_ ->]. apply B1. lia.
Qed.
Lemma mode_unique l v w : mode l v -> mode l w -> v = w.
Proof. intros [I1 H1] [I2 H2]. destruct (H1 w I2), (H2 v I1); lia. Qed.

(** ** Pruning *)
Lemma map_run_spec {A B} (f : A -> run B) l bs : Forall2 (fun a b => f a = Fine b) l bs ->
  map_run f l = Fine bs.
Proof. induction 1 as [|a b l bs H HF IH]; simpl; auto. rewrite H, IH. reflexivity. Qed.
Lemma map_run_inv {A B} (f : A -> run B) l bs : map_run f l = Fine bs ->
  Forall2 (fun a b => f a = Fine b) l bs.
Proof.
  revert bs. induction l as [|a l IH]; simpl; intros bs H.
  - injection H as <-. constructor.
  - destruct (f a) as [| | |b] eqn:E; try discriminate. cbn [bind] in H.
    destruct (map_run f l) as [| | |r] eqn:R; try discriminate. injection H as <-. constructor; auto.
Qed.

Lemma counts_run lists wss : Forall2 hyp_words lists wss ->
  map_run (fun h => GetWordCount (fst h)) lists = Fine (map (@length str) wss).
Proof.
  intros H. apply map_run_spec. induction H as [|h ts l wss Hh HF IH]; simpl; constructor; auto.
  unfold GetWordCount. apply tokens_spec in Hh. rewrite Hh. reflexivity.
Qed.

Lemma filter_counts v lists wss :
  map fst (filter (fun x => Nat.eqb (snd x) v) (combine lists (map (@length str) wss))) =
    map fst (with_count v lists wss) /\
  map snd (filter (fun x => Nat.eqb (snd x) v) (combine lists (map (@length str) wss))) =
    map (fun x => length (snd x)) (with_count v lists wss).
Proof.
  unfold with_count. revert wss. induction lists as [|h l IH]; intros [|ts wss]; simpl; auto.
  destruct (IH wss) as [H1 H2]. destruct (Nat.eqb (length ts) v); simpl; rewrite H1, H2; auto.
Qed.

Lemma with_count_words v lists wss : Forall2 hyp_words lists wss ->
  Forall2 hyp_words (map fst (with_count v lists wss)) (map snd (with_count v lists wss)).
Proof.
  intros H. unfold with_count. induction H as [|h ts l wss Hh HF IH]; simpl; auto.
  destruct (Nat.eqb (length ts) v); simpl; auto.
Qed.
Lemma with_count_length v lists wss ts : In ts (map snd (with_count v lists wss)) -> length ts = v.
Proof.
  intros I. apply in_map_iff in I. destruct I as ([h t] & <- & I). unfold with_count in I.
  apply filter_In in I. destruct I as [_ I]. apply Nat.eqb_eq in I. auto.
Qed.

Lemma assign_same c base counts ws : Forall (fun x => x = c) counts ->
  (base = Some ws \/ (base = None /\ ws = map Some (seq 1 (c - 1)))) ->
  assign_states c base counts = repeat ws (length counts).
Proof.
  intros H. revert base. induction H as [|x l Hx HF IH]; intros base HB; auto. subst x.
  cbn [assign_states repeat length]. rewrite Nat.eqb_refl. f_equal.
  - destruct HB as [->|[-> ->]]; auto.
  - replace (match base with Some w => w | None => map Some (seq 1 (c - 1)) end) with ws
      by (destruct HB as [->|[-> ->]]; auto). apply IH. auto.
Qed.

(** The kept hypotheses and their alignment states when all have [v] words. *)
Definition aligned (hyps : list hyp) (v : nat) : alignment :=
  Alignment hyps (repeat (map Some (seq 1 (v - 1))) (length hyps)) (1 + (v - 1)).

Lemma same_count wss : (match map (@length str) wss with [] => true | c :: _ => forallb (Nat.eqb c) (map (@length str) wss) end) = true
  <-> uniform wss.
Proof.
  destruct wss as [|w wss].
  - split; auto. intros _ a b [].
  - cbn [map]. rewrite forallb_forall. split.
    + intros H a b Ia Ib.
      assert (forall x, In x (w :: wss) -> length w = length x) as G.
      { intros x Ix. apply Nat.eqb_eq, H. apply (in_map (@length str)) in Ix. exact Ix. }
      rewrite <- (G a Ia), <- (G b Ib). reflexivity.
    + intros H x Ix. apply Nat.eqb_eq. change (In x (map (@length str) (w :: wss))) in Ix.
      apply in_map_iff in Ix. destruct Ix as (y & <- & Iy). apply H; auto. left; auto.
Qed.

Lemma align_counts hyps v : (exists n : nat, length hyps = S n) ->
  (match repeat v (length hyps) with
   | [] => Fine (Alignment [] [] 1)
   | c :: _ => Fine (Alignment hyps (assign_states c None (repeat v (length hyps))) (1 + (c - 1)))
   end) = Fine (aligned hyps v).
Proof.
  intros (n & E). unfold aligned. rewrite E. cbn [repeat]. f_equal. f_equal.
  change (v :: repeat v n) with (repeat v (S n)).
  rewrite (assign_same v None (repeat v (S n)) (map Some (seq 1 (v - 1)))).
  - rewrite repeat_length. reflexivity.
  - apply Forall_forall. intros x I. apply repeat_spec in I. auto.
  - right. auto.
Qed.

Lemma all_length v (wss : list (list str)) : (forall ts, In ts wss -> length ts = v) ->
  map (@length str) wss = repeat v (length wss).
Proof.
  induction wss as [|w wss IH]; simpl; intros H; auto. rewrite (H w) by auto. f_equal. auto.
Qed.

Lemma align_uniform n lists wss v : Forall2 hyp_words lists wss -> lists <> [] ->
  (forall ts, In ts wss -> length ts = v) -> SimpleAlign n lists = Fine (aligned lists v).
Proof.
  intros HF Hn Hv. unfold SimpleAlign. destruct lists as [|h lists]; [contradiction|].
  rewrite (counts_run _ _ HF). cbn [bind]. unfold prune_step.
  assert (uniform wss) as U. { intros a b Ia Ib. rewrite (Hv a Ia), (Hv b Ib). auto. }
  apply same_count in U. rewrite U. cbn [bind]. rewrite (all_length v wss Hv).
  rewrite <- (Forall2_len _ _ _ HF). apply align_counts. simpl. eauto.
Qed.

Lemma align_pruned n lists wss v : Forall2 hyp_words lists wss -> ~ uniform wss ->
  (if 0 <? n then v = n else mode (map (@length str) wss) v) ->
  SimpleAlign n lists = Fine (match map fst (with_count v lists wss) with
                              | [] => Alignment [] [] 1
                              | hs => aligned hs v
                              end).
Proof.
  intros HF HU Hv. unfold SimpleAlign. destruct lists as [|h lists].
  { exfalso. inversion HF; subst. apply HU. intros a b []. }
  rewrite (counts_run _ _ HF). cbn [bind]. unfold prune_step.
  assert ((match map (@length str) wss with [] => true | c :: _ => forallb (Nat.eqb c) (map (@length str) wss) end) = false) as U.
  { apply not_true_iff_false. rewrite same_count. auto. }
  rewrite U. unfold PruneByInputLength.
  replace (if 0 <? n then Fine n else MostFreqValue (map (@length str) wss)) with (Fine v).
  2:{ destruct (0 <? n); [congruence|].
      destruct (most_frequent (map (@length str) wss)) as (v' & -> & M).
      { destruct wss; [inversion HF|discriminate]. }
      f_equal. eapply mode_unique; eauto. }
  cbn [bind]. destruct (filter_counts v (h :: lists) wss) as [-> ->].
  remember (with_count v (h :: lists) wss) as W eqn:EW.
  assert (map (fun x => length (snd x)) W = repeat v (length (map fst W))) as E.
  { rewrite <- map_map, (all_length v (map snd W)), !map_length; auto.
    intros ts I. subst W. eapply with_count_length; eauto. }
  rewrite E. destruct (map fst W) as [|k K] eqn:EK; [reflexivity|]. apply align_counts. simpl; eauto.
Qed.

(** ** The alignment acceptor *)
Fixpoint chain (q : nat) (ws : list str) : list word_arc :=
  match ws with [] => [] | w :: ws' => (q, S q, w) :: chain (S q) ws' end.

Lemma hyp_arcs_chain ts : forall q, hyp_arcs q (map Some (seq (S q) (length ts))) ts = Fine (chain q ts).
Proof. induction ts as [|w ts IH]; intros q; simpl; auto. rewrite IH. reflexivity. Qed.

Lemma all_arcs_run v hyps wss : Forall2 hyp_words hyps wss -> (forall ts, In ts wss -> length ts = v) -> 1 <= v ->
  all_arcs (1 + (v - 1)) hyps (repeat (map Some (seq 1 (v - 1))) (length hyps)) = Fine (flat_map (chain 0) wss).
Proof.
  intros HF. induction HF as [|h ts l wss Hh HF IH]; intros Hv Hp; [reflexivity|].
  cbn [all_arcs length repeat flat_map]. apply tokens_spec in Hh. rewrite Hh. cbn [bind].
  assert (length ts = v) as El by (apply Hv; left; auto).
  rewrite map_length, seq_length, El. replace (v - 1 + 1) with v by lia. rewrite Nat.eqb_refl. cbn [qcheck].
  replace (map Some (seq 1 (v - 1)) ++ [Some (1 + (v - 1))]) with (map Some (seq 1 (length ts))).
  2:{ rewrite El. destruct v as [|v']; [lia|]. replace (S v' - 1) with v' by lia.
      rewrite (seq_S v' 1), map_app. reflexivity. }
  rewrite hyp_arcs_chain. cbn [bind]. rewrite IH; auto. intros t I. apply Hv. right; auto.
Qed.

Lemma chain_in ts : forall q p r w, In (p, r, w) (chain q ts) <->
  exists i, p = q + i /\ r = S p /\ nth_error ts i = Some w.
Proof.
  induction ts as [|x ts IH]; intros q p r w; simpl.
  - split; [intros []|]. intros (i & _ & _ & E). destruct i; discriminate.
  - rewrite IH. split.
    + intros [E|(i & E1 & E2 & E3)].
      * injection E as <- <- <-. exists 0. repeat split; auto; lia.
      * exists (S i). repeat split; auto; lia.
    + intros ([|i] & E1 & E2 & E3).
      * left. simpl in E3. injection E3 as <-. f_equal. f_equal; lia.
      * right. exists i. repeat split; auto; lia.
Qed.

Lemma arcs_in wss p r w : In (p, r, w) (flat_map (chain 0) wss) <->
  r = S p /\ exists ts, In ts wss /\ nth_error ts p = Some w.
Proof.
  rewrite in_flat_map. split.
  - intros (ts & I & H). apply chain_in in H. destruct H as (i & -> & E2 & E3). split; eauto.
  - intros (-> & ts & I & E). exists ts. split; auto. apply chain_in. exists p. auto.
Qed.

Lemma path_language wss ws : forall p q, path (flat_map (chain 0) wss) p ws q <->
  q = p + length ws /\ forall i w, nth_error ws i = Some w -> exists ts, In ts wss /\ nth_error ts (p + i) = Some w.
Proof.
  induction ws as [|x ws IH]; intros p q.
  - split.
    + intros H. inversion H; subst. split; [simpl; lia|]. intros [|i] w E; discriminate.
    + intros [-> _]. simpl. rewrite Nat.add_0_r. constructor.
  - split.
    + intros H. inversion H as [|q' r w ws' t I HP]; subst. apply arcs_in in I. destruct I as [-> (ts & I & E)].
      apply IH in HP. destruct HP as [-> G]. split; [simpl; lia|]. intros [|i] w E'.
      * simpl in E'. injection E' as <-. exists ts. rewrite Nat.add_0_r. auto.
      * destruct (G i w E') as (t' & It & Et). exists t'. split; auto. rewrite <- Et. f_equal. lia.
    + intros [-> G]. apply path_cons with (S p).
      * apply arcs_in. split; auto. destruct (G 0 x eq_refl) as (ts & I & E). rewrite Nat.add_0_r in E. eauto.
      * apply IH. split; [simpl; lia|]. intros i w E. destruct (G (S i) w E) as (ts & I & E').
        exists ts. split; auto. rewrite <- E'. f_equal. lia.
Qed.

Lemma build_aligned hyps wss v : Forall2 hyp_words hyps wss -> (forall ts, In ts wss -> length ts = v) -> 1 <= v ->
  exists arcs, BuildAlign (aligned hyps v) = Fine (v, arcs) /\
    forall ws, path arcs 0 ws v <->
      length ws = v /\ forall i w, nth_error ws i = Some w -> exists ts, In ts wss /\ nth_error ts i = Some w.
Proof.
  intros HF Hv Hp. exists (flat_map (chain 0) wss). split.
  - unfold BuildAlign, aligned. cbn [num_states kept ws_states]. rewrite (all_arcs_run v hyps wss HF Hv Hp).
    cbn [bind]. f_equal. f_equal. lia.
  - intros ws. rewrite path_language. simpl. split; intros [E G]; split; auto.
Qed.

(** ** Combining systems *)
Lemma combine_items_len {A} (a b : list (list A)) : length a = length b ->
  combine_items a b = Fine (map (fun x => fst x ++ snd x) (combine a b)).
Proof.
  revert b. induction a as [|x a IH]; intros [|y b] E; try discriminate; auto.
  simpl. rewrite IH by (simpl in E; lia). reflexivity.
Qed.
Lemma combine_items_bad {A} (a b : list (list A)) : length a <> length b -> combine_items a b = Check.
Proof.
  revert b. induction a as [|x a IH]; intros [|y b] E; simpl in *; try contradiction; auto; try lia.
  rewrite IH by lia. reflexivity.
Qed.

Lemma fold_combine {A} systems : forall (s : list (list A)),
  (forall x, In x systems -> length x = length s) ->
  exists r, fold_left (fun acc x => bind acc (fun c => combine_items c x)) systems (Fine s) = Fine r /\
    length r = length s /\ forall j, j < length s -> nth j r [] = nth j s [] ++ items_at systems j.
Proof.
  induction systems as [|x l IH]; intros s H; simpl.
  - exists s. repeat split; auto. intros. rewrite app_nil_r. auto.
  - assert (length s = length x) as E by (symmetry; apply H; left; auto).
    rewrite (combine_items_len s x E).
    set (r0 := map (fun x => fst x ++ snd x) (combine s x)).
    assert (length r0 = length s) as L. { unfold r0. rewrite map_length, combine_length. lia. }
    destruct (IH r0) as (r & -> & Lr & N).
    { intros y I. rewrite L. apply H. right; auto. }
    exists r. repeat split; [lia|]. intros j Hj. rewrite N by lia. rewrite app_assoc. f_equal.
    unfold r0. change (@nil A) with ((fun x : list A * list A => fst x ++ snd x) ([], [])) at 1.
    rewrite map_nth, combine_nth by auto. reflexivity.
Qed.
Lemma fold_check {A} (systems : list (list (list A))) :
  fold_left (fun acc x => bind acc (fun c => combine_items c x)) systems Check = Check.
Proof. induction systems; simpl; auto. Qed.

Lemma combined {A} (s : list (list A)) systems : (forall x, In x systems -> length x = length s) ->
  exists r, VerifyCombineEnsembleInputs (s :: systems) = Fine r /\ length r = length s /\
    forall j, j < length s -> nth j r [] = items_at (s :: systems) j.
Proof. intros H. apply (fold_combine systems s H). Qed.

Lemma combined_bad {A} (s : list (list A)) systems :
  (exists x, In x systems /\ length x <> length s) -> VerifyCombineEnsembleInputs (s :: systems) = Check.
Proof.
  unfold VerifyCombineEnsembleInputs. revert s. induction systems as [|y l IH]; intros s (x & I & E); [destruct I|].
  simpl. destruct (Nat.eq_dec (length s) (length y)) as [L|L].
  - rewrite (combine_items_len s y L). apply IH. exists x. destruct I as [->|I]; [congruence|]. split; auto.
    rewrite map_length, combine_length. lia.
  - rewrite (combine_items_bad s y L). apply fold_check.
Qed.

Lemma kept_pruned n lists wss v : Forall2 hyp_words lists wss -> ~ uniform wss ->
  (if 0 <? n then v = n else mode (map (@length str) wss) v) ->
  exists a, SimpleAlign n lists = Fine a /\ kept a = map fst (with_count v lists wss).
Proof.
  intros HF HU Hv. eexists. split; [apply (align_pruned n lists wss v HF HU Hv)|].
  destruct (map fst (with_count v lists wss)); reflexivity.
Qed.
Lemma kept_uniform n lists wss : Forall2 hyp_words lists wss -> uniform wss ->
  exists a, SimpleAlign n lists = Fine a /\ kept a = lists.
Proof.
  intros HF HU. destruct HF as [|h ts lists wss Hh HF].
  - eexists. split; reflexivity.
  - eexists. split; [|shelve]. eapply (align_uniform n (h :: lists) (ts :: wss) (length ts)); auto; [discriminate|].
    intros t I. apply HU; auto. left; auto.
    Unshelve. reflexivity.
Qed.

Lemma align_words n lists a : SimpleAlign n lists = Fine a -> lists <> [] -> exists wss, Forall2 hyp_words lists wss.
Proof.
  intros H Hn. unfold SimpleAlign in H. destruct lists as [|h lists]; [contradiction|].
  destruct (map_run (fun h => GetWordCount (fst h)) (h :: lists)) as [| | |cs] eqn:E; try discriminate.
  apply map_run_inv in E. clear - E. induction E as [|h' c l cs Hc E IH]; [exists []; constructor|].
  destruct IH as (wss & IH). unfold GetWordCount in Hc. destruct (tokens (fst h')) as [| | |ts] eqn:T; try discriminate.
  apply tokens_spec in T. exists (ts :: wss). constructor; auto.
Qed.

Lemma uniform_dec wss : uniform wss \/ ~ uniform wss.
Proof.
  destruct (match map (@length str) wss with [] => true | c :: _ => forallb (Nat.eqb c) (map (@length str) wss) end) eqn:E.
  - left. apply same_count. exact E.
  - right. intros U. apply same_count in U. congruence.
Qed.

Lemma alignment_language n lists a : SimpleAlign n lists = Fine a -> kept a <> [] ->
  (forall h ts, In h (kept a) -> hyp_words h ts -> ts <> []) ->
  exists v wss arcs, Forall2 hyp_words (kept a) wss /\ BuildAlign a = Fine (v, arcs) /\
    forall ws, path arcs 0 ws v <-> length ws = v /\
      forall i w, nth_error ws i = Some w -> exists ts, In ts wss /\ nth_error ts i = Some w.
Proof.
  intros H Hk Hw. destruct (list_eq_dec (fun x y : hyp => ltac:(decide equality; [apply Z.eq_dec|apply str_eq_dec])) lists []) as [->|Hn].
  { injection H as <-. contradiction. }
  destruct (align_words n lists a H Hn) as (wss & HF).
  assert (exists v wss', Forall2 hyp_words (kept a) wss' /\ (forall ts, In ts wss' -> length ts = v) /\ a = aligned (kept a) v) as (v & wss' & HF' & Hv & Ea).
  { destruct (uniform_dec wss) as [U|U].
    - destruct HF as [|h ts l wss Hh HF]; [contradiction|].
      rewrite (align_uniform n (h :: l) (ts :: wss) (length ts)) in H.
      + injection H as <-. exists (length ts), (ts :: wss). split; [cbn [kept aligned]; auto|]. split; [|reflexivity].
        intros t I. apply U; auto. left; auto.
      + auto.
      + discriminate.
      + intros t I. apply U; auto. left; auto.
    - assert (exists v, if 0 <? n then v = n else mode (map (@length str) wss) v) as (v & Hv).
      { destruct (0 <? n); [eauto|]. destruct (most_frequent (map (@length str) wss)) as (v & _ & M); [|exists v; exact M].
        intros E0. apply map_eq_nil in E0. apply U. rewrite E0. intros x y Ix. destruct Ix. }
      rewrite (align_pruned n lists wss v HF U Hv) in H. injection H as <-.
      exists v, (map snd (with_count v lists wss)).
      pose proof (with_count_words v lists wss HF) as HW. pose proof (with_count_length v lists wss) as HL.
      destruct (map fst (with_count v lists wss)) as [|h hs] eqn:E; [contradiction|]. auto. }
  assert (1 <= v) as Hp.
  { destruct (kept a) as [|h hs]; [contradiction|]. inversion HF' as [|? ts ? wss2 Hh HF2]; subst.
    specialize (Hw h ts (or_introl eq_refl) Hh). specialize (Hv ts (or_introl eq_refl)). destruct ts; [contradiction|]. simpl in Hv. lia. }
  destruct (build_aligned (kept a) wss' v HF' Hv Hp) as (arcs & EB & L). exists v, wss', arcs.
  rewrite <- Ea in EB. auto.
Qed.
