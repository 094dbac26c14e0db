From Coq Require Import Sorting.Sorted.
From Verif Require Import Base Utf8Spec DelimSpec KbestModel KbestSpec KbestProofs RejoinProofs ExtractProofs ErrorRateModel ErrorRateProofs
  LatticeModel LatticeSpec LatticeProofs DecoderSpec.
From Verif Require PoolModel PoolSpec PoolProofs.

(** ** Pools *)
Lemma scheduled_pool_ops n k : PoolSpec.scheduled (map PoolModel.Schedule (seq k n)) = seq k n.
Proof. revert k. induction n as [|n IH]; intros k; simpl; [|rewrite IH]; auto. Qed.
Lemma scheduled_workers n : PoolSpec.scheduled (PoolModel.StartWorkers n) = [].
Proof. unfold PoolModel.StartWorkers. induction n; simpl; auto. Qed.
Lemma spawns_pool_ops n : PoolSpec.spawns (pool_ops n) = 0.
Proof. unfold PoolSpec.spawns, pool_ops. rewrite scheduled_pool_ops, map_length. lia. Qed.

Lemma spawns_cons o l : PoolSpec.spawns (o :: l) = match o with PoolModel.Spawn => 1 | _ => 0 end + PoolSpec.spawns l.
Proof. change (o :: l) with ([o] ++ l). rewrite PoolProofs.spawns_app. destruct o; reflexivity. Qed.
Definition idle_pool (s : PoolModel.state) : Prop :=
  PoolModel.workers s = [] /\ PoolModel.finished s = [] /\
  match PoolModel.own s with PoolModel.Ops l => PoolSpec.spawns l = 0 | _ => True end.
Lemma idle_step body m s s' : idle_pool s -> PoolModel.step body m s = Some s' -> idle_pool s'.
Proof.
  intros (W & F & O). destruct m as [|i]; simpl.
  - unfold PoolModel.owner_step. destruct (PoolModel.own s) as [[|[t|] l]|k|] eqn:E; intros H.
    + injection H as <-. repeat split; auto.
    + injection H as <-. rewrite spawns_cons in O. repeat split; auto.
    + rewrite spawns_cons in O. lia.
    + rewrite W in H. assert (nth_error (@nil PoolModel.worker) k = None) as N by (destruct k; auto). rewrite N in H. injection H as <-. repeat split; auto.
    + discriminate.
  - unfold PoolModel.worker_step. rewrite W. destruct i; discriminate.
Qed.
(** A pool in which no thread was started runs nothing. *)
Lemma idle_run body ops ms s : PoolSpec.spawns ops = 0 -> PoolModel.run body ms (PoolModel.initial ops) = Some s -> PoolModel.finished s = [].
Proof.
  intros O H. assert (idle_pool (PoolModel.initial ops)) as I by (repeat split; auto).
  revert H I. generalize (PoolModel.initial ops). induction ms as [|m ms IH]; simpl; intros s0 H I.
  - injection H as <-. apply I.
  - destruct (PoolModel.step body m s0) as [s1|] eqn:E; [|discriminate]. eapply IH; eauto. eapply idle_step; eauto.
Qed.

(** ** The runner *)
Section Runner.
  Variable T : str -> nat -> str.
  Definition out_lt (a b : str * nat) : Prop := snd a < snd b.
  Lemma sequential_spec lines : forall k, sequential_loop T k lines = concat (map (fun t => T (fst t) (snd t)) (schedule_loop k lines)).
  Proof.
    induction lines as [|l lines IH]; intros k; cbn [sequential_loop schedule_loop]; auto. destruct (comment l); auto.
    cbn [map concat fst snd]. rewrite IH. auto.
  Qed.
  Lemma schedule_indices lines : forall k, map snd (schedule_loop k lines) = seq k (length (schedule_loop k lines)).
  Proof.
    induction lines as [|l lines IH]; intros k; cbn [schedule_loop]; auto. destruct (comment l); auto. cbn [map length seq snd]. f_equal. auto.
  Qed.
  Lemma insert_output_perm x l : Permutation (x :: l) (insert_output x l).
  Proof. induction l as [|y l IH]; simpl; auto. destruct (snd x <? snd y); auto. rewrite perm_swap. constructor. auto. Qed.
  Lemma sort_outputs_perm l : Permutation l (sort_outputs l).
  Proof. induction l as [|x l IH]; simpl; auto. rewrite <- insert_output_perm. constructor. auto. Qed.
  Lemma insert_output_sorted x l : StronglySorted out_lt l -> ~ In (snd x) (map snd l) -> StronglySorted out_lt (insert_output x l).
  Proof.
    induction 1 as [|y l Sd IH F]; intros N; simpl; [constructor; constructor|].
    simpl in N. destruct (Nat.ltb_spec (snd x) (snd y)) as [E|E].
    - constructor; [constructor; auto|]. constructor; auto. eapply Forall_impl; [|exact F]. unfold out_lt. intros z; cbv beta; lia.
    - constructor; [apply IH; tauto|]. apply (Permutation_Forall (insert_output_perm x l)). constructor; auto. unfold out_lt.
      assert (snd y <> snd x) by tauto. lia.
  Qed.
  Lemma sort_outputs_sorted l : NoDup (map snd l) -> StronglySorted out_lt (sort_outputs l).
  Proof.
    induction l as [|x l IH]; intros N; simpl; [constructor|]. inversion N as [|? ? N1 N2]; subst. apply insert_output_sorted; auto.
    intros I. apply N1. eapply Permutation_in; [|exact I]. apply Permutation_map. symmetry. apply sort_outputs_perm.
  Qed.
  Lemma sorted_seq (l : list (str * nat)) : forall k, map snd l = seq k (length l) -> StronglySorted out_lt l.
  Proof.
    induction l as [|x l IH]; intros k H; [constructor|]. cbn [map length seq] in H. injection H as H1 H2. constructor; [eapply IH; eauto|].
    apply Forall_forall. intros y I. unfold out_lt. assert (In (snd y) (seq (S k) (length l))) as J by (rewrite <- H2; apply in_map; auto).
    apply in_seq in J. lia.
  Qed.

  Lemma task_outputs_seq tasks : flat_map (task_output T tasks) (seq 0 (length tasks)) = map (fun t => (T (fst t) (snd t), snd t)) tasks.
  Proof.
    assert (forall pre, flat_map (task_output T (pre ++ tasks)) (seq (length pre) (length tasks)) = map (fun t => (T (fst t) (snd t), snd t)) tasks) as G.
    { induction tasks as [|t tasks IH]; intros pre; auto. cbn [length seq flat_map map]. unfold task_output at 1.
      rewrite nth_error_app2, Nat.sub_diag by lia. cbn [nth_error app]. f_equal.
      specialize (IH (pre ++ [t])). rewrite <- app_assoc, app_length in IH. cbn [app length] in IH. rewrite Nat.add_1_r in IH. auto. }
    apply (G []).
  Qed.
  (** Whatever the order in which the tasks finish. *)
  Lemma written_spec lines finished : Permutation finished (seq 0 (length (schedule_loop 0 lines))) ->
    written T (schedule_loop 0 lines) finished = SequentialDecoding T lines.
  Proof.
    intros P. unfold written, SequentialDecoding. rewrite sequential_spec. set (tasks := schedule_loop 0 lines) in *.
    set (outs := map (fun t => (T (fst t) (snd t), snd t)) tasks).
    assert (Permutation (flat_map (task_output T tasks) finished) outs) as Q.
    { unfold outs. rewrite <- task_outputs_seq. apply Permutation_flat_map. auto. }
    assert (map snd outs = seq 0 (length outs)) as E.
    { unfold outs. rewrite map_map, map_length. cbn [snd]. apply schedule_indices. }
    assert (sort_outputs (flat_map (task_output T tasks) finished) = outs) as ->.
    { apply (sorted_unique out_lt); unfold out_lt; try lia.
      - apply sort_outputs_sorted. eapply Permutation_NoDup; [apply Permutation_map; symmetry; exact Q|]. rewrite E. apply seq_NoDup.
      - apply (sorted_seq outs 0). auto.
      - rewrite <- sort_outputs_perm. auto. }
    unfold outs. rewrite map_map. cbn [fst]. reflexivity.
  Qed.

  Lemma parallel_started num_workers lines ms s : num_workers > 0 ->
    PoolModel.run (fun _ => []) ms (PoolModel.initial (started_ops num_workers lines)) = Some s -> PoolModel.own s = PoolModel.Done ->
    written T (schedule_loop 0 lines) (PoolModel.finished s) = SequentialDecoding T lines.
  Proof.
    intros N R D. apply written_spec. destruct (PoolProofs.pool_plain (fun _ => []) _ ms s (fun _ => eq_refl) R D) as [P _].
    - unfold started_ops. rewrite PoolProofs.spawns_app. unfold PoolSpec.spawns at 1. rewrite scheduled_workers.
      unfold PoolModel.StartWorkers. rewrite repeat_length. simpl. lia.
    - rewrite P. unfold started_ops, parallel_ops, pool_ops. rewrite PoolProofs.scheduled_app, scheduled_workers, scheduled_pool_ops. simpl. reflexivity.
  Qed.
  Lemma parallel_as_written lines ms s : PoolModel.run (fun _ => []) ms (PoolModel.initial (parallel_ops lines)) = Some s ->
    written T (schedule_loop 0 lines) (PoolModel.finished s) = [].
  Proof. intros R. rewrite (idle_run _ _ _ _ (spawns_pool_ops _) R). reflexivity. Qed.
  Lemma parallel_completes lines : exists ms s, PoolModel.run (fun _ => []) ms (PoolModel.initial (parallel_ops lines)) = Some s /\ PoolModel.own s = PoolModel.Done.
  Proof.
    destruct (PoolProofs.pool_finishes (fun _ => []) (parallel_ops lines) [] (PoolModel.initial (parallel_ops lines))) as (ms & s & R & D).
    - exists (fun _ => 2). simpl. lia.
    - reflexivity.
    - exists ms, s. auto.
  Qed.
End Runner.

(** ** Building the lattice *)
Lemma write_all results executed n : (forall i, i < n -> In i executed) -> write_results results executed n = map (fun i => Some (results i)) (seq 0 n).
Proof.
  intros H. unfold write_results. apply map_ext_in. intros i I. apply in_seq in I.
  assert (existsb (Nat.eqb i) executed = true) as ->; auto. apply existsb_exists. exists i. split; [apply H; lia|apply Nat.eqb_refl].
Qed.
Lemma build_nothing_executed with_lm syms words results : words <> [] -> BuildTransliterationFst with_lm syms words results [] = OutOfRange.
Proof. intros N. unfold BuildTransliterationFst. destruct words as [|w words]; [contradiction|]. reflexivity. Qed.
Lemma build_as_written with_lm syms words results ms s : words <> [] ->
  PoolModel.run (fun _ => []) ms (PoolModel.initial (pool_ops (length words))) = Some s ->
  BuildTransliterationFst with_lm syms words results (PoolModel.finished s) = OutOfRange.
Proof. intros N R. rewrite (idle_run _ _ _ _ (spawns_pool_ops _) R). apply build_nothing_executed. auto. Qed.

Lemma insert_olabel_perm x l : Permutation (x :: l) (insert_olabel x l).
Proof. induction l as [|y l IH]; simpl; auto. destruct (olabel x <=? olabel y)%Z; auto. rewrite perm_swap. constructor. auto. Qed.
Lemma arc_sort_perm l : Permutation l (arc_sort l).
Proof. induction l as [|x l IH]; simpl; auto. rewrite <- insert_olabel_perm. constructor. auto. Qed.
Lemma arc_sort_sorted l : StronglySorted olabel_le (arc_sort l).
Proof.
  induction l as [|x l IH]; simpl; [constructor|]. induction IH as [|y m Sd IHm F]; simpl; [repeat constructor|].
  destruct (Z.leb_spec (olabel x) (olabel y)) as [E|E].
  - constructor; [constructor; auto|]. constructor; auto. eapply Forall_impl; [|exact F]. unfold olabel_le. intros z; cbv beta; lia.
  - constructor; auto. apply (Permutation_Forall (insert_olabel_perm x m)). constructor; auto. unfold olabel_le. lia.
Qed.

(** [a] stands for the candidate [r]: its number finds the candidate's label in the
    table. *)

Definition renumber (k : nat) (arcs : list arc) : list arc :=
  map (fun p => Arc (Z.of_nat (k + fst p)) (olabel (snd p)) (weight (snd p))) (combine (seq 0 (length arcs)) arcs).
Lemma renumber_spec arcs : forall pre post, 0 < length pre ->
  Forall2 (stands_for (pre ++ map ilabel arcs ++ post)) (renumber (length pre) arcs) arcs.
Proof.
  unfold renumber.
  assert (forall j pre post, j <= length pre -> 0 < length pre ->
    Forall2 (stands_for (pre ++ map ilabel arcs ++ post))
      (map (fun p => Arc (Z.of_nat (length pre - j + fst p)) (olabel (snd p)) (weight (snd p))) (combine (seq j (length arcs)) arcs)) arcs) as G.
  { induction arcs as [|a arcs IH]; intros j pre post Hj Hp; [constructor|]. cbn [length seq combine map fst snd]. constructor.
    - replace (length pre - j + j) with (length pre) by lia. split; [simpl; lia|]. cbn [ilabel olabel weight]. rewrite Nat2Z.id, nth_error_app2, Nat.sub_diag by lia. auto.
    - specialize (IH (S j) (pre ++ [ilabel a]) post). rewrite app_length in IH. cbn [length] in IH. rewrite <- app_assoc in IH. cbn [app] in IH.
      replace (length pre + 1 - S j) with (length pre - j) in IH by lia. apply IH; lia. }
  intros pre post H. specialize (G 0 pre post). rewrite Nat.sub_0_r in G. apply G; lia.
Qed.
Lemma renumber_labels k arcs : map ilabel (renumber k arcs) = map Z.of_nat (seq k (length arcs)).
Proof.
  unfold renumber. rewrite map_map. cbn [ilabel].
  assert (forall j, map (fun p : nat * arc => Z.of_nat (k + fst p)) (combine (seq j (length arcs)) arcs) = map Z.of_nat (seq (k + j) (length arcs))) as G.
  { induction arcs as [|a arcs IH]; intros j; auto. cbn [length seq combine map fst]. rewrite IH. f_equal. rewrite <- Nat.add_succ_r. auto. }
  rewrite G, Nat.add_0_r. auto.
Qed.

Lemma stands_for_more ids ids' a r : stands_for ids a r -> stands_for (ids ++ ids') a r.
Proof.
  intros (H1 & H2 & H3 & H4). split; auto. split; auto. rewrite nth_error_app1; auto. apply nth_error_Some. congruence.
Qed.
Lemma build_lm_spec syms fsts : forall words ids, length words = length fsts -> 0 < length ids -> Forall (fun f => f <> []) fsts ->
  exists l more, build_loop true syms words (map Some fsts) ids = Fine (l, ids ++ more) /\
    Forall2 (Forall2 (stands_for (ids ++ more))) l fsts /\
    map ilabel (concat l) = map Z.of_nat (seq (length ids) (length (concat l))).
Proof.
  induction fsts as [|f fsts IH]; intros [|w words] ids L Hi F; try discriminate.
  { exists [], []. rewrite app_nil_r. simpl. auto. }
  inversion F as [|? ? Hf F']; subst. cbn [map build_loop]. assert (1 <=? length f = true) as -> by (destruct f; [contradiction|auto]).
  cbn [qcheck add_arcs bind fst snd].
  destruct (IH words (ids ++ map ilabel f) (f_equal pred L)) as (l & more & E & G & N); [rewrite app_length; lia|auto|].
  fold (renumber (length ids) f). rewrite E. cbn [bind fst snd]. exists (renumber (length ids) f :: l), (map ilabel f ++ more).
  rewrite <- app_assoc in *. split; auto. split.
  - constructor; auto. apply renumber_spec. auto.
  - cbn [concat]. rewrite map_app, N, renumber_labels, !app_length, map_length.
    assert (length (renumber (length ids) f) = length f) as -> by (unfold renumber; rewrite map_length, combine_length, seq_length; lia).
    rewrite seq_app, map_app. auto.
Qed.

Lemma Permutation_concat_map (f : list arc -> list arc) l : (forall x, Permutation x (f x)) -> Permutation (concat l) (concat (map f l)).
Proof. intros H. induction l as [|x l IH]; simpl; auto. apply Permutation_app; auto. Qed.
Lemma build_spec syms words results executed : (forall i, i < length words -> In i executed) ->
  (forall i, i < length words -> results i <> []) ->
  exists l ids, BuildTransliterationFst true syms words results executed = Fine (l, ids) /\
    Forall2 (position_of ids) l (map results (seq 0 (length words))) /\ NoDup (map ilabel (concat l)).
Proof.
  intros Hx Hr. unfold BuildTransliterationFst. rewrite (write_all _ _ _ Hx).
  rewrite <- (map_map results Some).
  destruct (build_lm_spec syms (map results (seq 0 (length words))) words [kNoLabel]) as (l & more & E & G & N).
  - rewrite map_length, seq_length. auto.
  - simpl. lia.
  - rewrite Forall_map. apply Forall_forall. intros i I. apply in_seq in I. apply Hr. lia.
  - rewrite E. cbn [bind fst snd]. eexists _, _. split; [reflexivity|]. split.
    + clear - G. induction G as [|p r l rs H G IH]; cbn [map]; constructor; auto. split; [apply arc_sort_sorted|].
      exists p. split; auto. symmetry. apply arc_sort_perm.
    + eapply Permutation_NoDup; [apply Permutation_map; apply (Permutation_concat_map arc_sort); apply arc_sort_perm|].
      rewrite N. apply FinFun.Injective_map_NoDup; [intros a b; lia|apply seq_NoDup].
Qed.
Lemma build_no_lm_spec syms words results executed : (forall i, i < length words -> In i executed) ->
  (forall i, i < length words -> results i <> []) -> Forall (input_word_of syms) words ->
  exists l, BuildTransliterationFst false syms words results executed = Fine (l, [kNoLabel]) /\
    Forall2 (fun q p => exists n, find_sym (snd q) syms = Some n /\ StronglySorted olabel_le p /\
      Permutation p (map (fun a => Arc (Z.of_nat n) (olabel a) (weight a)) (results (fst q))))
      (combine (seq 0 (length words)) words) l.
Proof.
  intros Hx Hr W. unfold BuildTransliterationFst. rewrite (write_all _ _ _ Hx).
  assert (forall k ws, Forall (input_word_of syms) ws -> (forall i, k <= i < k + length ws -> results i <> []) ->
    exists l, build_loop false syms ws (map (fun i => Some (results i)) (seq k (length ws))) [kNoLabel] = Fine (l, [kNoLabel]) /\
      length l = length ws /\
      forall i w, nth_error ws i = Some w -> exists n, find_sym w syms = Some n /\
        nth_error l i = Some (map (fun a => Arc (Z.of_nat n) (olabel a) (weight a)) (results (k + i)))) as G.
  { intros k ws W'. revert k. induction W' as [|w ws (n & Hf & Hn) W' IH]; intros k Hn'.
    - exists []. split; auto. split; auto. intros [|i] w H; discriminate.
    - destruct (IH (S k)) as (l & E & L & G). { intros i Hi. apply Hn'. simpl. lia. }
      cbn [length seq map build_loop]. assert (1 <=? length (results k) = true) as ->.
      { specialize (Hn' k). destruct (results k); auto. exfalso. apply Hn'; auto. simpl. lia. }
      cbn [qcheck add_arcs]. rewrite (map_run_spec _ _ (map (fun a => Arc (Z.of_nat n) (olabel a) (weight a)) (results k))).
      2:{ induction (results k) as [|a r IHr]; constructor; auto. rewrite (find_input_spec _ _ _ Hf Hn). reflexivity. }
      cbn [bind fst snd]. rewrite E. cbn [bind fst snd]. eexists. split; [reflexivity|]. split; [simpl; auto|].
      intros [|i] w' H; cbn [nth_error] in H.
      + injection H as <-. exists n. rewrite Nat.add_0_r. auto.
      + destruct (G i w' H) as (m & Hm & Gm). exists m. split; auto. rewrite Nat.add_succ_r. auto. }
  destruct (G 0 words W) as (l & E & L & H); [intros i Hi; apply Hr; lia|]. rewrite E. cbn [bind fst snd]. eexists. split; [reflexivity|].
  clear - H L.
  assert (forall i w, nth_error words i = Some w -> exists n p, find_sym w syms = Some n /\ nth_error l i = Some p /\ Permutation p (map (fun a => Arc (Z.of_nat n) (olabel a) (weight a)) (results i))) as H'.
  { intros i w Hw. destruct (H i w Hw) as (n & Hn & Hl). exists n. eexists. split; eauto. }
  clear H. 
  assert (forall pre ws l', words = pre ++ ws -> length l' = length ws -> (forall i, nth_error l' i = nth_error l (length pre + i)) ->
    Forall2 (fun q p => exists n, find_sym (snd q) syms = Some n /\ StronglySorted olabel_le p /\
      Permutation p (map (fun a => Arc (Z.of_nat n) (olabel a) (weight a)) (results (fst q))))
      (combine (seq (length pre) (length ws)) ws) (map arc_sort l')) as K.
  { intros pre ws. revert pre. induction ws as [|w ws IH]; intros pre [|p l'] Ew Ll Hl; try discriminate; cbn [map length seq combine]; constructor.
    - cbn [fst snd]. destruct (H' (length pre) w) as (n & q & Hn & Hq & P). { rewrite Ew, nth_error_app2, Nat.sub_diag; auto. }
      exists n. split; auto. split; [apply arc_sort_sorted|].
      specialize (Hl 0). rewrite Nat.add_0_r, Hq in Hl. simpl in Hl. injection Hl as ->. rewrite <- arc_sort_perm. auto.
    - replace (S (length pre)) with (length (pre ++ [w])) by (rewrite app_length; simpl; lia).
      apply (IH (pre ++ [w])); [rewrite <- app_assoc; auto|simpl in Ll; lia|]. intros i. rewrite app_length. simpl. rewrite <- Nat.add_assoc. simpl.
      apply (Hl (S i)). }
  apply (K [] words l); auto.
Qed.
