(** Invariants of the thread pool. *)
From Verif Require Import Base PoolModel PoolSpec.

Definition running1 (w : worker) : list nat := match w with Running t _ => [t] | _ => [] end.
Definition running (ws : list worker) : list nat := flat_map running1 ws.
Definition exited1 (w : worker) : nat := match w with Exited => 1 | _ => 0 end.
Definition exited (ws : list worker) : nat := list_sum (map exited1 ws).
Definition none1 (x : option nat) : nat := match x with None => 1 | _ => 0 end.
Definition nones (l : list (option nat)) : nat := list_sum (map none1 l).

Lemma tasks_app a b : tasks (a ++ b) = tasks a ++ tasks b.
Proof. induction a as [|[t|] a IH]; simpl; congruence. Qed.
Lemma nones_app a b : nones (a ++ b) = nones a + nones b.
Proof. unfold nones. rewrite map_app, list_sum_app. reflexivity. Qed.
Lemma nones_repeat n : nones (repeat None n) = n.
Proof. unfold nones. induction n as [|n IH]; simpl; congruence. Qed.
Lemma tasks_repeat n : tasks (repeat None n) = [].
Proof. induction n as [|n IH]; simpl; auto. Qed.
Lemma exited_app a b : exited (a ++ b) = exited a + exited b.
Proof. unfold exited. rewrite map_app, list_sum_app. reflexivity. Qed.
Lemma exited_cons w b : exited (w :: b) = exited1 w + exited b.
Proof. reflexivity. Qed.
Lemma running_app a b : running (a ++ b) = running a ++ running b.
Proof. apply flat_map_app. Qed.
Lemma exited_le ws : exited ws <= length ws.
Proof. induction ws as [|[| |] ws IH]; rewrite ?exited_cons; simpl in *; [unfold exited; simpl|..]; lia. Qed.

Lemma scheduled_app a b : scheduled (a ++ b) = scheduled a ++ scheduled b.
Proof. induction a as [|[t|] a IH]; simpl; congruence. Qed.
Lemma scheduled_le a : length (scheduled a) <= length a.
Proof. induction a as [|[t|] a IH]; simpl; lia. Qed.
Lemma spawns_app a b : spawns (a ++ b) = spawns a + spawns b.
Proof.
  unfold spawns. rewrite scheduled_app, !app_length.
  pose proof (scheduled_le a). pose proof (scheduled_le b). lia.
Qed.

Lemma sub_app_r {A} (a b c : list A) : subsequence a b -> subsequence a (b ++ c).
Proof. induction 1; simpl; constructor; auto. Qed.
Lemma sub_snoc {A} (a b : list A) x : subsequence a b -> subsequence (a ++ [x]) (b ++ [x]).
Proof.
  induction 1 as [l|y a b H IH|y a b H IH]; simpl; [|constructor; auto|constructor; auto].
  induction l as [|z l IH]; simpl.
  - apply sub_take, sub_nil.
  - apply sub_skip. exact IH.
Qed.

Lemma nth_split_set i ws v w : nth_error ws i = Some v ->
  exists a b, ws = a ++ v :: b /\ set_nth i w ws = a ++ w :: b /\ length a = i.
Proof.
  revert ws; induction i as [|i IH]; intros [|x ws] H; try discriminate.
  - injection H as ->. exists [], ws. auto.
  - simpl in H. destruct (IH ws H) as (a & b & -> & E & L). exists (x :: a), b. simpl. rewrite E, L. auto.
Qed.

Lemma nth_error_mid {A} (a b : list A) x y i : i <> length a ->
  nth_error (a ++ x :: b) i = nth_error (a ++ y :: b) i.
Proof.
  intros H. destruct (le_lt_dec (length a) i) as [L|L].
  - rewrite !nth_error_app2 by exact L. destruct (i - length a) as [|k] eqn:E; [lia|reflexivity].
  - rewrite !nth_error_app1 by exact L. reflexivity.
Qed.

Section Pool.
  Variable body : nat -> list nat.
  Variable ops : list op.

  Definition own_inv (s : state) : Prop :=
    match own s with
    | Ops l => nones (pushed s) = 0 /\ exists done, ops = done ++ l /\
        subsequence (scheduled done) (tasks (pushed s)) /\ length (workers s) = spawns done /\
        ((forall t, body t = []) -> tasks (pushed s) = scheduled done)
    | Joining _ | Done => exists pre post, pushed s = pre ++ repeat None (length (workers s)) ++ post /\
        nones pre = 0 /\ nones post = 0 /\ subsequence (scheduled ops) (tasks pre) /\
        length (workers s) = spawns ops /\
        ((forall t, body t = []) -> tasks pre = scheduled ops /\ post = [])
    end /\
    match own s with
    | Ops _ => True
    | Joining k => k <= length (workers s) /\ forall i, i < k -> nth_error (workers s) i = Some Exited
    | Done => forall i, i < length (workers s) -> nth_error (workers s) i = Some Exited
    end.

  Record inv (s : state) : Prop := {
    inv_fifo : pushed s = popped s ++ queue s;
    inv_tasks : Permutation (tasks (popped s)) (finished s ++ running (workers s));
    inv_nones : nones (popped s) = exited (workers s);
    inv_calls : (forall t, body t = []) -> forall i t cs, nth_error (workers s) i = Some (Running t cs) -> cs = [];
    inv_own : own_inv s }.

  Lemma inv_initial : inv (initial ops).
  Proof.
    constructor; simpl.
    - reflexivity.
    - constructor.
    - reflexivity.
    - intros _ [|i]; discriminate.
    - split; [|exact I]. split; [reflexivity|]. exists []. split; [reflexivity|].
      split; [apply sub_nil|]. split; [reflexivity|]. intros _. reflexivity.
  Qed.

  Lemma inv_owner s s' : inv s -> owner_step s = Some s' -> inv s'.
  Proof.
    intros [F T N C [O1 O2]] H. unfold owner_step in H.
    destruct (own s) as [[|[t|] l]|k|] eqn:E; try discriminate.
    - (* destructor *)
      injection H as <-. destruct O1 as (Z & done & D & S & L & B). rewrite app_nil_r in D. subst done.
      constructor; simpl; auto.
      + rewrite F, app_assoc. reflexivity.
      + split; simpl.
        * exists (pushed s), []. rewrite app_nil_r. repeat split; auto.
        * split; [lia|]. intros i Hi. lia.
    - (* Schedule *)
      injection H as <-. destruct O1 as (Z & done & D & S & L & B).
      constructor; simpl; auto.
      + rewrite F, app_assoc. reflexivity.
      + split; simpl; auto. split.
        * rewrite nones_app, Z. reflexivity.
        * exists (done ++ [Schedule t]). rewrite <- app_assoc. split; [exact D|].
          rewrite scheduled_app, tasks_app. simpl. split; [apply sub_snoc; exact S|]. split.
          -- rewrite L, spawns_app. unfold spawns at 3. simpl. lia.
          -- intros Hb. rewrite B by exact Hb. reflexivity.
    - (* Spawn *)
      injection H as <-. destruct O1 as (Z & done & D & S & L & B).
      constructor; simpl; auto.
      + rewrite running_app. simpl. rewrite app_nil_r. exact T.
      + rewrite exited_app, N. unfold exited at 3. simpl. lia.
      + intros Hb i t cs Hi. destruct (le_lt_dec (length (workers s)) i) as [Q|Q].
        * rewrite nth_error_app2 in Hi by exact Q.
          destruct (i - length (workers s)) as [|[|?]]; discriminate.
        * rewrite nth_error_app1 in Hi by exact Q. eapply C; eauto.
      + split; simpl; auto. split; auto. exists (done ++ [Spawn]). rewrite <- app_assoc.
        split; [exact D|]. rewrite scheduled_app, app_length. simpl. rewrite app_nil_r.
        split; [exact S|]. split; auto. rewrite spawns_app, L. unfold spawns at 3. simpl. lia.
    - (* join *)
      destruct O2 as [K J]. destruct (nth_error (workers s) k) as [[| |]|] eqn:W; try discriminate.
      + injection H as <-. constructor; simpl; auto. split; simpl; [exact O1|]. split.
        * apply nth_error_Some. congruence.
        * intros i Hi. destruct (Nat.eq_dec i k) as [->|]; [exact W|]. apply J. lia.
      + injection H as <-. constructor; simpl; auto. split; simpl; [exact O1|].
        intros i Hi. apply J. apply nth_error_None in W. lia.
  Qed.

  Lemma own_inv_worker s s' i v w : own_inv s -> own s' = own s ->
    nth_error (workers s) i = Some v -> v <> Exited ->
    workers s' = set_nth i w (workers s) ->
    (pushed s' = pushed s \/
     exists c, pushed s' = pushed s ++ [Some c] /\ ~ (forall t, body t = [])) -> own_inv s'.
  Proof.
    intros [O1 O2] Eo Hi Hv Hw Hp. destruct (nth_split_set i (workers s) v w Hi) as (a & b & Ew & Es & Ha).
    assert (length (workers s') = length (workers s)) as Len.
    { rewrite Hw, Es, Ew, !app_length. reflexivity. }
    assert (forall j, nth_error (workers s) j = Some Exited -> nth_error (workers s') j = Some Exited) as Hex.
    { intros j Hj. rewrite Hw, Es. rewrite Ew in Hj. destruct (Nat.eq_dec j (length a)) as [->|Hn].
      - exfalso. apply Hv. rewrite Ew in Hi. rewrite <- Ha in Hi. congruence.
      - rewrite <- (nth_error_mid a b v w j Hn). exact Hj. }
    unfold own_inv. rewrite Eo. split.
    - destruct (own s) as [l|k|].
      + destruct O1 as (Z & done & D & S & L & B). rewrite Len.
        destruct Hp as [->|(c & -> & Hn)].
        * split; auto. exists done. auto.
        * split; [rewrite nones_app, Z; reflexivity|]. exists done. repeat split; auto.
          -- rewrite tasks_app. apply sub_app_r. exact S.
          -- intros Hb. contradiction.
      + destruct O1 as (pre & post & P & Z1 & Z2 & S & L & B). rewrite Len.
        destruct Hp as [->|(c & -> & Hn)].
        * exists pre, post. auto 10.
        * exists pre, (post ++ [Some c]). rewrite P, <- !app_assoc. repeat split; auto; try contradiction.
          rewrite nones_app, Z2. reflexivity.
      + destruct O1 as (pre & post & P & Z1 & Z2 & S & L & B). rewrite Len.
        destruct Hp as [->|(c & -> & Hn)].
        * exists pre, post. auto 10.
        * exists pre, (post ++ [Some c]). rewrite P, <- !app_assoc. repeat split; auto; try contradiction.
          rewrite nones_app, Z2. reflexivity.
    - destruct (own s) as [l|k|]; auto.
      + rewrite Len. destruct O2 as [K J]. split; auto.
      + rewrite Len. auto.
  Qed.

  Lemma calls_set ws i w : (forall j t cs, nth_error ws j = Some (Running t cs) -> cs = []) ->
    (forall t cs, w = Running t cs -> cs = []) ->
    forall j t cs, nth_error (set_nth i w ws) j = Some (Running t cs) -> cs = [].
  Proof.
    revert i; induction ws as [|v ws IH]; intros i H Hw j t cs Hj.
    - destruct i, j; discriminate.
    - destruct i as [|i]; simpl in Hj.
      + destruct j as [|j]; simpl in Hj; [injection Hj as E; eapply Hw; eauto|eapply (H (S j)); eauto].
      + destruct j as [|j]; simpl in Hj; [apply (H 0 t); auto|].
        eapply (IH i); eauto. intros j' t' cs' Hj'. apply (H (S j') t'). exact Hj'.
  Qed.

  Lemma inv_worker i s s' : inv s -> worker_step body i s = Some s' -> inv s'.
  Proof.
    intros [F T N C O] H. unfold worker_step in H.
    destruct (nth_error (workers s) i) as [[|t [|c cs]|]|] eqn:W; try discriminate.
    - (* takes an item *)
      destruct (queue s) as [|x q] eqn:Q; [discriminate|]. injection H as <-.
      set (w := match x with Some t => Running t (body t) | None => Exited end) in *.
      destruct (nth_split_set i (workers s) Idle w W) as (a & b & Ew & Es & Ha).
      constructor; cbn [pushed popped queue finished workers own].
      + rewrite F, <- app_assoc. reflexivity.
      + rewrite tasks_app, Es, Ew in *. rewrite running_app in *. simpl in T.
        rewrite T. unfold running at 4. simpl. fold (running b).
        destruct x as [t|]; subst w; simpl.
        * rewrite <- !app_assoc. apply Permutation_app_head. apply Permutation_app_head.
          rewrite Permutation_app_comm. reflexivity.
        * rewrite app_nil_r. reflexivity.
      + rewrite nones_app, N, Es, Ew, !exited_app, !exited_cons. subst w.
        destruct x; unfold nones; simpl; lia.
      + intros Hb. apply calls_set; [intros j t cs; apply C; exact Hb|].
        intros t cs E. subst w. destruct x as [t'|]; [|discriminate]. injection E as <- <-. apply Hb.
      + eapply (own_inv_worker s) with (v := Idle); eauto; [discriminate|reflexivity].
    - (* the task returns *)
      injection H as <-.
      destruct (nth_split_set i (workers s) (Running t []) Idle W) as (a & b & Ew & Es & Ha).
      constructor; cbn [pushed popped queue finished workers own]; auto.
      + rewrite Es. rewrite Ew in T. rewrite running_app in *. simpl in *. rewrite T.
        rewrite <- !app_assoc. apply Permutation_app_head. simpl.
        rewrite <- Permutation_middle. reflexivity.
      + rewrite N, Es, Ew, !exited_app, !exited_cons. reflexivity.
      + intros Hb. apply calls_set; [intros j t' cs'; apply C; exact Hb|discriminate].
      + eapply (own_inv_worker s) with (v := Running t []); eauto; [discriminate|reflexivity].
    - (* the task calls Schedule *)
      injection H as <-.
      destruct (nth_split_set i (workers s) (Running t (c :: cs)) (Running t cs) W) as (a & b & Ew & Es & Ha).
      constructor; cbn [pushed popped queue finished workers own set_workers push]; auto.
      + rewrite F, app_assoc. reflexivity.
      + rewrite Es. rewrite Ew in T. rewrite running_app in *. simpl in *. exact T.
      + rewrite N, Es, Ew, !exited_app, !exited_cons. reflexivity.
      + intros Hb. apply C in W; [discriminate|exact Hb].
      + eapply (own_inv_worker s) with (v := Running t (c :: cs)); eauto; [discriminate|reflexivity|].
        right. exists c. split; [reflexivity|]. intros Hb. apply C in W; [discriminate|exact Hb].
  Qed.

  Lemma inv_run ms s s' : inv s -> run body ms s = Some s' -> inv s'.
  Proof.
    revert s; induction ms as [|m ms IH]; simpl; intros s I H.
    - injection H as <-. exact I.
    - destruct (step body m s) as [s1|] eqn:E; [|discriminate]. apply (IH s1); auto.
      destruct m as [|i]; simpl in E; [eapply inv_owner|eapply inv_worker]; eauto.
  Qed.

  (** ** Consequences *)
  Lemma nones_in_queue s : inv s -> own s <> Done -> (forall l, own s <> Ops l) ->
    nones (queue s) + exited (workers s) = length (workers s).
  Proof.
    intros [F T N C [O1 _]] H1 H2. destruct (own s) as [l|k|]; [exfalso; eapply H2; eauto| |contradiction].
    destruct O1 as (pre & post & P & Z1 & Z2 & _).
    assert (nones (pushed s) = length (workers s)) as E.
    { rewrite P, !nones_app, nones_repeat. lia. }
    rewrite F, nones_app in E. lia.
  Qed.

  Lemma progress s : inv s -> own s <> Done -> exists m s', step body m s = Some s'.
  Proof.
    intros I H. destruct (own s) as [[|[t|] l]|k|] eqn:E; try contradiction.
    - exists Owner. simpl. unfold owner_step. rewrite E. eauto.
    - exists Owner. simpl. unfold owner_step. rewrite E. eauto.
    - exists Owner. simpl. unfold owner_step. rewrite E. eauto.
    - pose proof (nones_in_queue s I ltac:(congruence) ltac:(congruence)) as Q.
      destruct (nth_error (workers s) k) as [[|t [|c cs]|]|] eqn:W.
      + exists (Worker k). simpl. unfold worker_step. rewrite W.
        destruct (queue s) as [|x q]; [|eauto]. exfalso.
        destruct (nth_split_set k (workers s) Idle Idle W) as (a & b & Ew & _ & _).
        rewrite Ew in Q. rewrite exited_app, exited_cons, app_length in Q. simpl in Q.
        pose proof (exited_le a). pose proof (exited_le b). unfold nones in Q. simpl in Q. lia.
      + exists (Worker k). simpl. unfold worker_step. rewrite W. eauto.
      + exists (Worker k). simpl. unfold worker_step. rewrite W. eauto.
      + exists Owner. simpl. unfold owner_step. rewrite E, W. eauto.
      + exists Owner. simpl. unfold owner_step. rewrite E, W. eauto.
  Qed.

  Lemma all_exited ws : (forall i, i < length ws -> nth_error ws i = Some Exited) ->
    exited ws = length ws /\ running ws = [].
  Proof.
    induction ws as [|w ws IH]; intros H; [auto|].
    assert (w = Exited) as ->.
    { specialize (H 0 ltac:(simpl; lia)). simpl in H. congruence. }
    destruct IH as [I1 I2].
    - intros i Hi. apply (H (S i)). simpl. lia.
    - rewrite exited_cons. simpl. rewrite I1. auto.
  Qed.

  Lemma popped_all (po q pre post : list (option nat)) n : po ++ q = pre ++ repeat None n ++ post ->
    nones po = n -> n > 0 -> nones pre = 0 -> nones post = 0 ->
    exists r, po = pre ++ repeat None n ++ r /\ post = r ++ q.
  Proof.
    intros E Hn Hpos Hpre Hpost.
    rewrite app_assoc in E. revert E. generalize (eq_refl (nones (pre ++ repeat None n))).
    rewrite nones_app at 2. rewrite nones_repeat, Hpre. simpl. intros Hl.
    assert (exists z, pre ++ repeat None n = z ++ [None]) as (z & Ez).
    { destruct n as [|n]; [lia|]. exists (pre ++ repeat None n). rewrite <- app_assoc. f_equal.
      clear. induction n as [|n IH]; [reflexivity|]. simpl in *. f_equal. exact IH. }
    rewrite Ez in *. intros E.
    assert (exists r, po = (z ++ [None]) ++ r /\ post = r ++ q) as (r & -> & ->).
    { clear Ez. revert po Hn E. rewrite nones_app in Hl. unfold nones at 2 in Hl. simpl in Hl.
      assert (nones z + 1 = n) as Hz by lia. clear Hl Hpos. revert n Hz.
      induction z as [|x z IH]; intros n Hz po Hn E.
      - destruct po as [|y po].
        + unfold nones in *. simpl in *. lia.
        + simpl in E. injection E as -> E. exists po. auto.
      - destruct po as [|y po].
        + unfold nones in Hn. simpl in Hn. lia.
        + simpl in E. injection E as -> E. unfold nones in Hz, Hn. simpl in Hz, Hn.
          fold (nones z) in Hz. fold (nones po) in Hn.
          destruct (IH (n - none1 x)) with (po := po) as (r & -> & ->); try lia; auto.
          exists r. auto. }
    exists r. rewrite app_assoc, Ez. auto.
  Qed.

  Lemma done_facts s : inv s -> own s = Done -> spawns ops > 0 ->
    exists pre rest, tasks (popped s) = tasks pre ++ rest /\ Permutation (finished s) (tasks pre ++ rest) /\
      tasks (pushed s) = tasks pre ++ rest ++ tasks (queue s) /\
      (exists post, pushed s = pre ++ None :: post) /\ nones pre = 0 /\
      subsequence (scheduled ops) (tasks pre) /\
      ((forall t, body t = []) -> tasks pre = scheduled ops /\ rest = [] /\ tasks (queue s) = []).
  Proof.
    intros [F T N C [O1 O2]] E Hs. rewrite E in *.
    destruct O1 as (pre & post & P & Z1 & Z2 & S & L & B).
    destruct (all_exited _ O2) as [X1 X2].
    destruct (popped_all (popped s) (queue s) pre post (length (workers s))) as (r & Er & Eq); try lia; try congruence.
    exists pre, (tasks r).
    assert (tasks (popped s) = tasks pre ++ tasks r) as Et.
    { rewrite Er, !tasks_app, tasks_repeat. reflexivity. }
    split; [exact Et|]. split; [|split; [|split; [|split; [exact Z1|split; [exact S|]]]]].
    - rewrite <- Et. symmetry. rewrite X2, app_nil_r in T. exact T.
    - rewrite F, tasks_app, Et, <- app_assoc. reflexivity.
    - destruct (length (workers s)) as [|n] eqn:En; [lia|]. exists (repeat None n ++ post). exact P.
    - intros Hb. destruct (B Hb) as [B1 ->]. symmetry in Eq. apply app_eq_nil in Eq as [-> ->].
      rewrite B1. auto.
  Qed.

  Lemma pushed_grows ms s s' : run body ms s = Some s' -> exists m, pushed s' = pushed s ++ m.
  Proof.
    revert s; induction ms as [|m ms IH]; simpl; intros s H.
    - injection H as <-. exists []. rewrite app_nil_r. reflexivity.
    - destruct (step body m s) as [s1|] eqn:E; [|discriminate]. destruct (IH s1 H) as (r & Hr).
      assert (exists r', pushed s1 = pushed s ++ r') as (r' & Hr').
      { destruct m as [|i]; simpl in E.
        - unfold owner_step in E. destruct (own s) as [[|[t|] l]|k|]; try discriminate;
            try (injection E as <-; simpl; eauto; fail).
          + injection E as <-. exists []. simpl. rewrite app_nil_r. reflexivity.
          + destruct (nth_error (workers s) k) as [[| |]|]; try discriminate; injection E as <-;
              exists []; simpl; rewrite app_nil_r; reflexivity.
        - unfold worker_step in E. destruct (nth_error (workers s) i) as [[|t [|c cs]|]|]; try discriminate.
          + destruct (queue s); [discriminate|]. injection E as <-. exists []. simpl. rewrite app_nil_r. reflexivity.
          + injection E as <-. exists []. simpl. rewrite app_nil_r. reflexivity.
          + injection E as <-. simpl. eauto. }
      rewrite Hr, Hr', <- app_assoc. eauto.
  Qed.

  Lemma before_none (a m pre post : list (option nat)) : a ++ m = pre ++ None :: post -> nones a = 0 ->
    exists r, pre = a ++ r.
  Proof.
    revert pre; induction a as [|x a IH]; intros pre E Hn.
    - exists pre. reflexivity.
    - unfold nones in Hn. simpl in Hn. fold (nones a) in Hn. destruct pre as [|y pre]; simpl in E.
      + injection E as -> _. simpl in Hn. lia.
      + injection E as -> E. destruct (IH pre E ltac:(lia)) as (r & ->). exists r. reflexivity.
  Qed.
End Pool.

(** ** The theorems *)
Lemma reachable_inv body ops ms s : run body ms (initial ops) = Some s -> inv body ops s.
Proof. intros H. eapply inv_run; [apply inv_initial|exact H]. Qed.

Lemma pool_fifo body ops ms s : run body ms (initial ops) = Some s -> pushed s = popped s ++ queue s.
Proof. intros H. apply (inv_fifo body ops). eapply reachable_inv; eauto. Qed.

Lemma pool_once body ops ms s : run body ms (initial ops) = Some s ->
  Permutation (tasks (popped s))
    (finished s ++ flat_map (fun w => match w with Running t _ => [t] | _ => [] end) (workers s)).
Proof. intros H. apply (inv_tasks body ops s). eapply reachable_inv; eauto. Qed.

Lemma run_app body ms1 ms2 s s1 : run body ms1 s = Some s1 -> run body (ms1 ++ ms2) s = run body ms2 s1.
Proof.
  revert s; induction ms1 as [|m ms1 IH]; simpl; intros s H.
  - injection H as <-. reflexivity.
  - destruct (step body m s) as [s'|]; [apply IH; exact H|discriminate].
Qed.

Lemma pool_all_run body ops ms1 ms2 l s1 s2 :
  run body ms1 (initial ops) = Some s1 -> own s1 = Ops l -> spawns ops > 0 ->
  run body ms2 s1 = Some s2 -> own s2 = Done ->
  exists rest lost, Permutation (finished s2) (tasks (pushed s1) ++ rest) /\
    tasks (pushed s2) = tasks (pushed s1) ++ rest ++ lost.
Proof.
  intros H1 O1 Hs H2 O2.
  assert (run body (ms1 ++ ms2) (initial ops) = Some s2) as H by (rewrite (run_app _ _ _ _ _ H1); exact H2).
  pose proof (reachable_inv _ _ _ _ H1) as I1. pose proof (reachable_inv _ _ _ _ H) as I2.
  destruct (done_facts body ops s2 I2 O2 Hs) as (pre & rest & _ & P2 & P3 & (post & P4) & Z & _).
  destruct (pushed_grows body ms2 s1 s2 H2) as (m & Hm).
  assert (nones (pushed s1) = 0) as Z1.
  { destruct I1 as [_ _ _ _ [O _]]. rewrite O1 in O. apply O. }
  destruct (before_none (pushed s1) m pre post) as (r & ->); [congruence|exact Z1|].
  rewrite tasks_app in P2, P3. exists (tasks r ++ rest), (tasks (queue s2)).
  rewrite <- !app_assoc in *. auto.
Qed.

Lemma pool_owner_tasks body ops ms s : run body ms (initial ops) = Some s -> own s = Done ->
  spawns ops > 0 ->
  exists run_tasks rest, Permutation (finished s) (run_tasks ++ rest) /\ subsequence (scheduled ops) run_tasks.
Proof.
  intros H O Hs. pose proof (reachable_inv _ _ _ _ H) as I.
  destruct (done_facts body ops s I O Hs) as (pre & rest & _ & P & _ & _ & _ & S & _).
  exists (tasks pre), rest. auto.
Qed.

Lemma pool_plain body ops ms s : (forall t, body t = []) -> run body ms (initial ops) = Some s ->
  own s = Done -> spawns ops > 0 ->
  Permutation (finished s) (scheduled ops) /\ tasks (popped s) = scheduled ops.
Proof.
  intros Hb H O Hs. pose proof (reachable_inv _ _ _ _ H) as I.
  destruct (done_facts body ops s I O Hs) as (pre & rest & E & P & _ & _ & _ & _ & B).
  destruct (B Hb) as (B1 & -> & _). rewrite app_nil_r in *. rewrite <- B1. auto.
Qed.

Lemma pool_progress body ops ms s : run body ms (initial ops) = Some s -> own s <> Done ->
  exists m s', step body m s = Some s'.
Proof. intros H. apply (progress body ops). eapply reachable_inv; eauto. Qed.

(** ** Termination *)
Section Measure.
  Variable body : nat -> list nat.
  Variable w : nat -> nat.
  Hypothesis Hw : forall t, 1 + list_sum (map (fun c => S (w c)) (body t)) < w t.

  Definition item_weight (x : option nat) : nat := match x with Some t => w t | None => 1 end.
  Definition worker_weight (x : worker) : nat :=
    match x with Running _ cs => 1 + list_sum (map (fun c => S (w c)) cs) | _ => 0 end.
  Definition op_weight (o : op) : nat := match o with Schedule t => S (w t) | Spawn => 3 end.
  Definition owner_weight (s : state) : nat :=
    match own s with
    | Ops l => list_sum (map op_weight l) + 2 * length (workers s) + 2
    | Joining k => (length (workers s) - k) + 1
    | Done => 0
    end.
  Definition measure (s : state) : nat :=
    list_sum (map item_weight (queue s)) + list_sum (map worker_weight (workers s)) + owner_weight s.

  Lemma measure_step m s s' : step body m s = Some s' -> measure s' < measure s.
  Proof.
    destruct m as [|i]; simpl; intros H.
    - unfold owner_step in H. destruct (own s) as [[|[t|] l]|k|] eqn:E; try discriminate.
      + injection H as <-. unfold measure, owner_weight. simpl. rewrite E. simpl.
        rewrite map_app, list_sum_app, Nat.sub_0_r.
        assert (list_sum (map item_weight (repeat None (length (workers s)))) = length (workers s)) as ->.
        { generalize (length (workers s)). intros n. induction n as [|n IH]; simpl; congruence. }
        lia.
      + injection H as <-. unfold measure, owner_weight. simpl. rewrite E. simpl.
        rewrite map_app, list_sum_app. simpl. lia.
      + injection H as <-. unfold measure, owner_weight. simpl. rewrite E. simpl.
        rewrite map_app, list_sum_app, app_length. simpl. lia.
      + destruct (nth_error (workers s) k) as [[| |]|] eqn:W; try discriminate.
        * assert (k < length (workers s)) by (apply nth_error_Some; congruence).
          injection H as <-. unfold measure, owner_weight. simpl. rewrite E. lia.
        * injection H as <-. unfold measure, owner_weight. simpl. rewrite E. lia.
    - unfold worker_step in H.
      destruct (nth_error (workers s) i) as [[|t [|c cs]|]|] eqn:W; try discriminate.
      + destruct (queue s) as [|x q] eqn:Q; [discriminate|]. injection H as <-.
        set (v := match x with Some t => Running t (body t) | None => Exited end).
        destruct (nth_split_set i (workers s) Idle v W) as (a & b & Ew & Es & _).
        unfold measure, owner_weight. cbn [queue workers own]. rewrite Q, Es, Ew.
        rewrite !map_app, !list_sum_app, !app_length. cbn [map]. cbn [list_sum fold_right length].
        change (fold_right Nat.add 0) with list_sum.
        assert (worker_weight v < item_weight x) as L.
        { subst v. destruct x as [t|]; simpl; [apply Hw|lia]. }
        cbn [worker_weight] in *. destruct (own s); lia.
      + injection H as <-.
        destruct (nth_split_set i (workers s) (Running t []) Idle W) as (a & b & Ew & Es & _).
        unfold measure, owner_weight. cbn [queue workers own]. rewrite Es, Ew.
        rewrite !map_app, !list_sum_app, !app_length. simpl. destruct (own s); lia.
      + injection H as <-.
        destruct (nth_split_set i (workers s) (Running t (c :: cs)) (Running t cs) W) as (a & b & Ew & Es & _).
        unfold measure, owner_weight. cbn [queue workers own set_workers push]. rewrite Es, Ew.
        rewrite !map_app, !list_sum_app, !app_length. simpl. destruct (own s); lia.
  Qed.

  Lemma measure_run ms s s' : run body ms s = Some s' -> length ms + measure s' <= measure s.
  Proof.
    revert s; induction ms as [|m ms IH]; simpl; intros s H.
    - injection H as <-. lia.
    - destruct (step body m s) as [s1|] eqn:E; [|discriminate].
      apply measure_step in E. apply IH in H. lia.
  Qed.
End Measure.

Lemma pool_terminates body ops : bounded body ->
  exists n, forall ms s, run body ms (initial ops) = Some s -> length ms <= n.
Proof.
  intros [w Hw]. exists (measure w (initial ops)). intros ms s H.
  apply (measure_run body w Hw) in H. lia.
Qed.

Lemma pool_finishes body ops ms s : bounded body -> run body ms (initial ops) = Some s ->
  exists ms' s', run body (ms ++ ms') (initial ops) = Some s' /\ own s' = Done.
Proof.
  intros [w Hw]. remember (measure w s) as n eqn:En. revert ms s En.
  induction n as [n IH] using lt_wf_ind. intros ms s En H.
  assert (own s = Done \/ own s <> Done) as [D|D] by (destruct (own s); auto; right; discriminate).
  - exists [], s. rewrite app_nil_r. auto.
  - destruct (pool_progress body ops ms s H D) as (m & s1 & Hm).
    pose proof (measure_step body w Hw m s s1 Hm) as L.
    destruct (IH (measure w s1) ltac:(lia) (ms ++ [m]) s1 eq_refl) as (ms' & s' & H' & D').
    + rewrite (run_app _ _ _ _ _ H). simpl. rewrite Hm. reflexivity.
    + exists (m :: ms'), s'. rewrite <- app_assoc in H'. auto.
Qed.

(** ** One worker: tasks finish in the order in which they were scheduled *)
Lemma single_order body ops ms s : run body ms (initial ops) = Some s -> spawns ops <= 1 ->
  tasks (popped s) = finished s ++ flat_map (fun w => match w with Running t _ => [t] | _ => [] end) (workers s).
Proof.
  intros H Hs. remember (initial ops) as s0 eqn:E0.
  assert (tasks (popped s0) = finished s0 ++ running (workers s0)) as B by (subst; reflexivity).
  assert (exists ms0, run body ms0 (initial ops) = Some s0) as (ms0 & R0) by (exists []; subst; reflexivity).
  clear E0. revert ms0 s0 R0 B H. induction ms as [|m ms IH]; intros ms0 s0 R0 B H.
  - injection H as <-. exact B.
  - simpl in H. destruct (step body m s0) as [s1|] eqn:E; [|discriminate].
    assert (run body (ms0 ++ [m]) (initial ops) = Some s1) as R1.
    { rewrite (run_app _ _ _ _ _ R0). simpl. rewrite E. reflexivity. }
    apply (IH (ms0 ++ [m]) s1 R1); [|exact H].
    assert (length (workers s0) <= 1) as L.
    { pose proof (reachable_inv _ _ _ _ R0) as [_ _ _ _ [O _]]. destruct (own s0).
      - destruct O as (_ & done & D & _ & L & _). rewrite D, spawns_app in Hs. lia.
      - destruct O as (? & ? & _ & _ & _ & _ & L & _). lia.
      - destruct O as (? & ? & _ & _ & _ & _ & L & _). lia. }
    destruct m as [|i]; simpl in E.
    + unfold owner_step in E. destruct (own s0) as [[|[t|] l]|k|]; try discriminate;
        try (injection E as <-; simpl; exact B).
      * injection E as <-. simpl. rewrite running_app. simpl. rewrite app_nil_r. exact B.
      * destruct (nth_error (workers s0) k) as [[| |]|]; try discriminate; injection E as <-; exact B.
    + unfold worker_step in E.
      destruct (workers s0) as [|w0 [|? ?]] eqn:W; [destruct i; discriminate| |simpl in L; lia].
      destruct i as [|[|i]]; try discriminate. simpl in E.
      destruct w0 as [|t [|c cs]|]; try discriminate.
      * destruct (queue s0) as [|x q]; [discriminate|]. injection E as <-. simpl in *.
        rewrite tasks_app, B. destruct x; simpl; rewrite ?app_nil_r; reflexivity.
      * injection E as <-. simpl in *. rewrite B, app_nil_r. reflexivity.
      * injection E as <-. simpl in *. exact B.
Qed.

(** ** Limits *)
Lemma no_workers_nothing_runs : exists body ops ms s,
  run body ms (initial ops) = Some s /\ own s = Done /\ scheduled ops = [7] /\ finished s = [].
Proof.
  exists (fun _ => []), [Schedule 7], [Owner; Owner; Owner].
  eexists. split; [vm_compute; reflexivity|]. auto.
Qed.

(** Task 0 schedules task 1 after the destructor has begun. *)
Lemma late_task_lost : exists body ops ms s, bounded body /\ spawns ops > 0 /\
  run body ms (initial ops) = Some s /\ own s = Done /\
  tasks (pushed s) = [0; 1] /\ finished s = [0].
Proof.
  exists (fun t => match t with 0 => [1] | _ => [] end), [Spawn; Schedule 0],
    [Owner; Owner; Worker 0; Owner; Worker 0; Worker 0; Worker 0; Owner; Owner].
  eexists. split.
  - exists (fun t => match t with 0 => 5 | _ => 2 end). intros [|t]; simpl; lia.
  - split; [vm_compute; lia|]. split; [vm_compute; reflexivity|]. auto.
Qed.
