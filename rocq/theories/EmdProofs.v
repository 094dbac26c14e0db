(** Proofs about the earth mover's distance of error rates. *)
From Coq Require Import QArith Lqa Setoid Morphisms.
From Verif Require Import Base Utf8Model Utf8Spec Utf8Proofs DelimModel DelimSpec DelimProofs KbestModel
  ErrorRateModel ErrorRateSpec ErrorRateProofs MultiRefProofs EmdModel EmdSpec.
Local Open Scope Q_scope.

(** ** Sums *)
Lemma sum_ext n f g : (forall i, (i < n)%nat -> f i == g i) -> sum n f == sum n g.
Proof.
  induction n; cbn; intros H; [reflexivity|]. rewrite (H n) by lia. rewrite IHn; [reflexivity|].
  intros i Hi. apply H. lia.
Qed.
Lemma sum_zero n f : (forall i, (i < n)%nat -> f i == 0) -> sum n f == 0.
Proof.
  intros H. rewrite (sum_ext n f (fun _ => 0) H). clear. induction n; cbn; [reflexivity|]. rewrite IHn. reflexivity.
Qed.
Lemma sum_plus n f g : sum n (fun i => f i + g i) == sum n f + sum n g.
Proof. induction n; cbn; [reflexivity|]. rewrite IHn. ring. Qed.
Lemma sum_scale n c f : sum n (fun i => c * f i) == c * sum n f.
Proof. induction n; cbn; [ring|]. rewrite IHn. ring. Qed.
Lemma sum_scale_r n c f : sum n (fun i => f i * c) == sum n f * c.
Proof. induction n; cbn; [ring|]. rewrite IHn. ring. Qed.
Lemma sum_le n f g : (forall i, (i < n)%nat -> f i <= g i) -> sum n f <= sum n g.
Proof.
  induction n; cbn; intros H; [apply Qle_refl|]. apply Qplus_le_compat; [|apply H; lia].
  apply IHn. intros i Hi. apply H. lia.
Qed.
Lemma sum_nonneg n f : (forall i, (i < n)%nat -> 0 <= f i) -> 0 <= sum n f.
Proof.
  intros H. apply Qle_trans with (sum n (fun _ => 0)); [|apply sum_le, H].
  rewrite sum_zero; [apply Qle_refl|]. intros; reflexivity.
Qed.
Lemma sum_nonneg_zero n f : (forall i, (i < n)%nat -> 0 <= f i) -> sum n f == 0 ->
  forall i, (i < n)%nat -> f i == 0.
Proof.
  induction n; cbn; intros H Z i Hi; [lia|].
  assert (A : 0 <= sum n f) by (apply sum_nonneg; intros; apply H; lia).
  assert (B : 0 <= f n) by (apply H; lia).
  destruct (Nat.eq_dec i n) as [->|]; [lra|]. apply IHn; [|lra|lia]. intros; apply H; lia.
Qed.
Lemma sum_swap n m f : sum n (fun i => sum m (fun j => f i j)) == sum m (fun j => sum n (fun i => f i j)).
Proof.
  induction n; cbn.
  - symmetry. apply sum_zero. intros; reflexivity.
  - rewrite IHn. symmetry. apply sum_plus.
Qed.
Lemma sum_split n m f : sum (n + m) f == sum n f + sum m (fun j => f (n + j)%nat).
Proof.
  induction m; cbn; [rewrite Nat.add_0_r; ring|]. rewrite Nat.add_succ_r. cbn. rewrite IHm. ring.
Qed.
Lemma sum_head n f : sum (S n) f == f 0%nat + sum n (fun i => f (S i)).
Proof. change (S n) with (1 + n)%nat. rewrite sum_split. cbn. ring. Qed.

(** ** Lists *)
Lemma at_pos_app_l u v i : (i < length u)%nat -> at_pos (u ++ v) i = at_pos u i.
Proof. intros H. unfold at_pos. apply app_nth1, H. Qed.
Lemma at_pos_app_r u v n i : length u = n -> at_pos (u ++ v) (n + i) = at_pos v i.
Proof. intros <-. unfold at_pos. rewrite app_nth2 by lia. f_equal. lia. Qed.
Lemma at_pos_repeat n i : at_pos (repeat 0 n) i = 0.
Proof. unfold at_pos. destruct (nth_in_or_default i (repeat 0 n) 0) as [H|H]; [|exact H]. apply repeat_spec in H. exact H. Qed.
Lemma fold_plus l x : fold_left Qplus l x == x + sum (length l) (at_pos l).
Proof.
  revert x. induction l; intros x; [cbn; ring|]. cbn [fold_left length]. rewrite IHl, sum_head.
  change (at_pos (a :: l) 0) with a. change (fun i => at_pos (a :: l) (S i)) with (at_pos l). ring.
Qed.
Lemma exp_sum_spec w : exp_sum w == sum (length w) (at_pos w).
Proof. unfold exp_sum. rewrite fold_plus. ring. Qed.
Lemma length_probabilities w : length (probabilities w) = length w.
Proof. apply map_length. Qed.
Lemma at_probabilities w i : at_pos (probabilities w) i == share w i.
Proof.
  unfold probabilities, share, at_pos at 1. destruct (Nat.lt_ge_cases i (length w)) as [H|H].
  - rewrite (nth_indep _ 0 (0 / exp_sum w)) by (rewrite map_length; exact H).
    rewrite (map_nth (fun w0 => w0 / exp_sum w) w 0 i). rewrite exp_sum_spec. reflexivity.
  - rewrite nth_overflow by (rewrite map_length; exact H). unfold at_pos at 1. rewrite (nth_overflow w) by exact H.
    unfold Qdiv. ring.
Qed.
Lemma positive_total w : w <> [] -> all_positive w -> 0 < sum (length w) (at_pos w).
Proof.
  intros N P. destruct w as [|x w]; [congruence|]. cbn [length]. rewrite sum_head.
  assert (A : 0 < at_pos (x :: w) 0) by (apply P; left; reflexivity).
  assert (B : 0 <= sum (length w) (fun i => at_pos (x :: w) (S i))).
  { apply sum_nonneg. intros i Hi. apply Qlt_le_weak, P. right. unfold at_pos. cbn. apply nth_In, Hi. }
  lra.
Qed.
Lemma share_nonneg w i : w <> [] -> all_positive w -> 0 <= share w i.
Proof.
  intros N P. pose proof (positive_total w N P) as T. unfold share, Qdiv. apply Qmult_le_0_compat.
  - unfold at_pos. destruct (nth_in_or_default i w 0) as [H|H]; [apply Qlt_le_weak, P, H|]. rewrite H. apply Qle_refl.
  - apply Qlt_le_weak, Qinv_lt_0_compat, T.
Qed.
Lemma share_positive w i : (i < length w)%nat -> all_positive w -> 0 < share w i.
Proof.
  intros N P. assert (T : 0 < sum (length w) (at_pos w)) by (apply positive_total; [intros ->; cbn in N; lia|exact P]).
  unfold share, Qdiv. apply Qmult_lt_0_compat; [apply P, nth_In, N|apply Qinv_lt_0_compat, T].
Qed.
Lemma share_sum w : w <> [] -> all_positive w -> sum (length w) (share w) == 1.
Proof.
  intros N P. pose proof (positive_total w N P) as T. unfold share.
  rewrite (sum_ext _ _ (fun i => / sum (length w) (at_pos w) * at_pos w i)).
  - rewrite sum_scale. field. lra.
  - intros i _. unfold Qdiv. ring.
Qed.

(** Probabilities *)
Lemma probabilities_spec w : w <> [] -> all_positive w ->
  length (probabilities w) = length w /\ all_positive (probabilities w) /\
  sum (length w) (at_pos (probabilities w)) == 1 /\
  forall i j, at_pos (probabilities w) i * at_pos w j == at_pos (probabilities w) j * at_pos w i.
Proof.
  intros N P. split; [apply length_probabilities|]. split; [|split].
  - intros x H. destruct (In_nth _ _ 0 H) as [i [Hi E]]. rewrite length_probabilities in Hi.
    pose proof (at_probabilities w i) as A. unfold at_pos in A. rewrite E in A. rewrite A. apply share_positive; assumption.
  - rewrite (sum_ext _ _ (share w)); [apply share_sum; assumption|]. intros. apply at_probabilities.
  - intros i j. rewrite !at_probabilities. unfold share. field. pose proof (positive_total w N P). lra.
Qed.
(** Adding a constant to all costs multiplies the weights. *)
Lemma probabilities_shift w k : w <> [] -> all_positive w -> 0 < k ->
  forall i, at_pos (probabilities (map (Qmult k) w)) i == at_pos (probabilities w) i.
Proof.
  intros N P K i. rewrite !at_probabilities. unfold share. rewrite map_length.
  pose proof (positive_total w N P) as T.
  assert (A : forall j, at_pos (map (Qmult k) w) j == k * at_pos w j).
  { intros j. unfold at_pos. destruct (Nat.lt_ge_cases j (length w)) as [H|H].
    - rewrite (nth_indep _ 0 (k * 0)) by (rewrite map_length; exact H). rewrite (map_nth (Qmult k) w 0 j). reflexivity.
    - rewrite !nth_overflow; [ring|exact H|rewrite map_length; exact H]. }
  rewrite (sum_ext _ (at_pos (map (Qmult k) w)) (fun j => k * at_pos w j)) by (intros; apply A).
  rewrite sum_scale, A. field. split; lra.
Qed.

(** ** Lines *)
Lemma entry_nth m i j x : entry m i j = Some x -> nth j (nth i m []) 0%nat = x.
Proof.
  unfold entry. destruct (nth_error m i) as [row|] eqn:E; [|discriminate]. intros H.
  rewrite (nth_error_nth m i [] E). apply nth_error_nth, H.
Qed.
Lemma entry_some m c i j : (i < length m)%nat -> (j < c)%nat -> rectangular m c ->
  entry m i j = Some (nth j (nth i m []) 0%nat).
Proof.
  intros Hi Hj R. unfold entry. rewrite (nth_error_nth' m [] Hi). apply nth_error_nth'.
  rewrite (R (nth i m [])); [exact Hj|]. apply nth_In, Hi.
Qed.
Lemma at_cell_map m i j : at_cell (map (map of_nat) m) i j = edits_at m i j.
Proof.
  unfold at_cell, edits_at. change (@nil Q) with (map of_nat []). rewrite map_nth.
  change 0 with (of_nat 0). rewrite map_nth. reflexivity.
Qed.

Definition line_of (n m : nat) (hyp ref : list Q) (edits : list (list nat)) (lens : list nat) (l : jline) : Prop :=
  length (p1 l) = (n + m)%nat /\ length (p2 l) = (n + m)%nat /\ square (n + m) (D l) /\ length (L l) = (n + m)%nat /\
  (forall i, (i < n)%nat -> at_pos (p1 l) i == share hyp i /\ at_pos (p2 l) i == 0 /\ at_pos (L l) i == 0) /\
  (forall j, (j < m)%nat -> at_pos (p1 l) (n + j) == 0 /\ at_pos (p2 l) (n + j) == share ref j /\
                            at_pos (L l) (n + j) == length_at lens j) /\
  (forall i j, (i < n)%nat -> (j < m)%nat -> at_cell (D l) i (n + j) = edits_at edits i j /\
                                             at_cell (D l) (n + j) i = edits_at edits i j).

Lemma line_spec hyp ref edits lens :
  hyp <> [] -> length edits = length hyp -> rectangular edits (length ref) -> length lens = length ref ->
  exists l, pairwise_line hyp ref edits lens = Fine l /\ line_of (length hyp) (length ref) hyp ref edits lens l.
Proof.
  intros Hh He Hr Hl.
  assert (Ne : edits <> []) by (intros ->; destruct hyp; [congruence|discriminate]).
  destruct (distances_spec edits (length ref) Ne Hr) as [d [E [Hd [Rd [Hb [_ _]]]]]].
  eexists. split; [unfold pairwise_line; rewrite E; cbn [bind]; reflexivity|].
  unfold line_of. cbn [p1 p2 D L]. rewrite !app_length, !repeat_length, !length_probabilities, !map_length.
  rewrite He in *. split; [lia|]. split; [lia|]. split; [|split; [lia|split; [|split]]].
  - split; [rewrite map_length; exact Hd|]. intros row H. apply in_map_iff in H. destruct H as [r [<- H]].
    rewrite map_length. apply Rd, H.
  - intros i Hi. rewrite at_pos_app_l by (rewrite length_probabilities; exact Hi).
    rewrite !at_pos_app_l by (rewrite repeat_length; exact Hi). rewrite !at_pos_repeat, at_probabilities. repeat split; reflexivity.
  - intros j Hj. rewrite (at_pos_app_r _ _ _ j (length_probabilities hyp)), at_pos_repeat.
    rewrite !(at_pos_app_r _ _ _ j (repeat_length 0 (length hyp))), at_probabilities. split; [reflexivity|]. split; [reflexivity|].
    unfold at_pos, length_at. change 0 with (of_nat 0). rewrite map_nth. reflexivity.
  - intros i j Hi Hj. destruct (Hb i j Hi Hj) as [A B].
    assert (Hi' : (i < length edits)%nat) by (rewrite He; exact Hi).
    rewrite (entry_some edits (length ref) i j Hi' Hj Hr) in A, B. rewrite !at_cell_map. unfold edits_at.
    rewrite (entry_nth _ _ _ _ A), (entry_nth _ _ _ _ B). split; reflexivity.
Qed.

(** ** Flows *)
Lemma dot_sum u v n : length u = n -> length v = n -> dot u v == sum n (fun j => at_pos u j * at_pos v j).
Proof.
  revert v n. induction u as [|x u IH]; intros v n Hu Hv.
  - cbn in Hu. subst n. cbn. reflexivity.
  - destruct v as [|y v]; [cbn in *; congruence|]. cbn in Hu, Hv. destruct n as [|n]; [discriminate|].
    rewrite sum_head. cbn [dot]. rewrite (IH v n) by congruence. unfold at_pos. cbn [nth]. reflexivity.
Qed.
Lemma ref_len_sum n flows len x : (forall row, In row flows -> length row = n) -> length len = n ->
  fold_left (fun ref_len flow => ref_len + dot flow len) flows x ==
  x + sum (length flows) (fun i => sum n (fun j => at_cell flows i j * at_pos len j)).
Proof.
  revert x. induction flows as [|f flows IH]; intros x R Hl; [cbn; ring|].
  cbn [fold_left length]. rewrite IH by (auto; intros; apply R; right; assumption). rewrite sum_head.
  rewrite (dot_sum f len n) by (auto; apply R; left; reflexivity).
  assert (E : sum (length flows) (fun i => sum n (fun j => at_cell flows i j * at_pos len j)) ==
              sum (length flows) (fun i => sum n (fun j => at_cell (f :: flows) (S i) j * at_pos len j))) by reflexivity.
  rewrite E. unfold at_cell at 2. cbn [nth]. unfold at_pos at 1. ring.
Qed.
Lemma length_by_columns n a b F len : moves n n a b F ->
  sum n (fun i => sum n (fun j => F i j * len j)) == sum n (fun j => b j * len j).
Proof.
  intros [_ [_ C]]. rewrite sum_swap. apply sum_ext. intros j Hj.
  rewrite sum_scale_r, (C j Hj). reflexivity.
Qed.

(** The flow of a line and the moves between hypotheses and references *)
Section Blocks.
  Variables (n m : nat) (P1 P2 a b : nat -> Q) (E : nat -> nat -> Q) (M : nat -> nat -> Q).
  Hypothesis P1h : forall i, (i < n)%nat -> P1 i == a i.
  Hypothesis P1r : forall j, (j < m)%nat -> P1 (n + j)%nat == 0.
  Hypothesis P2h : forall i, (i < n)%nat -> P2 i == 0.
  Hypothesis P2r : forall j, (j < m)%nat -> P2 (n + j)%nat == b j.
  Hypothesis Mb : forall i j, (i < n)%nat -> (j < m)%nat -> M i (n + j)%nat == E i j.

  Lemma flow_zero F : moves (n + m) (n + m) P1 P2 F ->
    (forall i j, (i < n + m)%nat -> (j < n)%nat -> F i j == 0) /\
    (forall i j, (i < m)%nat -> (j < n + m)%nat -> F (n + i)%nat j == 0).
  Proof.
    intros [P [R C]]. split.
    - intros i j Hi Hj. apply (sum_nonneg_zero (n + m) (fun i => F i j)).
      + intros k Hk. apply P; lia.
      + rewrite C by lia. apply P2h, Hj.
      + exact Hi.
    - intros i j Hi Hj. apply (sum_nonneg_zero (n + m) (F (n + i)%nat)).
      + intros k Hk. apply P; lia.
      + rewrite R by lia. apply P1r, Hi.
      + exact Hj.
  Qed.
  Lemma flow_down F : moves (n + m) (n + m) P1 P2 F ->
    moves n m a b (fun i j => F i (n + j)%nat) /\
    cost (n + m) (n + m) F M == cost n m (fun i j => F i (n + j)%nat) E.
  Proof.
    intros H. destruct (flow_zero F H) as [Zc Zr]. destruct H as [P [R C]]. split; [split; [|split]|].
    - intros i j Hi Hj. apply P; lia.
    - intros i Hi. rewrite <- (P1h i Hi), <- (R i) by lia. rewrite sum_split.
      rewrite (sum_zero n (F i)); [ring|]. intros j Hj. apply Zc; lia.
    - intros j Hj. rewrite <- (P2r j Hj), <- (C (n + j)%nat) by lia. rewrite (sum_split n m).
      rewrite (sum_zero m); [ring|]. intros i Hi. apply Zr; lia.
    - unfold cost. rewrite (sum_split n m).
      assert (A : sum m (fun j => sum (n + m) (fun j0 => F (n + j)%nat j0 * M (n + j)%nat j0)) == 0).
      { apply sum_zero. intros i Hi. apply sum_zero. intros j Hj. rewrite (Zr i j Hi Hj). ring. }
      rewrite A. rewrite Qplus_0_r. apply sum_ext. intros i Hi. rewrite sum_split.
      rewrite (sum_zero n); [rewrite Qplus_0_l; apply sum_ext; intros j Hj; rewrite (Mb i j Hi Hj); reflexivity|].
      intros j Hj. rewrite (Zc i j) by lia. ring.
  Qed.
  Definition lift (g : nat -> nat -> Q) (i j : nat) : Q :=
    if (i <? n)%nat then if (n <=? j)%nat then g i (j - n)%nat else 0 else 0.
  Lemma lift_block g i j : (i < n)%nat -> lift g i (n + j) = g i j.
  Proof.
    intros Hi. unfold lift. rewrite (proj2 (Nat.ltb_lt i n) Hi), (proj2 (Nat.leb_le n (n + j))) by lia.
    f_equal. lia.
  Qed.
  Lemma lift_left g i j : (j < n)%nat -> lift g i j = 0.
  Proof.
    intros Hj. unfold lift. rewrite (proj2 (Nat.leb_gt n j) Hj). destruct (i <? n)%nat; reflexivity.
  Qed.
  Lemma lift_below g i j : lift g (n + i) j = 0.
  Proof. unfold lift. rewrite (proj2 (Nat.ltb_ge (n + i) n)) by lia. reflexivity. Qed.
  Lemma flow_up g : moves n m a b g -> moves (n + m) (n + m) P1 P2 (lift g).
  Proof.
    intros [P [R C]]. split; [|split].
    - intros i j Hi Hj. unfold lift. destruct (Nat.ltb_spec i n); [|apply Qle_refl].
      destruct (Nat.leb_spec n j); [apply P; lia|apply Qle_refl].
    - intros i Hi. destruct (Nat.lt_ge_cases i n) as [H|H].
      + rewrite (P1h i H), sum_split, (sum_zero n), Qplus_0_l.
        * rewrite <- (R i H). apply sum_ext. intros j Hj. rewrite lift_block by exact H. reflexivity.
        * intros j Hj. rewrite lift_left by exact Hj. reflexivity.
      + replace i with (n + (i - n))%nat by lia. rewrite P1r by lia. apply sum_zero. intros j Hj. rewrite lift_below. reflexivity.
    - intros j Hj. destruct (Nat.lt_ge_cases j n) as [H|H].
      + rewrite (P2h j H). apply sum_zero. intros i Hi. rewrite lift_left by exact H. reflexivity.
      + replace j with (n + (j - n))%nat by lia. rewrite P2r by lia. rewrite sum_split, (sum_zero m), Qplus_0_r.
        * rewrite <- (C (j - n)%nat) by lia. apply sum_ext. intros i Hi. rewrite lift_block by exact Hi. reflexivity.
        * intros i Hi. rewrite lift_below. reflexivity.
  Qed.
  Lemma cost_lift g : moves n m a b g -> cost (n + m) (n + m) (lift g) M == cost n m g E.
  Proof.
    intros H. destruct (flow_down (lift g) (flow_up g H)) as [_ C]. rewrite C. unfold cost.
    apply sum_ext. intros i Hi. apply sum_ext. intros j Hj. rewrite lift_block by exact Hi. reflexivity.
  Qed.
  Lemma least_block c F : moves (n + m) (n + m) P1 P2 F -> c == cost (n + m) (n + m) F M ->
    (forall g, moves (n + m) (n + m) P1 P2 g -> c <= cost (n + m) (n + m) g M) -> least_cost n m a b E c.
  Proof.
    intros HF Hc Hmin. split.
    - exists (fun i j => F i (n + j)%nat). destruct (flow_down F HF) as [A B]. split; [exact A|]. rewrite Hc, B. reflexivity.
    - intros g Hg. rewrite <- (cost_lift g Hg). apply Hmin, flow_up, Hg.
  Qed.
End Blocks.

Lemma share_ext_moves n m a b a' b' g : (forall i, (i < n)%nat -> a i == a' i) -> (forall j, (j < m)%nat -> b j == b' j) ->
  moves n m a b g -> moves n m a' b' g.
Proof.
  intros A B [P [R C]]. split; [exact P|]. split; [intros i Hi; rewrite <- A by exact Hi; apply R, Hi|].
  intros j Hj. rewrite <- B by exact Hj. apply C, Hj.
Qed.

(** The main result: the edits are the least cost of moving the hypotheses to the
    references, the length is the mean length of the references. *)
Lemma emd_line emd hyp ref edits lens l n m :
  line_of n m hyp ref edits lens l -> best_flow (p1 l) (p2 l) (D l) (emd (p1 l) (p2 l) (D l)) ->
  least_cost n m (share hyp) (share ref) (edits_at edits) (fst (emd_error_and_length emd l)) /\
  snd (emd_error_and_length emd l) == sum m (fun j => share ref j * length_at lens j).
Proof.
  intros [H1 [H2 [HD [HL [Hh [Hr Hb]]]]]] [Sq [Mv [Co Mi]]].
  unfold emd_error_and_length, earth_movers_distance. destruct (emd (p1 l) (p2 l) (D l)) as [c F]. cbn [fst snd] in *.
  rewrite H1 in *. split.
  - apply (least_block n m (at_pos (p1 l)) (at_pos (p2 l)) (share hyp) (share ref) (edits_at edits) (at_cell (D l))) with (F := at_cell F).
    + intros i Hi. apply Hh, Hi.
    + intros j Hj. apply Hr, Hj.
    + intros i Hi. apply Hh, Hi.
    + intros j Hj. apply Hr, Hj.
    + intros i j Hi Hj. destruct (Hb i j Hi Hj) as [-> _]. reflexivity.
    + exact Mv.
    + exact Co.
    + exact Mi.
  - destruct Sq as [Sq1 Sq2]. rewrite (ref_len_sum (n + m) F (L l) 0 Sq2 HL). rewrite Sq1.
    rewrite (length_by_columns (n + m) _ _ _ (at_pos (L l)) Mv). rewrite sum_split.
    rewrite (sum_zero n).
    + rewrite Qplus_0_l, Qplus_0_l. apply sum_ext. intros j Hj. destruct (Hr j Hj) as [_ [-> ->]]. reflexivity.
    + intros i Hi. destruct (Hh i Hi) as [_ [-> _]]. ring.
Qed.
Lemma emd_spec emd hyp ref edits lens :
  hyp <> [] -> length edits = length hyp -> rectangular edits (length ref) -> length lens = length ref ->
  exists l, pairwise_line hyp ref edits lens = Fine l /\
    (best_flow (p1 l) (p2 l) (D l) (emd (p1 l) (p2 l) (D l)) ->
     least_cost (length hyp) (length ref) (share hyp) (share ref) (edits_at edits) (fst (emd_error_and_length emd l)) /\
     snd (emd_error_and_length emd l) == sum (length ref) (fun j => share ref j * length_at lens j)).
Proof.
  intros A B C E. destruct (line_spec hyp ref edits lens A B C E) as [l [F G]]. exists l. split; [exact F|].
  apply emd_line, G.
Qed.

(** ** Least costs *)
Lemma least_unique n m a b E c c' : least_cost n m a b E c -> least_cost n m a b E c' -> c == c'.
Proof.
  intros [[g [Hg Cg]] L1] [[g' [Hg' Cg']] L2]. pose proof (L1 g' Hg'). pose proof (L2 g Hg). lra.
Qed.
(** A bound from below by prices *)
Lemma least_dual n m a b E c u v : least_cost n m a b E c ->
  (forall i j, (i < n)%nat -> (j < m)%nat -> u i + v j <= E i j) ->
  sum n (fun i => a i * u i) + sum m (fun j => b j * v j) <= c.
Proof.
  intros [[g [[P [R C]] Cg]] _] H. rewrite <- Cg. unfold cost.
  assert (A : sum n (fun i => a i * u i) == sum n (fun i => sum m (fun j => g i j * u i))).
  { apply sum_ext. intros i Hi. rewrite sum_scale_r, (R i Hi). reflexivity. }
  assert (B : sum m (fun j => b j * v j) == sum n (fun i => sum m (fun j => g i j * v j))).
  { rewrite sum_swap. apply sum_ext. intros j Hj. rewrite sum_scale_r, (C j Hj). reflexivity. }
  rewrite A, B, <- sum_plus. apply sum_le. intros i Hi. rewrite <- sum_plus. apply sum_le. intros j Hj.
  pose proof (P i j Hi Hj) as G. pose proof (H i j Hi Hj) as K.
  apply Qle_trans with (g i j * (u i + v j)); [apply Qle_lteq; right; ring|].
  rewrite (Qmult_comm (g i j)), (Qmult_comm (g i j)). apply Qmult_le_compat_r; assumption.
Qed.
Lemma least_certificate n m a b E g u v : moves n m a b g ->
  (forall i j, (i < n)%nat -> (j < m)%nat -> u i + v j <= E i j) ->
  cost n m g E == sum n (fun i => a i * u i) + sum m (fun j => b j * v j) ->
  least_cost n m a b E (cost n m g E).
Proof.
  intros Hg Hd Hc. split; [exists g; split; [exact Hg|reflexivity]|]. intros h Hh. rewrite Hc.
  assert (L : (exists k, moves n m a b k /\ cost n m k E == cost n m h E)) by (exists h; split; [exact Hh|reflexivity]).
  clear Hg Hc. destruct Hh as [P [R C]]. unfold cost.
  assert (A : sum n (fun i => a i * u i) == sum n (fun i => sum m (fun j => h i j * u i))).
  { apply sum_ext. intros i Hi. rewrite sum_scale_r, (R i Hi). reflexivity. }
  assert (B : sum m (fun j => b j * v j) == sum n (fun i => sum m (fun j => h i j * v j))).
  { rewrite sum_swap. apply sum_ext. intros j Hj. rewrite sum_scale_r, (C j Hj). reflexivity. }
  rewrite A, B, <- sum_plus. apply sum_le. intros i Hi. rewrite <- sum_plus. apply sum_le. intros j Hj.
  pose proof (P i j Hi Hj) as G. pose proof (Hd i j Hi Hj) as K.
  apply Qle_trans with (h i j * (u i + v j)); [apply Qle_lteq; right; ring|].
  rewrite (Qmult_comm (h i j)), (Qmult_comm (h i j)). apply Qmult_le_compat_r; assumption.
Qed.
Lemma least_nearest n m a b E c low : least_cost n m a b E c ->
  (forall i j, (i < n)%nat -> (j < m)%nat -> low i <= E i j) -> sum n (fun i => a i * low i) <= c.
Proof.
  intros H K. pose proof (least_dual n m a b E c low (fun _ => 0) H) as D.
  rewrite (sum_zero m) in D by (intros; ring). rewrite Qplus_0_r in D. apply D. intros i j Hi Hj.
  rewrite Qplus_0_r. apply K; assumption.
Qed.
Lemma least_nearest_ref n m a b E c low : least_cost n m a b E c ->
  (forall i j, (i < n)%nat -> (j < m)%nat -> low j <= E i j) -> sum m (fun j => b j * low j) <= c.
Proof.
  intros H K. pose proof (least_dual n m a b E c (fun _ => 0) low H) as D.
  rewrite (sum_zero n) in D by (intros; ring). rewrite Qplus_0_l in D. apply D. intros i j Hi Hj.
  rewrite Qplus_0_l. apply K; assumption.
Qed.
Lemma product_moves n m a b : (forall i, (i < n)%nat -> 0 <= a i) -> (forall j, (j < m)%nat -> 0 <= b j) ->
  sum n a == 1 -> sum m b == 1 -> moves n m a b (fun i j => a i * b j).
Proof.
  intros A B SA SB. split; [|split].
  - intros i j Hi Hj. apply Qmult_le_0_compat; auto.
  - intros i Hi. rewrite sum_scale, SB. ring.
  - intros j Hj. rewrite sum_scale_r, SA. ring.
Qed.
Lemma least_independent n m hyp ref E c : hyp <> [] -> ref <> [] -> all_positive hyp -> all_positive ref ->
  n = length hyp -> m = length ref -> least_cost n m (share hyp) (share ref) E c ->
  c <= sum n (fun i => sum m (fun j => share hyp i * share ref j * E i j)).
Proof.
  intros Nh Nr Ph Pr -> -> [_ M]. apply (M (fun i j => share hyp i * share ref j)). apply product_moves.
  - intros. apply share_nonneg; assumption.
  - intros. apply share_nonneg; assumption.
  - apply share_sum; assumption.
  - apply share_sum; assumption.
Qed.
Lemma least_one_hypothesis m a b E c : least_cost 1 m a b E c -> c == sum m (fun j => b j * E 0%nat j).
Proof.
  intros [[g [[P [R C]] Cg]] _]. rewrite <- Cg. unfold cost. cbn [sum]. rewrite Qplus_0_l. apply sum_ext. intros j Hj.
  specialize (C j Hj). cbn in C. rewrite Qplus_0_l in C. rewrite C. reflexivity.
Qed.
Lemma least_one_reference n a b E c : least_cost n 1 a b E c -> c == sum n (fun i => a i * E i 0%nat).
Proof.
  intros [[g [[P [R C]] Cg]] _]. rewrite <- Cg. unfold cost. apply sum_ext. intros i Hi. cbn [sum].
  specialize (R i Hi). cbn in R. rewrite Qplus_0_l in R. rewrite Qplus_0_l, R. reflexivity.
Qed.
Lemma least_nonneg n m a b E c : (forall i j, (i < n)%nat -> (j < m)%nat -> 0 <= E i j) ->
  least_cost n m a b E c -> 0 <= c.
Proof.
  intros H [[g [[P _] Cg]] _]. rewrite <- Cg. apply sum_nonneg. intros i Hi. apply sum_nonneg. intros j Hj.
  apply Qmult_le_0_compat; auto.
Qed.
Lemma least_zero n m a b E c : (forall i j, (i < n)%nat -> (j < m)%nat -> 0 <= E i j) ->
  least_cost n m a b E c ->
  (c == 0 <-> exists g, moves n m a b g /\ forall i j, (i < n)%nat -> (j < m)%nat -> 0 < g i j -> E i j == 0).
Proof.
  intros H Lc. split.
  - intros Z. destruct Lc as [[g [Mg Cg]] _]. exists g. split; [exact Mg|]. intros i j Hi Hj G.
    destruct Mg as [P _]. rewrite Z in Cg. unfold cost in Cg.
    pose proof (sum_nonneg_zero n _ (fun i Hi => sum_nonneg m (fun j => g i j * E i j)
      (fun j Hj => Qmult_le_0_compat _ _ (P i j Hi Hj) (H i j Hi Hj))) Cg i Hi) as Z1. cbn beta in Z1.
    pose proof (sum_nonneg_zero m _ (fun j Hj => Qmult_le_0_compat _ _ (P i j Hi Hj) (H i j Hi Hj)) Z1 j Hj) as Z2.
    cbn beta in Z2. destruct (Qmult_integral _ _ Z2); lra.
  - intros [g [Mg K]]. apply Qle_antisym; [|apply (least_nonneg n m a b E c H Lc)].
    destruct Lc as [_ M]. apply Qle_trans with (1 := M g Mg). apply Qle_lteq. right. apply sum_zero. intros i Hi.
    apply sum_zero. intros j Hj. destruct Mg as [P _]. pose proof (P i j Hi Hj) as G. apply Qle_lteq in G.
    destruct G as [G|G]; [rewrite (K i j Hi Hj G)|rewrite <- G]; ring.
Qed.
(** The same words with the same probabilities *)
Lemma diagonal_moves n a : (forall i, (i < n)%nat -> 0 <= a i) ->
  moves n n a a (fun i j => if Nat.eqb i j then a i else 0).
Proof.
  intros A. assert (S1 : forall k i x, (i < k)%nat -> sum k (fun j => if Nat.eqb i j then x else 0) == x).
  { induction k; intros i x Hi; [lia|]. cbn [sum]. destruct (Nat.eqb_spec i k) as [->|N].
    - rewrite sum_zero; [ring|]. intros j Hj. destruct (Nat.eqb_spec k j); [lia|reflexivity].
    - rewrite IHk by lia. ring. }
  split; [|split].
  - intros i j Hi Hj. destruct (Nat.eqb i j); [apply A, Hi|apply Qle_refl].
  - intros i Hi. apply S1, Hi.
  - intros j Hj. rewrite (sum_ext n _ (fun i => if Nat.eqb j i then a j else 0)); [apply S1, Hj|].
    intros i Hi. rewrite (Nat.eqb_sym j i). destruct (Nat.eqb_spec i j) as [->|]; reflexivity.
Qed.
Lemma least_same n a E c : (forall i, (i < n)%nat -> 0 <= a i) ->
  (forall i j, (i < n)%nat -> (j < n)%nat -> 0 <= E i j) -> (forall i, (i < n)%nat -> E i i == 0) ->
  least_cost n n a a E c -> c == 0.
Proof.
  intros A H Z Lc. apply (least_zero n n a a E c H Lc). eexists. split; [apply diagonal_moves, A|].
  intros i j Hi Hj. cbn beta. destruct (Nat.eqb_spec i j) as [->|]; [intros _; apply Z, Hj|intros K; lra].
Qed.
