From Coq Require Import Sorting.Sorted.
From Verif Require Import Base Utf8Spec DelimSpec KbestModel KbestSpec KbestProofs RejoinProofs ErrorRateModel ErrorRateProofs
  LatticeModel LatticeSpec DecoderSpec.

(** ** Sorting *)
Lemma sorted_unique {A} (R : A -> A -> Prop) (irr : forall a, ~ R a a) (asym : forall a b, R a b -> R b a -> False) :
  forall l m, StronglySorted R l -> StronglySorted R m -> Permutation l m -> l = m.
Proof.
  induction l as [|a l IH]; intros m Sl Sm P.
  - apply Permutation_nil in P. auto.
  - destruct m as [|b m]; [symmetry in P; apply Permutation_nil in P; discriminate|].
    inversion Sl as [|? ? Sl' Fl]; subst. inversion Sm as [|? ? Sm' Fm]; subst.
    assert (a = b) as ->.
    { assert (In a (b :: m)) as Ia by (eapply Permutation_in; [exact P|left; auto]).
      assert (In b (a :: l)) as Ib by (eapply Permutation_in; [symmetry; exact P|left; auto]).
      destruct Ia as [|Ia]; auto. destruct Ib as [|Ib]; auto.
      rewrite Forall_forall in Fl, Fm. exfalso. eauto. }
    f_equal. apply IH; auto. eapply Permutation_cons_inv; eauto.
Qed.

Definition pair_lt (a b : Z * nat) : Prop := (fst a < fst b)%Z \/ (fst a = fst b /\ snd a < snd b).
Definition pair_ltb (a b : Z * nat) : bool := (fst a <? fst b)%Z || ((fst a =? fst b)%Z && (snd a <? snd b)).
Lemma pair_ltb_spec a b : pair_ltb a b = true <-> pair_lt a b.
Proof.
  unfold pair_ltb, pair_lt. rewrite orb_true_iff, andb_true_iff, Z.ltb_lt, Z.eqb_eq, Nat.ltb_lt. tauto.
Qed.
Lemma pair_lt_trans a b c : pair_lt a b -> pair_lt b c -> pair_lt a c.
Proof. unfold pair_lt. lia. Qed.
Lemma insert_pair_perm x l : Permutation (x :: l) (insert_pair x l).
Proof.
  induction l as [|y l IH]; simpl; auto. destruct (pair_leb x y); auto.
  rewrite perm_swap. constructor. auto.
Qed.
Lemma sort_pairs_perm l : Permutation l (sort_pairs l).
Proof. induction l as [|x l IH]; simpl; auto. rewrite <- insert_pair_perm. constructor. auto. Qed.
Lemma pair_leb_spec a b : pair_leb a b = true <-> pair_lt a b \/ (fst a = fst b /\ snd a = snd b).
Proof.
  unfold pair_leb, pair_lt. rewrite orb_true_iff, andb_true_iff, Z.ltb_lt, Z.eqb_eq, Nat.leb_le. lia.
Qed.
Lemma insert_pair_sorted x l : StronglySorted pair_lt l -> ~ In (snd x) (map snd l) -> StronglySorted pair_lt (insert_pair x l).
Proof.
  induction 1 as [|y l S IH F]; intros N; simpl; [constructor; constructor|].
  simpl in N. assert (snd x <> snd y /\ ~ In (snd x) (map snd l)) as [N1 N2] by (split; intros H; apply N; auto).
  destruct (pair_leb x y) eqn:E.
  - apply pair_leb_spec in E. destruct E as [E|[_ E]]; [|contradiction]. constructor; [constructor; auto|].
    constructor; auto. eapply Forall_impl; [|exact F]. intros z. apply pair_lt_trans. auto.
  - constructor; [auto|]. assert (pair_lt y x) as L.
    { assert (~ (pair_lt x y \/ (fst x = fst y /\ snd x = snd y))) by (rewrite <- pair_leb_spec; congruence).
      unfold pair_lt in *. lia. }
    apply (Permutation_Forall (insert_pair_perm x l)). constructor; auto.
Qed.
Lemma sort_pairs_sorted l : NoDup (map snd l) -> StronglySorted pair_lt (sort_pairs l).
Proof.
  induction l as [|x l IH]; intros N; simpl; [constructor|]. inversion N as [|? ? N1 N2]; subst. apply insert_pair_sorted; auto.
  intros I. apply N1. eapply Permutation_in; [|exact I]. apply Permutation_map. symmetry. apply sort_pairs_perm.
Qed.

Lemma filter_perm {A} (f : A -> bool) l m : Permutation l m -> Permutation (filter f l) (filter f m).
Proof.
  induction 1 as [|x l m P IH|x y l|l m n P1 IH1 P2 IH2]; simpl; auto.
  - destruct (f x); auto.
  - destruct (f x), (f y); auto. apply perm_swap.
  - etransitivity; eauto.
Qed.
Lemma filter_all {A} (f : A -> bool) l : Forall (fun x => f x = true) l -> filter f l = l.
Proof. induction 1 as [|x l H F IH]; simpl; auto. rewrite H, IH. auto. Qed.
Lemma filter_nothing {A} (f : A -> bool) l : Forall (fun x => f x = false) l -> filter f l = [].
Proof. induction 1 as [|x l H F IH]; simpl; auto. rewrite H. auto. Qed.
Lemma sorted_app_inv {A} (R : A -> A -> Prop) pre x post : StronglySorted R (pre ++ x :: post) ->
  Forall (fun y => R y x) pre /\ Forall (R x) post.
Proof.
  induction pre as [|y pre IH]; simpl; intros S; inversion S as [|? ? S' F]; subst.
  - split; auto.
  - destruct (IH S') as [H1 H2]. split; auto. constructor; auto. apply Forall_app in F. destruct F as [_ F]. inversion F; auto.
Qed.
(** In a sorted list an element stands behind those less than it. *)
Lemma sorted_position pre x post : StronglySorted pair_lt (pre ++ x :: post) ->
  length (filter (fun y => pair_ltb y x) (pre ++ x :: post)) = length pre.
Proof.
  intros S. destruct (sorted_app_inv _ _ _ _ S) as [H1 H2]. rewrite filter_app. rewrite filter_all.
  - simpl. assert (pair_ltb x x = false) as ->.
    { destruct (pair_ltb x x) eqn:E; auto. apply pair_ltb_spec in E. unfold pair_lt in E. lia. }
    rewrite filter_nothing, app_nil_r; auto. eapply Forall_impl; [|exact H2]. intros y H.
    destruct (pair_ltb y x) eqn:E; auto. apply pair_ltb_spec in E. unfold pair_lt in *. lia.
  - eapply Forall_impl; [|exact H1]. intros y H. apply pair_ltb_spec. auto.
Qed.

Lemma combine_seq_map (l : list Z) : forall k, combine l (seq k (length l)) = map (fun j => (nth (j - k) l 0%Z, j)) (seq k (length l)).
Proof.
  induction l as [|a l IH]; intros k; auto. cbn [length seq combine map]. rewrite Nat.sub_diag. cbn [nth]. f_equal. rewrite IH.
  apply map_ext_in. intros j H. apply in_seq in H. replace (j - k) with (S (j - S k)) by lia. reflexivity.
Qed.
Definition numbered_scores (scores : list Z) := combine scores (seq 0 (length scores)).
Lemma numbered_map scores : numbered_scores scores = map (fun j => (nth j scores 0%Z, j)) (seq 0 (length scores)).
Proof.
  unfold numbered_scores. rewrite combine_seq_map. apply map_ext. intros j. rewrite Nat.sub_0_r. auto.
Qed.
Lemma filter_map_length {A B} (f : A -> B) (p : B -> bool) l : length (filter p (map f l)) = length (filter (fun x => p (f x)) l).
Proof. induction l as [|a l IH]; simpl; auto. destruct (p (f a)); simpl; auto. Qed.
Lemma map_snd_numbered scores : map snd (numbered_scores scores) = seq 0 (length scores).
Proof. rewrite numbered_map, map_map. simpl. apply map_id. Qed.

Lemma rank_position scores i r : i < length scores ->
  (nth_error (sort_pairs (numbered_scores scores)) r = Some (nth i scores 0%Z, i) <-> rank scores i = r).
Proof.
  intros Hi. set (L := sort_pairs _).
  assert (StronglySorted pair_lt L) as S by (apply sort_pairs_sorted; rewrite map_snd_numbered; apply seq_NoDup).
  assert (Permutation (numbered_scores scores) L) as P by apply sort_pairs_perm.
  assert (forall pre post, L = pre ++ (nth i scores 0%Z, i) :: post -> rank scores i = length pre) as R.
  { intros pre post E. rewrite E in S. rewrite <- (sorted_position _ _ _ S), <- E, <- (Permutation_length (filter_perm _ _ _ P)), numbered_map, filter_map_length. reflexivity. }
  assert (In (nth i scores 0%Z, i) L) as I.
  { eapply Permutation_in; [exact P|]. rewrite numbered_map. apply in_map_iff. exists i. split; auto. apply in_seq. lia. }
  split.
  - intros H. apply nth_error_split in H. destruct H as (pre & post & E & Lp). rewrite (R _ _ E). auto.
  - intros <-. apply in_split in I. destruct I as (pre & post & E). rewrite (R _ _ E), E, nth_error_app2, Nat.sub_diag; auto.
Qed.
Lemma sorted_entry scores r s i : nth_error (sort_pairs (numbered_scores scores)) r = Some (s, i) ->
  i < length scores /\ s = nth i scores 0%Z.
Proof.
  intros H. apply nth_error_In in H. eapply Permutation_in in H; [|symmetry; apply sort_pairs_perm]. rewrite numbered_map in H.
  apply in_map_iff in H. destruct H as (j & E & I). injection E as <- <-. apply in_seq in I. split; auto. lia.
Qed.
Lemma rank_lt scores i : i < length scores -> rank scores i < length scores.
Proof.
  intros H. assert (nth_error (sort_pairs (numbered_scores scores)) (rank scores i) <> None) as N.
  { rewrite (proj2 (rank_position scores i _ H) eq_refl). discriminate. }
  apply nth_error_Some in N. rewrite <- (Permutation_length (sort_pairs_perm _)) in N. unfold numbered_scores in N.
  rewrite combine_length, seq_length in N. lia.
Qed.
Lemma rank_inj scores i j : i < length scores -> j < length scores -> rank scores i = rank scores j -> i = j.
Proof.
  intros Hi Hj E. pose proof (proj2 (rank_position scores i _ Hi) eq_refl) as A. pose proof (proj2 (rank_position scores j _ Hj) eq_refl) as B.
  rewrite E in A. congruence.
Qed.
Lemma rank_surj scores r : r < length scores -> exists i, i < length scores /\ rank scores i = r.
Proof.
  intros H. destruct (nth_error (sort_pairs (numbered_scores scores)) r) as [[s i]|] eqn:E.
  - destruct (sorted_entry _ _ _ _ E) as [Hi ->]. exists i. split; auto. apply rank_position; auto.
  - apply nth_error_None in E. rewrite <- (Permutation_length (sort_pairs_perm _)) in E. unfold numbered_scores in E.
    rewrite combine_length, seq_length in E. lia.
Qed.
Lemma rank_best scores i : i < length scores -> rank scores i = 0 -> forall j, j < length scores -> (nth i scores 0 <= nth j scores 0)%Z.
Proof.
  intros Hi E j Hj. unfold rank in E. destruct (Z_le_gt_dec (nth i scores 0%Z) (nth j scores 0%Z)) as [|G]; auto. exfalso.
  assert (In j (filter (fun j => ((nth j scores 0 <? nth i scores 0) || ((nth j scores 0 =? nth i scores 0) && (j <? i)%nat))%Z) (seq 0 (length scores)))) as I.
  { apply filter_In. split; [apply in_seq; lia|]. apply orb_true_iff. left. apply Z.ltb_lt. lia. }
  destruct (filter _ _); [contradiction|discriminate].
Qed.
Lemma rank_mono scores i j : i < length scores -> j < length scores -> rank scores i < rank scores j ->
  (nth i scores 0 <= nth j scores 0)%Z.
Proof.
  intros Hi Hj H. pose proof (proj2 (rank_position scores i _ Hi) eq_refl) as A. pose proof (proj2 (rank_position scores j _ Hj) eq_refl) as B.
  set (L := sort_pairs (numbered_scores scores)) in *.
  assert (StronglySorted pair_lt L) as Sd by (apply sort_pairs_sorted; rewrite map_snd_numbered; apply seq_NoDup).
  apply nth_error_split in A. destruct A as (pre & post & E & Lp). rewrite E in Sd. apply sorted_app_inv in Sd. destruct Sd as [_ F].
  rewrite E, nth_error_app2 in B by lia. replace (rank scores j - length pre) with (S (rank scores j - S (length pre))) in B by lia.
  cbn [nth_error] in B. apply nth_error_In in B. rewrite Forall_forall in F. apply F in B. unfold pair_lt in B. simpl in B. lia.
Qed.

(** ** Thresholds *)
Lemma set_true_length i : forall l, length (set_true i l) = length l.
Proof. induction i as [|i IH]; intros [|b l]; simpl; auto. Qed.
Lemma set_true_nth i : forall l j, i < length l -> nth j (set_true i l) false = if Nat.eqb j i then true else nth j l false.
Proof.
  induction i as [|i IH]; intros [|b l] [|j] H; simpl in *; try lia; auto. apply IH. lia.
Qed.
Definition allowed (bound : option Z) (s : Z) : Prop := match bound with None => True | Some b => (s <= b)%Z end.
Lemma keep_loop_spec bound best : forall i keep, Forall (fun p => snd p < length keep) best ->
  exists keep', keep_loop i best bound keep = Fine keep' /\ length keep' = length keep /\
    forall j, nth j keep' false = true <->
      nth j keep false = true \/ exists r s, nth_error best r = Some (s, j) /\ (i + r = 0 \/ allowed bound s).
Proof.
  induction best as [|[s a] best IH]; intros i keep F; cbn [keep_loop].
  { exists keep. split; auto. split; auto. intros j. split; auto. intros [H|(r & s & H & _)]; auto. destruct r; discriminate. }
  inversion F as [|? ? Ha F']; subst. cbn [snd] in Ha.
  set (c := Nat.eqb i 0 || match bound with None => true | Some b => (s <=? b)%Z end).
  assert (c = true <-> i = 0 \/ allowed bound s) as Hc.
  { unfold c, allowed. rewrite orb_true_iff, Nat.eqb_eq. destruct bound; [rewrite Z.leb_le|]; tauto. }
  assert (forall keep0 : list bool, length keep0 = length keep -> Forall (fun p => snd p < length keep0) best) as F0.
  { intros keep0 ->. auto. }
  destruct c.
  - apply Nat.ltb_lt in Ha. rewrite Ha. apply Nat.ltb_lt in Ha. cbn [qcheck].
    destruct (IH (S i) (set_true a keep) (F0 _ (set_true_length a keep))) as (k' & E & L & R). exists k'. split; auto.
    split; [rewrite L; apply set_true_length|]. intros j. rewrite R, set_true_nth by auto. destruct (Nat.eqb_spec j a) as [->|N].
    + split; auto. intros _. right. exists 0, s. split; auto. rewrite Nat.add_0_r. apply Hc. auto.
    + split; (intros [H|(r & s' & H & Q)]; [left; auto|]).
      * right. exists (S r), s'. split; auto. replace (i + S r) with (S i + r) by lia. auto.
      * right. destruct r as [|r]; [simpl in H; congruence|]. exists r, s'. split; auto. replace (S i + r) with (i + S r) by lia. auto.
  - destruct (IH (S i) keep (F0 _ eq_refl)) as (k' & E & L & R). exists k'. split; auto. split; auto. intros j. rewrite R.
    split; (intros [H|(r & s' & H & Q)]; [left; auto|]).
    + right. exists (S r), s'. split; auto. replace (i + S r) with (S i + r) by lia. auto.
    + right. destruct r as [|r].
      * simpl in H. injection H as -> ->. rewrite Nat.add_0_r in Q. apply Hc in Q. discriminate.
      * exists r, s'. split; auto. replace (S i + r) with (i + S r) by lia. auto.
Qed.

Lemma nth_error_firstn {A} (l : list A) : forall k r, nth_error (firstn k l) r = if r <? k then nth_error l r else None.
Proof.
  induction l as [|a l IH]; intros [|k] [|r]; simpl; auto; try (destruct (r <? k); auto; fail).
  - destruct (S r <? S k); auto.
  - rewrite IH. reflexivity.
Qed.
Lemma Forall_firstn {A} (P : A -> Prop) k : forall l, Forall P l -> Forall P (firstn k l).
Proof. induction k as [|k IH]; intros [|a l] H; simpl; auto. inversion H; subst. constructor; auto. Qed.

Lemma nth_repeat_false n : forall j, nth j (repeat false n) false = false.
Proof. induction n as [|n IH]; intros [|j]; simpl; auto. Qed.

Lemma thresh_spec arcs k bound costs scores : map_run (arc_score costs) arcs = Fine scores -> k < length arcs ->
  exists keep, ApplyArcScoreThresh arcs k bound costs = Fine keep /\ length keep = length arcs /\
    forall i, nth i keep false = true <-> i < length arcs /\ chosen scores k bound i.
Proof.
  intros M Hk. assert (length scores = length arcs) as Ls.
  { apply map_run_inv in M. clear - M. induction M; simpl; auto. }
  unfold ApplyArcScoreThresh. apply Nat.ltb_lt in Hk. rewrite Hk. apply Nat.ltb_lt in Hk. cbn [qcheck]. rewrite M. cbn [bind].
  rewrite <- Ls. fold (numbered_scores scores). set (L := sort_pairs _).
  destruct (keep_loop_spec bound (firstn k L) 0 (repeat false (length scores))) as (keep & E & Le & R).
  { apply Forall_firstn. apply (Permutation_Forall (sort_pairs_perm (numbered_scores scores))). rewrite numbered_map, repeat_length, Forall_map.
    apply Forall_forall. intros j H. apply in_seq in H. simpl. lia. }
  exists keep. split; auto. split; [rewrite Le, repeat_length; auto|]. intros i. rewrite R, nth_repeat_false. split.
  - intros [H|(r & s & H & Q)]; [discriminate|]. rewrite nth_error_firstn in H. destruct (r <? k) eqn:Er; [|discriminate].
    destruct (sorted_entry _ _ _ _ H) as [Hi ->]. split; auto. apply rank_position in H; auto. subst r. apply Nat.ltb_lt in Er.
    split; auto.
  - intros (Hi & Hr & Q). right. exists (rank scores i), (nth i scores 0%Z). split; auto. rewrite nth_error_firstn.
    apply Nat.ltb_lt in Hr. rewrite Hr. apply rank_position; auto.
Qed.

Lemma pick_arcs_spec (P : nat -> Prop) : forall arcs keep k, length keep = length arcs ->
  (forall i, nth i keep false = true <-> i < length arcs /\ P (k + i)) ->
  exists positions, StronglySorted lt positions /\ Forall2 (fun i a => k <= i /\ nth_error arcs (i - k) = Some a) positions (pick_arcs arcs keep) /\
    forall i, In i positions <-> k <= i < k + length arcs /\ P i.
Proof.
  induction arcs as [|a arcs IH]; intros [|b keep] k L H; try discriminate.
  { exists []. split; [constructor|]. split; [constructor|]. intros i. simpl. split; [intros []|lia]. }
  destruct (IH keep (S k)) as (ps & Sp & Fp & Ip); [simpl in L; lia| |].
  { intros i. specialize (H (S i)). simpl in H. rewrite H. replace (S k + i) with (k + S i) by lia. split; intros [? ?]; split; auto; lia. }
  assert (Forall2 (fun i x => k <= i /\ nth_error (a :: arcs) (i - k) = Some x) ps (pick_arcs arcs keep)) as Fp'.
  { clear - Fp. induction Fp as [|i x l l' [Hi Hx] F IHF]; constructor; auto. split; [lia|]. replace (i - k) with (S (i - S k)) by lia. auto. }
  pose proof (H 0) as H0. simpl in H0. rewrite Nat.add_0_r in H0. unfold pick_arcs in *. cbn [combine filter snd]. destruct b.
  - exists (k :: ps). split; [|split].
    + constructor; auto. apply Forall_forall. intros i I. apply Ip in I. lia.
    + cbn [map fst]. constructor; auto. rewrite Nat.sub_diag. auto.
    + intros i. simpl. rewrite Ip. split.
      * intros [<-|[? ?]]; [split; [lia|tauto]|split; auto; lia].
      * intros [? ?]. destruct (Nat.eq_dec k i); auto. right. split; auto. lia.
  - exists ps. split; auto. split; auto. intros i. rewrite Ip. cbn [length]. split; [intros [? ?]; split; auto; lia|].
    intros [? ?]. split; auto. destruct (Nat.eq_dec k i) as [->|]; [|lia]. exfalso.
    assert (false = true) by (apply H0; split; auto; lia). discriminate.
Qed.
Lemma pick_arcs_picks (P : nat -> Prop) arcs keep : length keep = length arcs ->
  (forall i, nth i keep false = true <-> i < length arcs /\ P i) -> picks P arcs (pick_arcs arcs keep).
Proof.
  intros L H. destruct (pick_arcs_spec P arcs keep 0 L H) as (ps & Sp & F & I). exists ps. split; auto. split.
  - clear - F. induction F as [|i a l l' [_ H] F IH]; constructor; auto. rewrite Nat.sub_0_r in H. auto.
  - intros i. rewrite I. simpl. intuition lia.
Qed.

Lemma sorted_NoDup ps : StronglySorted lt ps -> NoDup ps.
Proof.
  induction 1 as [|a l S IH F]; constructor; auto. intros I. rewrite Forall_forall in F. apply F in I. lia.
Qed.
Lemma NoDup_map_in {A B} (f : A -> B) l : (forall x y, In x l -> In y l -> f x = f y -> x = y) -> NoDup l -> NoDup (map f l).
Proof.
  induction l as [|a l IH]; intros H N; simpl; constructor; inversion N as [|? ? N1 N2]; subst.
  - intros I. apply in_map_iff in I. destruct I as (b & E & I). apply N1. rewrite (H a b); simpl; auto.
  - apply IH; auto. intros x y ? ?. apply H; simpl; auto.
Qed.
(** At most [k]; exactly [k] without bound. *)
Lemma picks_count {A} scores k bound (l out : list A) : length scores = length l -> picks (chosen scores k bound) l out ->
  length out <= k /\ (bound = None -> k <= length l -> length out = k).
Proof.
  intros L (ps & Sp & F & I).
  assert (length ps = length out) as Lp by (clear - F; induction F; simpl; auto).
  assert (NoDup (map (rank scores) ps)) as N.
  { apply NoDup_map_in; [|apply sorted_NoDup; auto]. intros x y Hx Hy. apply I in Hx, Hy. apply rank_inj; rewrite L; tauto. }
  assert (length (map (rank scores) ps) <= length (seq 0 k)) as Le.
  { apply NoDup_incl_length; auto. intros r H. apply in_map_iff in H. destruct H as (i & <- & H). apply I in H. apply in_seq. destruct H as (_ & H & _). lia. }
  rewrite map_length, seq_length in Le. split; [lia|]. intros -> Hk.
  assert (length (seq 0 k) <= length (map (rank scores) ps)) as Ge.
  { apply NoDup_incl_length; [apply seq_NoDup|]. intros r H. apply in_seq in H. destruct (rank_surj scores r) as (i & Hi & <-); [lia|].
    apply in_map. apply I. split; [lia|]. split; [lia|]. right. exact Logic.I. }
  rewrite map_length, seq_length in Ge. lia.
Qed.
(** The best stays. *)
Lemma picks_best {A} (score : A -> Z) k bound (l out : list A) : 0 < k -> l <> [] -> picks (chosen (map score l) k bound) l out ->
  exists a, In a out /\ forall b, In b l -> (score a <= score b)%Z.
Proof.
  intros Hk Nl (ps & Sp & F & I). destruct (rank_surj (map score l) 0) as (i & Hi & Er); [rewrite map_length; destruct l; [contradiction|simpl; lia]|].
  pose proof Hi as Hi'. rewrite map_length in Hi'.
  assert (In i ps) as Ip. { apply I. split; auto. split; [lia|]. auto. }
  assert (exists a, In a out /\ nth_error l i = Some a) as (a & Ia & Ea).
  { clear - F Ip. induction F as [|j b ps out H F IH]; [contradiction|]. destruct Ip as [->|Ip]; [exists b; simpl; auto|].
    destruct (IH Ip) as (a & ? & ?). exists a. simpl. auto. }
  exists a. split; auto. intros b Ib. apply In_nth_error in Ib. destruct Ib as (j & Eb).
  assert (j < length l) as Hj by (apply nth_error_Some; congruence).
  pose proof (rank_best _ _ Hi Er j) as B. rewrite map_length in B. specialize (B Hj).
  erewrite (nth_error_nth (map score l) i) in B by (apply map_nth_error; exact Ea).
  erewrite (nth_error_nth (map score l) j) in B by (apply map_nth_error; exact Eb). auto.
Qed.
Lemma picks_incl {A} P (l out : list A) : picks P l out -> incl out l.
Proof.
  intros (ps & _ & F & _) a I. induction F as [|i b ps out H F IH]; [contradiction|]. destruct I as [->|I]; auto. eapply nth_error_In; eauto.
Qed.

(** ** Filters *)
Lemma exceeds_spec {A} arcs k (x y : A) : (if exceeds arcs k then x else y) =
  if ((k <? 0) || (Z.of_nat (length arcs) <=? k))%Z then y else x.
Proof.
  unfold exceeds. destruct (Z.leb_spec 0 k), (Z.ltb_spec k 0); try lia; simpl; auto.
  destruct (Z.ltb_spec k (Z.of_nat (length arcs))), (Z.leb_spec (Z.of_nat (length arcs)) k); try lia; auto.
Qed.
Lemma arc_scores_weights arcs : Forall (fun a => (0 < ilabel a)%Z) arcs -> map_run (arc_score None) arcs = Fine (map weight arcs).
Proof.
  intros F. apply map_run_spec. induction F as [|a l H F IH]; constructor; auto. unfold arc_score. apply Z.ltb_lt in H. rewrite H. auto.
Qed.
Lemma prune_weights k bound arcs : Forall (fun a => (0 < ilabel a)%Z) arcs ->
  exists out, (if exceeds arcs k then bind (ApplyArcScoreThresh arcs (Z.to_nat k) bound None) (fun keep => Fine (pick_arcs arcs keep))
               else Fine arcs) = Fine out /\ pruned weight k bound arcs out.
Proof.
  intros F. rewrite exceeds_spec. unfold pruned. destruct ((k <? 0)%Z || (Z.of_nat (length arcs) <=? k)%Z) eqn:E; [eauto|].
  apply orb_false_iff in E. destruct E as [E1 E2]. apply Z.ltb_ge in E1. apply Z.leb_gt in E2.
  destruct (thresh_spec arcs (Z.to_nat k) bound None _ (arc_scores_weights arcs F)) as (keep & -> & L & H); [lia|].
  cbn [bind]. eexists. split; [reflexivity|]. apply pick_arcs_picks; auto.
Qed.
Lemma pruned_nonempty {A} (score : A -> Z) k bound l out : k <> 0%Z -> l <> [] -> pruned score k bound l out -> out <> [].
Proof.
  intros Nk Nl. unfold pruned. destruct ((k <? 0)%Z || (Z.of_nat (length l) <=? k)%Z) eqn:E; [congruence|]. intros P.
  apply orb_false_iff in E. destruct E as [E1 _]. apply Z.ltb_ge in E1.
  destruct (picks_best score (Z.to_nat k) bound l out) as (a & I & _); auto; [lia|]. destruct out; [contradiction|discriminate].
Qed.
Lemma connect_spec l : (Forall (fun p => p <> []) l -> connect l = Some l) /\ (Exists (fun p => p = []) l -> connect l = None).
Proof.
  unfold connect. split.
  - intros F. assert (existsb (fun arcs : list arc => match arcs with [] => true | _ => false end) l = false) as ->; auto.
    induction F as [|p l H F IH]; auto. simpl. rewrite IH. destruct p; auto. contradiction.
  - intros E. assert (existsb (fun arcs : list arc => match arcs with [] => true | _ => false end) l = true) as ->; auto.
    apply Exists_exists in E. destruct E as (p & I & ->). apply existsb_exists. exists []. auto.
Qed.
Lemma final_filter_spec k bound l : k <> 0%Z -> good_positions l ->
  exists l', ApplyFinalKBestFilter k bound l = Fine (Some l') /\ Forall2 (pruned weight k bound) l l'.
Proof.
  intros Nk G. unfold ApplyFinalKBestFilter.
  assert (exists l', map_run (fun arcs => if exceeds arcs k
            then bind (ApplyArcScoreThresh arcs (Z.to_nat k) bound None) (fun keep => Fine (pick_arcs arcs keep)) else Fine arcs) l = Fine l' /\
            Forall2 (pruned weight k bound) l l') as (l' & -> & F).
  { induction G as [|p l [Hp Hl] G IH]; [exists []; auto|]. destruct IH as (l' & E & F).
    destruct (prune_weights k bound p Hl) as (out & Eo & Po). exists (out :: l'). cbn [map_run]. rewrite Eo. cbn [bind]. rewrite E. auto. }
  cbn [bind]. exists l'. split; auto. f_equal. apply (proj1 (connect_spec l')). clear - G F Nk.
  induction F as [|p q l l' H F IH]; constructor; inversion G as [|? ? [G1 G2] G3]; subst; auto. eapply pruned_nonempty; eauto.
Qed.
Lemma final_filter_zero bound l : l <> [] -> good_positions l -> ApplyFinalKBestFilter 0 bound l = Fine None.
Proof.
  intros Nl G. unfold ApplyFinalKBestFilter.
  assert (exists l', map_run (fun arcs => if exceeds arcs 0
            then bind (ApplyArcScoreThresh arcs (Z.to_nat 0) bound None) (fun keep => Fine (pick_arcs arcs keep)) else Fine arcs) l = Fine l' /\
            Forall2 (pruned weight 0 bound) l l') as (l' & -> & F).
  { clear Nl. induction G as [|p l [Hp Hl] G IH]; [exists []; auto|]. destruct IH as (l' & E & F).
    destruct (prune_weights 0 bound p Hl) as (out & Eo & Po). exists (out :: l'). cbn [map_run]. rewrite Eo. cbn [bind]. rewrite E. auto. }
  cbn [bind]. f_equal. apply (proj2 (connect_spec l')). destruct F as [|p q l l' H F]; [contradiction|]. left.
  inversion G as [|? ? [G1 G2] _]; subst. unfold pruned in H. destruct (Z.leb_spec (Z.of_nat (length p)) 0).
  { destruct p; [contradiction|simpl in *; lia]. }
  simpl in H. destruct H as (ps & _ & Fp & I). destruct ps as [|i ps]; [inversion Fp; auto|].
  assert (In i (i :: ps)) as Ii by (left; auto). apply I in Ii. destruct Ii as (_ & (Hr & _)). lia.
Qed.

(** ** Labels *)
Lemma find_input_spec syms w n : find_sym w syms = Some n -> 0 < n -> find_input syms w = Fine (Z.of_nat n).
Proof. intros H P. unfold find_input. rewrite H. assert (0 <? Z.of_nat n = true)%Z as -> by (apply Z.ltb_lt; lia). auto. Qed.

Lemma at_nth {A} (l : list A) i d : i < length l -> at_ l i = Fine (nth i l d).
Proof. intros H. unfold at_. destruct (nth_error l i) eqn:E; [erewrite nth_error_nth; eauto|apply nth_error_None in E; lia]. Qed.
Lemma relabel_spec sym ids costs a : in_tables ids costs a -> relabel_arc sym ids costs a = Fine (relabelled sym ids costs a).
Proof.
  intros (P & Hc & Hi). unfold relabel_arc, index_. assert (ilabel a <? 0 = false)%Z as -> by (apply Z.ltb_ge; lia).
  rewrite (at_nth costs _ 0%Z) by auto. cbn [bind]. rewrite (at_nth ids _ 0%Z) by auto. reflexivity.
Qed.
Lemma arc_scores_costs ids costs arcs : Forall (in_tables ids costs) arcs -> map_run (arc_score (Some costs)) arcs = Fine (map (cost_of costs) arcs).
Proof.
  intros F. apply map_run_spec. induction F as [|a l (P & Hc & Hi) F IH]; constructor; auto. unfold arc_score.
  apply Z.ltb_lt in P. rewrite P. assert (ilabel a <? Z.of_nat (length costs) = true)%Z as -> by (apply Z.ltb_lt; lia). cbn [qcheck].
  apply at_nth. auto.
Qed.
Lemma assign_position_spec syms ids costs k bound w n arcs : find_sym w syms = Some n -> 0 < n -> Forall (in_tables ids costs) arcs ->
  exists kept, assign_position syms ids costs k bound w arcs = Fine (map (relabelled (Z.of_nat n) ids costs) kept) /\
    pruned (cost_of costs) k bound arcs kept.
Proof.
  intros Hf Hn F. unfold assign_position. rewrite (find_input_spec _ _ _ Hf Hn). cbn [bind]. rewrite exceeds_spec. unfold pruned.
  assert (forall kept, incl kept arcs -> map_run (relabel_arc (Z.of_nat n) ids costs) kept = Fine (map (relabelled (Z.of_nat n) ids costs) kept)) as R.
  { intros kept I. apply map_run_spec. rewrite Forall_forall in F. induction kept as [|a kept IH]; constructor.
    - apply relabel_spec. apply F, I. left; auto.
    - apply IH. intros b Ib. apply I. right; auto. }
  destruct ((k <? 0)%Z || (Z.of_nat (length arcs) <=? k)%Z) eqn:E.
  { exists arcs. split; auto. cbn [bind]. apply R. apply incl_refl. }
  apply orb_false_iff in E. destruct E as [E1 E2]. apply Z.ltb_ge in E1. apply Z.leb_gt in E2.
  destruct (thresh_spec arcs (Z.to_nat k) bound (Some costs) _ (arc_scores_costs ids costs arcs F)) as (keep & -> & L & H); [lia|].
  cbn [bind]. assert (picks (chosen (map (cost_of costs) arcs) (Z.to_nat k) bound) arcs (pick_arcs arcs keep)) as P by (apply pick_arcs_picks; auto).
  exists (pick_arcs arcs keep). split; auto. apply R. eapply picks_incl; eauto.
Qed.
Lemma assign_spec syms ids costs k bound line ws l : k <> 0%Z -> tokens line = Fine ws -> Forall (input_word_of syms) ws ->
  Forall (fun p => p <> [] /\ Forall (in_tables ids costs) p) l -> length ws = length l ->
  exists l', AssignLabelsAndCostsToTranslitLattice syms ids costs k bound line l = Fine (Some l') /\
    Forall2 (fun p out => assigned syms ids costs k bound (fst p) (snd p) out) (combine ws l) l'.
Proof.
  intros Nk T W G L. unfold AssignLabelsAndCostsToTranslitLattice. rewrite T. cbn [bind]. rewrite L, Nat.eqb_refl. cbn [qcheck].
  assert (exists l', map2_run (assign_position syms ids costs k bound) ws l = Fine l' /\ Forall (fun p => p <> []) l' /\
    Forall2 (fun p out => assigned syms ids costs k bound (fst p) (snd p) out) (combine ws l) l') as (l' & -> & N & F).
  { clear T. revert l G L. induction W as [|w ws (n & Hf & Hn) W IH]; intros [|p l] G L; try discriminate; [exists []; simpl; auto|].
    inversion G as [|? ? [Np Fp] G']; subst. destruct (IH l G' (f_equal pred L)) as (l' & E & N & F).
    destruct (assign_position_spec syms ids costs k bound w n p Hf Hn Fp) as (kept & Ek & Pk).
    exists (map (relabelled (Z.of_nat n) ids costs) kept :: l'). cbn [map2_run]. rewrite Ek. cbn [bind]. rewrite E. split; auto. split.
    - constructor; auto. apply (pruned_nonempty _ _ _ _ _ Nk Np) in Pk. destruct kept; [contradiction|discriminate].
    - cbn [combine]. constructor; auto. exists n, kept. auto. }
  cbn [bind]. exists l'. split; auto. f_equal. apply (proj1 (connect_spec l')). auto.
Qed.
