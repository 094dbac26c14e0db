(** Rates and totals, lengths of references, and the text of a line. *)
From Coq Require Import QArith Lqa Setoid Morphisms.
From Verif Require Import Base Utf8Model Utf8Spec Utf8Proofs DelimModel DelimSpec DelimProofs KbestModel KbestProofs
  ErrorRateModel ErrorRateSpec ErrorRateProofs MultiRefProofs EmdModel EmdSpec EmdProofs.
Local Open Scope Q_scope.

(** ** Rates *)
Lemma divide_positive x y : 0 < y -> divide x y = Rate (x / y).
Proof.
  intros H. unfold divide. destruct (Qeq_bool y 0) eqn:E; [|reflexivity]. apply Qeq_bool_eq in E. lra.
Qed.
Lemma one_le (n : nat) : (1 <= n)%nat -> 1 <= inject_Z (Z.of_nat n).
Proof. intros H. unfold Qle. cbn. lia. Qed.
Lemma mean_length ref lens : ref <> [] -> all_positive ref -> length lens = length ref ->
  (forall n, In n lens -> (1 <= n)%nat) -> 1 <= sum (length ref) (fun j => share ref j * length_at lens j).
Proof.
  intros N P Hl H. rewrite <- (share_sum ref N P) at 1. apply sum_le. intros j Hj.
  assert (A : 1 <= length_at lens j) by (apply one_le, H, nth_In; rewrite Hl; exact Hj).
  pose proof (share_nonneg ref j N P) as B. rewrite <- (Qmult_1_r (share ref j)) at 1.
  rewrite (Qmult_comm (share ref j) 1), (Qmult_comm (share ref j) (length_at lens j)). apply Qmult_le_compat_r; assumption.
Qed.

Section Totals.
  Variable emd : list Q -> list Q -> list (list Q) -> Q * list (list Q).
  Definition edits_of (l : jline) := fst (emd_error_and_length emd l).
  Definition length_of (l : jline) := snd (emd_error_and_length emd l).
  Lemma tot_spec lines x y : fst (tot emd lines x y) == x + sum (length lines) (at_pos (map edits_of lines)) /\
    snd (tot emd lines x y) == y + sum (length lines) (at_pos (map length_of lines)).
  Proof.
    revert x y. induction lines as [|l lines IH]; intros x y; [cbn; split; ring|].
    cbn [tot]. destruct (emd_error_and_length emd l) as [e r] eqn:E. destruct (IH (x + e) (y + r)) as [A B].
    cbn [length map]. rewrite !sum_head, A, B.
    change (fun i => at_pos (edits_of l :: map edits_of lines) (S i)) with (at_pos (map edits_of lines)).
    change (fun i => at_pos (length_of l :: map length_of lines) (S i)) with (at_pos (map length_of lines)).
    change (at_pos (edits_of l :: map edits_of lines) 0) with (edits_of l).
    change (at_pos (length_of l :: map length_of lines) 0) with (length_of l).
    unfold edits_of at 2, length_of at 2. rewrite E. cbn [fst snd]. split; ring.
  Qed.
  Lemma tot_between lo hi lines x y : 0 <= y ->
    (forall l, In l lines -> 0 < length_of l /\ lo * length_of l <= edits_of l <= hi * length_of l) ->
    lo * y <= x <= hi * y ->
    (lines <> [] -> 0 < snd (tot emd lines x y)) /\ y <= snd (tot emd lines x y) /\
    lo * snd (tot emd lines x y) <= fst (tot emd lines x y) <= hi * snd (tot emd lines x y).
  Proof.
    revert x y. induction lines as [|l lines IH]; intros x y Y H B; [cbn; repeat split; try apply Qle_refl; try tauto; congruence|].
    cbn [tot]. destruct (H l (or_introl eq_refl)) as [P C]. unfold edits_of, length_of in P, C.
    destruct (emd_error_and_length emd l) as [e r]. cbn [fst snd] in P, C.
    destruct (IH (x + e) (y + r)) as [_ [I1 I2]].
    - lra.
    - intros k K. apply H. right. exact K.
    - assert (E1 : lo * (y + r) == lo * y + lo * r) by ring. assert (E2 : hi * (y + r) == hi * y + hi * r) by ring.
      rewrite E1, E2. lra.
    - split; [intros _; lra|]. split; [lra|exact I2].
  Qed.
  Lemma main_spec lines lo hi : lines <> [] ->
    (forall l, In l lines -> 0 < length_of l) ->
    (forall l, In l lines -> lo <= edits_of l / length_of l <= hi) ->
    map snd (fst (fst (main emd lines))) = map (fun l => Rate (edits_of l / length_of l)) lines /\
    exists q, snd (main emd lines) = Some (Rate q) /\ lo <= q <= hi /\
      q * sum (length lines) (at_pos (map length_of lines)) == sum (length lines) (at_pos (map edits_of lines)).
  Proof.
    intros N P B. split.
    - unfold main. cbn [fst]. rewrite map_map. apply map_ext_in. intros l Hl. unfold printed.
      pose proof (P l Hl) as Q. unfold edits_of, length_of in *. destruct (emd_error_and_length emd l) as [e r]. cbn [fst snd] in *.
      apply divide_positive, Q.
    - destruct (tot_between lo hi lines 0 0) as [T1 [_ T2]].
      + apply Qle_refl.
      + intros l Hl. split; [apply P, Hl|]. pose proof (P l Hl) as Q. destruct (B l Hl) as [B1 B2].
        assert (E : edits_of l == edits_of l / length_of l * length_of l) by (field; lra).
        split; rewrite E at 1; apply Qmult_le_compat_r; try assumption; apply Qlt_le_weak, Q.
      + rewrite !Qmult_0_r. split; apply Qle_refl.
      + specialize (T1 N). destruct (tot_spec lines 0 0) as [S1 S2]. rewrite Qplus_0_l in S1, S2.
        exists (fst (tot emd lines 0 0) / snd (tot emd lines 0 0)). unfold main. cbn [snd].
        split; [destruct lines; [congruence|]; f_equal; apply divide_positive, T1|]. split.
        * destruct T2 as [T2 T3]. split; [apply Qle_shift_div_l|apply Qle_shift_div_r]; assumption.
        * rewrite <- S1, <- S2. field. lra.
  Qed.
End Totals.
Lemma main_none emd : snd (main emd []) = None.
Proof. reflexivity. Qed.

(** ** Lengths *)
Lemma encoding_fun cs s s' : encoding cs s -> encoding cs s' -> s = s'.
Proof.
  intros [ps [H ->]] [ps' [H' ->]]. f_equal. revert ps' H'. induction H as [|c p cs ps E H IH]; intros ps' H'.
  - inversion H'. reflexivity.
  - inversion H' as [|? p' ? ps1 E' H1]; subst. f_equal; [exact (encodes_fun c p p' E E')|apply IH, H1].
Qed.
Lemma lengths_spec (cands : list item) (css : list (list N)) :
  Forall2 (fun (cand : item) cs => encoding cs (fst cand)) cands css -> GetLengths cands = Fine (map (@length N) css).
Proof.
  intros H. apply map_run_spec. induction H as [|cand cs cands css [ps E] H IH]; constructor; [|exact IH].
  destruct (split_all cs ps (fst cand) E) as [-> [_ [-> _]]]. reflexivity.
Qed.
Lemma tokens_word text cs z : encoding cs text -> cs <> [] -> Forall (fun c => ~ white_space c) cs ->
  text <> epsilon_token ->
  exists toks, GetTokenizedString true [(text, z)] 0 = Fine toks /\ length toks = length cs.
Proof.
  intros E N W Ne. unfold GetTokenizedString. cbn [nth_error].
  destruct (str_eqb text epsilon_token) eqn:Q; [apply str_eqb_eq in Q; contradiction|].
  unfold MaybeSplitChars, tokens. destruct (split_words cs text E) as [l [ts [Wl [-> F]]]].
  rewrite (words_unique _ _ _ _ Wl (words_stretch _ _ W N)) in F. inversion F as [|? t ? ts' E' F1]; subst.
  inversion F1; subst. rewrite (encoding_fun _ _ _ E' E). cbn [bind join_blank].
  destruct E as [ps E]. destruct (split_all cs ps text E) as [-> [_ [L _]]]. exists ps. split; [reflexivity|exact L].
Qed.
Lemma lengths_differ : exists (cand : item) n toks cand' n' toks',
  GetLengths [cand] = Fine [n] /\ GetTokenizedString true [cand] 0 = Fine toks /\ n = 9%nat /\ toks = [] /\
  GetLengths [cand'] = Fine [n'] /\ GetTokenizedString true [cand'] 0 = Fine toks' /\
  n' = 4%nat /\ length toks' = 3%nat.
Proof.
  exists (epsilon_token, 0%Z). do 2 eexists. exists ([97; 32; 32; 98]%N, 0%Z). do 2 eexists.
  split; [vm_compute; reflexivity|]. split; [vm_compute; reflexivity|]. split; [reflexivity|]. split; [reflexivity|].
  split; [vm_compute; reflexivity|]. split; [vm_compute; reflexivity|]. split; reflexivity.
Qed.

(** ** Text *)
Lemma cands_read cands : cands <> [] -> Forall (fun c => Forall plain_char (fst c) /\ number_text (snd c)) cands ->
  members number_text (cands_text true cands) cands.
Proof.
  assert (G : forall cands first, cands <> [] -> Forall (fun c => Forall plain_char (fst c) /\ number_text (snd c)) cands ->
    exists t, members number_text t cands /\
      cands_text first cands = ((if first then [] else [44; 32]%N) ++ t)%list).
  { clear cands. induction cands as [|[w v] cands IH]; intros first N F; [congruence|]. inversion F as [|? ? [Hw Hv] F']; subst.
    cbn [fst snd] in Hw, Hv. destruct cands as [|c cands].
    - exists (34%N :: w ++ 34%N :: (58 :: 32 :: v)%N). split; [apply members_one; [split; [reflexivity|exact Hw]|exact Hv]|].
      cbn [cands_text]. rewrite app_nil_r. destruct first; reflexivity.
    - destruct (IH false ltac:(discriminate) F') as [t [M E]].
      exists (34%N :: w ++ 34%N :: (58 :: 32 :: v ++ 44 :: 32 :: t)%N)%list.
      split; [apply (members_more _ _ w v t); [split; [reflexivity|exact Hw]|exact Hv|exact M]|].
      change (cands_text first ((w, v) :: c :: cands)) with
        ((if first then quote else comma ++ quote) ++ w ++ quote ++ [58; 32]%N ++ v ++ cands_text false (c :: cands))%list.
      rewrite E. destruct first; reflexivity. }
  intros N F. destruct (G cands true N F) as [t [M E]]. rewrite E. exact M.
Qed.
(** One word read as two *)
Lemma cands_misread : exists word prob w1 v1 w2 v2,
  number_text prob /\ members number_text (cands_text true [(word, prob)]) [(w1, v1); (w2, v2)].
Proof.
  exists [97; 34; 58; 32; 49; 44; 32; 34; 98]%N, [50]%N, [97]%N, [49]%N, [98]%N, [50]%N.
  assert (D : forall c, (48 <= c <= 57)%N -> number_text [c]).
  { intros c H. split; [discriminate|]. constructor; [left; exact H|constructor]. }
  split; [apply D; lia|].
  apply (members_more _ _ [97]%N [49]%N [34; 98; 34; 58; 32; 50]%N).
  - split; [reflexivity|]. constructor; [unfold plain_char; repeat split; lia|constructor].
  - apply D. lia.
  - apply members_one; [|apply D; lia]. split; [reflexivity|]. constructor; [unfold plain_char; repeat split; lia|constructor].
Qed.
Lemma join_more x y l : StrJoin (x :: y :: l) = (x ++ comma ++ StrJoin (y :: l))%list.
Proof. reflexivity. Qed.
Lemma join_app a b : a <> [] -> b <> [] -> (StrJoin [StrJoin a; StrJoin b] = StrJoin (a ++ b))%list.
Proof.
  intros Na Nb. induction a as [|x a IH]; [congruence|]. destruct a as [|y a].
  - destruct b as [|z b]; [congruence|]. reflexivity.
  - change ((x :: y :: a) ++ b)%list with (x :: (y :: a) ++ b)%list.
    change ((y :: a) ++ b)%list with (y :: (a ++ b))%list. rewrite !join_more.
    change (y :: (a ++ b))%list with ((y :: a) ++ b)%list. rewrite <- IH by discriminate.
    rewrite join_more. rewrite !app_assoc. reflexivity.
Qed.
Lemma join_elements l : l <> [] -> Forall number_text l -> elements number_text (StrJoin l) l.
Proof.
  induction l as [|v l IH]; intros N F; [congruence|]. inversion F as [|? ? Hv F']; subst. destruct l as [|w l].
  - apply elements_one, Hv.
  - rewrite join_more. apply (elements_more number_text v (StrJoin (w :: l)) (w :: l) Hv). apply IH; [discriminate|exact F'].
Qed.
Lemma bracketed_array a b : a <> [] -> b <> [] -> Forall number_text a -> Forall number_text b ->
  array (GetBracketedVectorString a b) (a ++ b).
Proof.
  intros Na Nb Fa Fb. exists (StrJoin (a ++ b)). split.
  - unfold GetBracketedVectorString. rewrite join_app by assumption. reflexivity.
  - apply join_elements; [destruct a; [congruence|discriminate]|apply Forall_app; split; assumption].
Qed.
(** The line of an example without references *)
Lemma elements_last t l : elements number_text t l -> forall u, t <> (u ++ [32%N])%list.
Proof.
  assert (K : forall v, number_text v -> forall u, v <> (u ++ [32%N])%list).
  { intros v [_ F] u ->. apply Forall_app in F. destruct F as [_ F]. inversion F as [|? ? H _]; subst.
    destruct H as [H|H]; [lia|]. cbn in H. repeat (destruct H as [H|H]; [discriminate|]). exact H. }
  intros H. induction H as [v Hv|v t l Hv H IH]; intros u E; [exact (K v Hv u E)|].
  destruct t as [|x t] using rev_ind.
  - inversion H as [? N|? ? ? N]; subst; [destruct N; congruence|destruct v0; discriminate].
  - apply (IH t). f_equal. 
    assert (E' : ((v ++ 44%N :: 32%N :: t) ++ [x] = u ++ [32%N])%list) by (rewrite <- E, <- app_assoc; reflexivity).
    apply app_inj_tail in E'. destruct E' as [_ ->]. reflexivity.
Qed.
Lemma bracketed_not_array a l : ~ array (GetBracketedVectorString a []) l.
Proof.
  intros [u [E H]]. unfold GetBracketedVectorString in E.
  change (StrJoin [StrJoin a; StrJoin []]) with (StrJoin a ++ [44; 32]%N ++ [])%list in E. rewrite app_nil_r in E.
  cbn [app] in E. injection E as E. apply app_inj_tail in E. destruct E as [E _].
  apply (elements_last u l H (StrJoin a ++ [44%N])). rewrite <- E, <- app_assoc. reflexivity.
Qed.

(** ** Checking a flow *)
Definition all_below (n : nat) (f : nat -> bool) : bool := forallb f (seq 0 n).
Lemma all_below_spec n f : all_below n f = true -> forall i, (i < n)%nat -> f i = true.
Proof. intros H i Hi. apply (proj1 (forallb_forall f _) H). apply in_seq. lia. Qed.
Definition flow_ok (p1 p2 : list Q) (D : list (list Q)) (r : Q * list (list Q)) (u v : list Q) : bool :=
  let n := length p1 in
  Nat.eqb (length (snd r)) n && forallb (fun row => Nat.eqb (length row) n) (snd r) &&
  all_below n (fun i => all_below n (fun j => Qle_bool 0 (at_cell (snd r) i j) && Qle_bool (at_pos u i + at_pos v j) (at_cell D i j))) &&
  all_below n (fun i => Qeq_bool (sum n (at_cell (snd r) i)) (at_pos p1 i) && Qeq_bool (sum n (fun k => at_cell (snd r) k i)) (at_pos p2 i)) &&
  Qeq_bool (fst r) (cost n n (at_cell (snd r)) (at_cell D)) &&
  Qeq_bool (fst r) (sum n (fun i => at_pos p1 i * at_pos u i) + sum n (fun j => at_pos p2 j * at_pos v j)).
Lemma flow_ok_spec p1 p2 D r u v : flow_ok p1 p2 D r u v = true -> best_flow p1 p2 D r.
Proof.
  unfold flow_ok. intros H. repeat (apply andb_prop in H; let X := fresh in destruct H as [H X]).
  set (n := length p1) in *. apply Nat.eqb_eq in H.
  assert (M : moves n n (at_pos p1) (at_pos p2) (at_cell (snd r))).
  { split; [|split].
    - intros i j Hi Hj. pose proof (all_below_spec _ _ (all_below_spec _ _ H3 i Hi) j Hj) as K.
      cbn beta in K. apply andb_prop in K. apply Qle_bool_iff, K.
    - intros i Hi. pose proof (all_below_spec _ _ H2 i Hi) as K. apply andb_prop in K. apply Qeq_bool_eq, K.
    - intros i Hi. pose proof (all_below_spec _ _ H2 i Hi) as K. apply andb_prop in K. apply Qeq_bool_eq, K. }
  apply Qeq_bool_eq in H0. apply Qeq_bool_eq in H1.
  split; [split; [exact H|]|split; [exact M|split; [exact H1|]]].
  - intros row K. apply Nat.eqb_eq. exact (proj1 (forallb_forall _ _) H4 row K).
  - assert (LC : least_cost n n (at_pos p1) (at_pos p2) (at_cell D) (cost n n (at_cell (snd r)) (at_cell D))).
    { apply (least_certificate n n _ _ _ _ (at_pos u) (at_pos v) M).
      - intros i j Hi Hj. pose proof (all_below_spec _ _ (all_below_spec _ _ H3 i Hi) j Hj) as K.
        cbn beta in K. apply andb_prop in K. apply Qle_bool_iff, K.
      - rewrite <- H0, <- H1. reflexivity. }
    intros g Hg. destruct LC as [_ LC]. pose proof (LC g Hg) as K. 
    apply Qle_trans with (2 := K). apply Qle_lteq. right. assumption.
Qed.
