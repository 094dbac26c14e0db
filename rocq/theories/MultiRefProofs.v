From Verif Require Import Base Utf8Model Utf8Proofs KbestModel KbestProofs ErrorRateModel ErrorRateSpec EditProofs ErrorRateProofs.

(** ** The best reference *)
Definition better_eq (a b : edit_distance) : Prop := rate_le (Edits a) (reference_length a) (Edits b) (reference_length b).
Definition better (a b : edit_distance) : Prop := rate_lt (Edits a) (reference_length a) (Edits b) (reference_length b).

Lemma count_edits_length p : forall e, reference_length (count_edits p e) = reference_length e.
Proof.
  induction p as [|[i o] p IH]; intros e; [reflexivity|]. cbn [count_edits]. rewrite IH.
  destruct (negb (Nat.eqb i o)); auto. destruct (Nat.eqb i 0); auto. destruct (Nat.eqb o 0); auto.
Qed.
Lemma string_fst_length toks : forall syms, length (fst (GetStringFst toks syms)) = length toks.
Proof.
  induction toks as [|t toks IH]; intros syms; [reflexivity|]. cbn [GetStringFst].
  destruct (match find_sym t syms with Some i => (i, syms) | None => (length syms, syms ++ [t]) end) as [i syms1].
  specialize (IH syms1). destruct (GetStringFst toks syms1). simpl in *. lia.
Qed.
Lemma pair_length search ref test : reference_length (CalculatePairEditDistance search ref test) = length ref.
Proof.
  unfold CalculatePairEditDistance. pose proof (string_fst_length ref [epsilon_token]) as L.
  destruct (GetStringFst ref [epsilon_token]) as [rl s1]. destruct (GetStringFst test s1) as [tl s2].
  rewrite count_edits_length. exact L.
Qed.

Lemma better_spec a b : 0 < reference_length a -> 0 < reference_length b ->
  if BetterErrorValues a b then better a b else better_eq b a.
Proof.
  intros Ha Hb. unfold BetterErrorValues, better, better_eq, rate_lt, rate_le.
  destruct (reference_length a) as [|la]; [lia|]. destruct (reference_length b) as [|lb]; [lia|].
  destruct (Edits a * S lb <? Edits b * S la) eqn:E; [apply Nat.ltb_lt in E|apply Nat.ltb_ge in E]; lia.
Qed.
Lemma better_eq_trans a b c : 0 < reference_length b -> better_eq a b -> better_eq b c -> better_eq a c.
Proof. unfold better_eq, rate_le. intros. nia. Qed.
Lemma better_lt_le a b c : 0 < reference_length a -> 0 < reference_length b -> 0 < reference_length c ->
  better a b -> better_eq b c -> better a c.
Proof.
  unfold better, better_eq, rate_le, rate_lt. intros Ha Hb Hc H1 H2.
  assert (Edits a * reference_length b * reference_length c < Edits b * reference_length a * reference_length c) by nia.
  assert (Edits b * reference_length c * reference_length a <= Edits c * reference_length b * reference_length a) by nia.
  nia.
Qed.

Section Best.
  Variable search : list mod_arc -> list nat -> list nat -> list (nat * nat).
  Variable test : list str.
  Let D r := CalculatePairEditDistance search r test.

  Lemma best_loop refs : forall done b k, (forall r, In r (done ++ refs) -> r <> []) ->
    first_minimum better_eq better (map D done) k b ->
    exists e j, best_reference search test refs (Some b) = Some e /\
      first_minimum better_eq better (map D (done ++ refs)) j e.
  Proof.
    induction refs as [|r refs IH]; intros done b k NE F.
    - exists b, k. rewrite app_nil_r. auto.
    - cbn [best_reference]. fold (D r).
      assert (forall x, In x (map D (done ++ r :: refs)) -> 0 < reference_length x) as Pos.
      { intros x I. apply in_map_iff in I. destruct I as (q & <- & I). unfold D. rewrite pair_length.
        specialize (NE q I). destruct q; [contradiction|]. simpl. lia. }
      replace (done ++ r :: refs) with ((done ++ [r]) ++ refs) in * by (rewrite <- app_assoc; auto).
      destruct F as (Nk & Le & Lt).
      assert (In b (map D done)) as Ib by (eapply nth_error_In; eauto).
      assert (0 < reference_length b) as Pb by (apply Pos; rewrite !map_app, !in_app_iff; auto).
      assert (0 < reference_length (D r)) as Pr by (apply Pos; rewrite !map_app, !in_app_iff; simpl; auto).
      assert (forall x, In x (map D done) -> 0 < reference_length x) as Pd
        by (intros x I; apply Pos; rewrite !map_app, !in_app_iff; auto).
      pose proof (better_spec (D r) b Pr Pb) as B. destruct (BetterErrorValues (D r) b).
      + apply (IH (done ++ [r]) (D r) (length done)); auto. rewrite map_app. cbn [map]. split; [|split].
        * rewrite nth_error_app2; rewrite map_length; auto. rewrite Nat.sub_diag. auto.
        * intros x I. apply in_app_iff in I. destruct I as [I|[<-|[]]]; [|unfold better_eq, rate_le; lia].
          pose proof (better_lt_le _ _ _ Pr Pb (Pd x I) B (Le x I)) as H. unfold better, rate_lt in H. unfold better_eq, rate_le. lia.
        * intros j x Hj Nx. rewrite nth_error_app1 in Nx by (rewrite map_length; auto).
          apply nth_error_In in Nx. apply (better_lt_le _ _ _ Pr Pb (Pd x Nx) B). auto.
      + apply (IH (done ++ [r]) b k); auto. rewrite map_app. cbn [map]. 
        assert (k < length (map D done)) as Hk by (apply nth_error_Some; congruence). split; [|split].
        * rewrite nth_error_app1; auto.
        * intros x I. apply in_app_iff in I. destruct I as [I|[<-|[]]]; auto.
        * intros j x Hj Nx. rewrite nth_error_app1 in Nx by lia. eauto.
  Qed.
  Lemma best_found refs : refs <> [] -> (forall r, In r refs -> r <> []) ->
    exists e k, best_reference search test refs None = Some e /\ first_minimum better_eq better (map D refs) k e.
  Proof.
    intros N NE. destruct refs as [|r refs]; [contradiction|]. cbn [best_reference]. fold (D r).
    apply (best_loop refs [r] (D r) 0); auto. split; [reflexivity|]. split.
    - intros x [<-|[]]. unfold better_eq, rate_le. lia.
    - intros j x H. lia.
  Qed.
End Best.

Definition cost_le (a b : item) : Prop := (snd a <= snd b)%Z.
Definition cost_lt (a b : item) : Prop := (snd a < snd b)%Z.

Lemma min_cost_first items : items <> [] -> exists x, first_minimum cost_le cost_lt items (min_cost_item items) x.
Proof.
  assert (forall rest done k x, first_minimum cost_le cost_lt done k x ->
    exists y, first_minimum cost_le cost_lt (done ++ rest) (min_cost_loop rest (length done) (k, snd x)) y) as L.
  { induction rest as [|[t c] rest IH]; intros done k x F.
    - rewrite app_nil_r. exists x. exact F.
    - cbn [min_cost_loop snd]. destruct F as (Nk & Le & Lt).
      replace (done ++ (t, c) :: rest) with ((done ++ [(t, c)]) ++ rest) by (rewrite <- app_assoc; auto).
      assert (S (length done) = length (done ++ [(t, c)])) as -> by (rewrite app_length; simpl; lia).
      assert (k < length done) as Hk by (apply nth_error_Some; congruence).
      destruct (c <? snd x)%Z eqn:E; [apply Z.ltb_lt in E|apply Z.ltb_ge in E].
      + apply (IH (done ++ [(t, c)]) (length done) (t, c)). split; [|split].
        * rewrite nth_error_app2, Nat.sub_diag; auto.
        * intros y I. unfold cost_le. cbn [snd]. apply in_app_iff in I. destruct I as [I|[<-|[]]]; [|simpl; lia].
          specialize (Le y I). unfold cost_le in Le. lia.
        * intros j y Hj Ny. rewrite nth_error_app1 in Ny by lia. apply nth_error_In in Ny. specialize (Le y Ny).
          unfold cost_le in Le. unfold cost_lt. cbn [snd]. lia.
      + apply (IH (done ++ [(t, c)]) k x). split; [|split].
        * rewrite nth_error_app1; auto.
        * intros y I. apply in_app_iff in I. destruct I as [I|[<-|[]]]; auto.
        * intros j y Hj Ny. rewrite nth_error_app1 in Ny by lia. eauto. }
  intros N. destruct items as [|[t c] items]; [contradiction|]. cbn [min_cost_item].
  apply (L items [(t, c)] 0 (t, c)). split; [reflexivity|]. split.
  - intros x [<-|[]]. unfold cost_le. lia.
  - intros j x H. lia.
Qed.

(** ** Totals *)
Lemma totals_sum l : reference_length (totals l) = sum_of reference_length l /\
  substitutions (totals l) = sum_of substitutions l /\ insertions (totals l) = sum_of insertions l /\
  deletions (totals l) = sum_of deletions l /\ Edits (totals l) = sum_of Edits l.
Proof.
  assert (forall l a, reference_length (fold_left add_distance l a) = reference_length a + sum_of reference_length l /\
    substitutions (fold_left add_distance l a) = substitutions a + sum_of substitutions l /\
    insertions (fold_left add_distance l a) = insertions a + sum_of insertions l /\
    deletions (fold_left add_distance l a) = deletions a + sum_of deletions l /\
    sum_of Edits l = sum_of substitutions l + sum_of insertions l + sum_of deletions l) as G.
  { unfold sum_of. induction l0 as [|e l0 IH]; intros a; cbn [fold_left map list_sum].
    - repeat split; simpl; lia.
    - specialize (IH (add_distance a e)). destruct IH as (A & B & C & E & F).
      unfold list_sum in *. cbn [fold_right].
      rewrite A, B, C, E. cbn [add_distance reference_length substitutions insertions deletions].
      unfold Edits at 1. repeat split; try lia. }
  destruct (G l (EditDistance 0 0 0 0)) as (A & B & C & E & F). unfold totals, Edits at 1.
  rewrite A, B, C, E. cbn [reference_length substitutions insertions deletions]. repeat split; try lia.
Qed.

(** ** Reading *)
Lemma nth_nil {A} n (d : A) : nth n [] d = d.
Proof. destruct n; reflexivity. Qed.
Lemma push_at_nth idx : forall inputs x n, nth n (push_at inputs idx x) [] = nth n inputs [] ++ (if Nat.eqb idx n then [x] else []).
Proof.
  induction idx as [|idx IH]; intros [|l inputs] x [|n]; cbn [push_at nth Nat.eqb]; rewrite ?app_nil_r; auto.
  - destruct n; auto.
  - rewrite IH, nth_nil. auto.
Qed.
Lemma push_at_length idx : forall inputs x, length (push_at inputs idx x) = Nat.max (length inputs) (S idx).
Proof. induction idx as [|idx IH]; intros [|l inputs] x; cbn [push_at length]; rewrite ?IH; cbn [length]; lia. Qed.

Lemma read_lines lines n : nth n (ReadInputs lines) [] = lines_at lines n.
Proof.
  assert (forall lines acc, nth n (fold_left (fun acc l => push_at acc (fst l) (snd l)) lines acc) [] = nth n acc [] ++ lines_at lines n) as G.
  { induction lines0 as [|[i x] ls IH]; intros acc; cbn [fold_left fst snd].
    - unfold lines_at. simpl. rewrite app_nil_r. auto.
    - rewrite IH, push_at_nth. unfold lines_at. cbn [filter fst]. destruct (Nat.eqb i n); cbn [map snd];
        rewrite <- app_assoc; auto. }
  unfold ReadInputs. rewrite G, nth_nil. auto.
Qed.
Lemma read_length lines n : n < length (ReadInputs lines) <-> exists i x, In (i, x) lines /\ n <= i.
Proof.
  assert (forall lines acc, n < length (fold_left (fun acc l => push_at acc (fst l) (snd l)) lines acc) <->
    n < length acc \/ exists i x, In (i, x) lines /\ n <= i) as G.
  { induction lines0 as [|[i x] ls IH]; intros acc; cbn [fold_left fst snd].
    - split; auto. intros [H|(i & x & [] & _)]; auto.
    - rewrite IH, push_at_length. split.
      + intros [H|(j & y & I & H)]; [|right; exists j, y; simpl; auto].
        assert (n < length acc \/ n <= i) as [|] by lia; [auto|]. right. exists i, x. simpl. auto.
      + intros [H|(j & y & [E|I] & H)]; [left; lia| |right; exists j, y; auto].
        injection E as <- <-. left. lia. }
  unfold ReadInputs. rewrite G. simpl. split; [intros [H|H]; [lia|auto]|auto].
Qed.

(** ** Examples of a corpus *)
Definition blank_if_none (tests : list item) : list item :=
  match tests with [] => [(epsilon_token, 0%Z)] | _ => tests end.
Definition has_refs (p : list item * list item) : bool := match fst p with [] => false | _ => true end.

Lemma over_examples_spec {A} (calc : list item -> list item -> run A) references : forall test_input l,
  over_examples calc references test_input = Fine l <->
  length references = length test_input /\
  (forall p, In p (combine references test_input) -> fst p = [] -> snd p = []) /\
  Forall2 (fun p e => calc (fst p) (blank_if_none (snd p)) = Fine e)
    (filter has_refs (combine references test_input)) l.
Proof.
  induction references as [|refs references IH]; intros [|tests test_input] l; cbn [over_examples combine filter].
  - split.
    + intros [= <-]. repeat split; [intros p []|constructor].
    + intros (_ & _ & F). inversion F. auto.
  - split; [discriminate|intros (L & _); discriminate].
  - split; [discriminate|intros (L & _); discriminate].
  - fold (blank_if_none tests). destruct refs as [|r refs].
    + destruct tests as [|t tests]; unfold qcheck; cbn [has_refs fst].
      * rewrite IH. cbn [length]. split; intros (L & N & F).
        -- split; [lia|]. split; auto. intros p [<-|I]; auto.
        -- split; [lia|]. split; auto. intros p I. apply N. right. auto.
      * split; [discriminate|]. intros (_ & N & _). specialize (N ([], t :: tests) (or_introl eq_refl) eq_refl). discriminate.
    + unfold qcheck. cbn [has_refs fst].
      destruct (calc (r :: refs) (blank_if_none tests)) as [| | |e] eqn:Ec; cbn [bind].
      1-3: split; [discriminate|]; intros (_ & _ & F); inversion F as [|? ? ? ? H]; subst; cbn [fst snd] in H; congruence.
      destruct (over_examples calc references test_input) as [| | |es] eqn:Eo; cbn [bind].
      1-3: split; [discriminate|]; intros (L & N & F); inversion F as [|? ? ? ? H F']; subst;
        exfalso; assert (over_examples calc references test_input = Fine l') as X
          by (apply IH; split; [cbn [length] in L; lia|]; split; auto; intros p I; apply N; right; auto); congruence.
      destruct (proj1 (IH test_input es) Eo) as (L & N & F). split.
      * intros [= <-]. split; [simpl; lia|]. split; [|constructor; auto].
        intros p [<-|I]; [discriminate|auto].
      * intros (L' & N' & F'). inversion F' as [|? e' ? es' H F2]; subst. cbn [fst snd] in H.
        assert (Fine es = Fine es') as X by (rewrite <- Eo; apply IH; auto). congruence.
Qed.

(** ** Matrices *)
Lemma at_spec {A} (l : list A) i x : at_ l i = Fine x <-> nth_error l i = Some x.
Proof. unfold at_. destruct (nth_error l i); split; congruence. Qed.
Definition column (m : list (list nat)) (i : nat) : list nat := map (fun row => nth i row 0) m.

Lemma map_run_map {A B} (f : A -> run B) (g : A -> B) l : (forall a, In a l -> f a = Fine (g a)) ->
  map_run f l = Fine (map g l).
Proof.
  intros H. apply map_run_spec. induction l as [|a l IH]; constructor; [apply H; left; auto|]. apply IH. intros; apply H; right; auto.
Qed.
Lemma transpose_spec m c row0 rest : m = row0 :: rest -> rectangular m c ->
  TransposeMatrix m = Fine (map (column m) (seq 0 c)).
Proof.
  intros E R. unfold TransposeMatrix. rewrite E. rewrite <- E. rewrite (R row0) by (rewrite E; left; auto).
  apply map_run_map. intros i I. apply in_seq in I. apply map_run_map. intros row Ir.
  unfold at_. rewrite (nth_error_nth' row 0) by (rewrite (R row Ir); lia). auto.
Qed.

Lemma nth_error_repeat_zero n j : nth_error (repeat 0 n) j = if j <? n then Some 0 else None.
Proof.
  revert j. induction n as [|n IH]; intros [|j]; auto. cbn [repeat nth_error]. rewrite IH. reflexivity.
Qed.

Lemma nth_map_seq {A} (f : nat -> A) c i : nth_error (map f (seq 0 c)) i = if i <? c then Some (f i) else None.
Proof.
  destruct (i <? c) eqn:E; [apply Nat.ltb_lt in E|apply Nat.ltb_ge in E].
  - rewrite (map_nth_error f i (seq 0 c) (d := i)); auto. rewrite (nth_error_nth' _ 0) by (rewrite seq_length; auto).
    rewrite seq_nth by auto. auto.
  - apply nth_error_None. rewrite map_length, seq_length. auto.
Qed.

Lemma distances_spec dists c : dists <> [] -> rectangular dists c ->
  exists m, GetDistances dists = Fine m /\ length m = length dists + c /\ rectangular m (length dists + c) /\
    (forall i j, i < length dists -> j < c -> entry m i (length dists + j) = entry dists i j /\
                                             entry m (length dists + j) i = entry dists i j) /\
    (forall i j, i < length dists -> j < length dists -> entry m i j = Some 0) /\
    (forall i j, i < c -> j < c -> entry m (length dists + i) (length dists + j) = Some 0).
Proof.
  intros N R. destruct dists as [|row0 rest] eqn:E; [contradiction|]. rewrite <- E in *.
  assert (length row0 = c) as L0 by (apply R; rewrite E; left; auto).
  unfold GetDistances. rewrite E. rewrite <- E. rewrite (transpose_spec dists c row0 rest E R). cbn [bind]. rewrite L0.
  eexists. split; [reflexivity|].
  set (top := map (fun d => repeat 0 (length dists) ++ d) dists).
  set (bottom := map (fun t => t ++ repeat 0 c) (map (column dists) (seq 0 c))).
  assert (length top = length dists) as Lt by (unfold top; rewrite map_length; auto).
  assert (length bottom = c) as Lb by (unfold bottom; rewrite !map_length, seq_length; auto).
  assert (forall i, i < length dists -> exists row, nth_error dists i = Some row /\ length row = c) as Rows.
  { intros i Hi. destruct (nth_error dists i) as [row|] eqn:Er; [|apply nth_error_None in Er; lia].
    exists row. split; auto. apply R. eapply nth_error_In; eauto. }
  assert (forall i row, nth_error dists i = Some row -> nth_error (top ++ bottom) i = Some (repeat 0 (length dists) ++ row)) as Top.
  { intros i row Hr. assert (i < length dists) by (apply nth_error_Some; congruence).
    rewrite nth_error_app1 by lia. unfold top. erewrite map_nth_error; eauto. }
  assert (forall j, j < c -> nth_error (top ++ bottom) (length dists + j) = Some (column dists j ++ repeat 0 c)) as Bot.
  { intros j Hj. rewrite nth_error_app2 by lia. replace (length dists + j - length top) with j by lia.
    unfold bottom. rewrite map_map. rewrite nth_map_seq. apply Nat.ltb_lt in Hj. rewrite Hj. auto. }
  assert (forall j, length (column dists j) = length dists) as Lc by (intros; unfold column; rewrite map_length; auto).
  split; [rewrite app_length; lia|]. split; [|split; [|split]].
  - intros row I. apply in_app_iff in I. destruct I as [I|I].
    + unfold top in I. apply in_map_iff in I. destruct I as (d & <- & I). rewrite app_length, repeat_length, (R d I). auto.
    + unfold bottom in I. apply in_map_iff in I. destruct I as (d & <- & I). apply in_map_iff in I. destruct I as (j & <- & I).
      rewrite app_length, repeat_length, Lc. auto.
  - intros i j Hi Hj. destruct (Rows i Hi) as (row & Hr & Lr). unfold entry. rewrite (Top i row Hr), (Bot j Hj), Hr. split.
    + rewrite nth_error_app2; rewrite repeat_length; [|lia]. f_equal. lia.
    + rewrite nth_error_app1 by (rewrite Lc; auto). unfold column. rewrite (map_nth_error _ _ _ Hr).
      symmetry. apply nth_error_nth'. lia.
  - intros i j Hi Hj. destruct (Rows i Hi) as (row & Hr & Lr). unfold entry. rewrite (Top i row Hr).
    rewrite nth_error_app1; [|rewrite repeat_length; auto]. rewrite nth_error_repeat_zero. apply Nat.ltb_lt in Hj. rewrite Hj. auto.
  - intros i j Hi Hj. unfold entry. rewrite (Bot i Hi). rewrite nth_error_app2; rewrite Lc; [|lia].
    rewrite nth_error_repeat_zero. replace (length dists + j - length dists) with j by lia. apply Nat.ltb_lt in Hj. rewrite Hj. auto.
Qed.

(** ** One example *)
Section Example_.
  Variable search : list mod_arc -> list nat -> list nat -> list (nat * nat).
  Variable split_chars : bool.
  Let toks := GetTokenizedString split_chars.

  Lemma min_error refs tests test rs : refs <> [] -> toks tests (min_cost_item tests) = Fine test ->
    Forall2 (fun i r => toks refs i = Fine r) (seq 0 (length refs)) rs -> (forall r, In r rs -> r <> []) ->
    exists e k, CalculateMinErrorRate search split_chars refs tests = Fine e /\
      first_minimum better_eq better (map (fun r => CalculatePairEditDistance search r test) rs) k e.
  Proof.
    intros N Et Er NE. unfold CalculateMinErrorRate. fold toks. rewrite Et. cbn [bind].
    rewrite (map_run_spec _ _ _ Er). cbn [bind].
    destruct (best_found search test rs) as (e & k & E & F); auto.
    - intros ->. apply Forall2_len in Er. rewrite seq_length in Er. destruct refs; [contradiction|discriminate].
    - exists e, k. rewrite E. auto.
  Qed.

  Lemma pairwise_spec refs tests ts rs :
    Forall2 (fun i t => toks tests i = Fine t) (seq 0 (length tests)) ts ->
    Forall2 (fun i r => toks refs i = Fine r) (seq 0 (length refs)) rs ->
    CalculatePairwiseErrors search split_chars refs tests =
      Fine (map (fun t => map (fun r => CalculatePairEditDistanceValue search r t) rs) ts).
  Proof.
    intros Ft Fr. unfold CalculatePairwiseErrors. apply map_run_spec. fold toks. revert Ft.
    generalize (seq 0 (length tests)) as js. intros js Ft. induction Ft as [|i t js ts Ht Ft IH]; constructor; auto.
    rewrite Ht. cbn [bind]. apply map_run_spec. clear - Fr. induction Fr as [|j r js rs Hr Fr IH]; constructor; auto.
    rewrite Hr. reflexivity.
  Qed.
End Example_.

Lemma corpus_spec search split_chars references test_input l :
  CalculateErrorRate search split_chars references test_input = Fine l <->
  length references = length test_input /\
  (forall p, In p (combine references test_input) -> fst p = [] -> snd p = []) /\
  Forall2 (fun p e => CalculateMinErrorRate search split_chars (fst p) (blank_if_none (snd p)) = Fine e)
    (filter has_refs (combine references test_input)) l.
Proof.
  unfold CalculateErrorRate. destruct (Nat.eqb_spec (length references) (length test_input)) as [E|E]; unfold qcheck.
  - apply over_examples_spec.
  - split; [discriminate|]. intros (L & _). contradiction.
Qed.

Lemma reference_with_more_edits : exists search, (forall n, finds_best (align_mod n) (search (align_mod n))) /\
  exists refs tests e r test, CalculateMinErrorRate search true refs tests = Fine e /\
    GetTokenizedString true tests (min_cost_item tests) = Fine test /\
    GetTokenizedString true refs 0 = Fine r /\ r <> [] /\ CalculatePairEditDistanceValue search r test < Edits e.
Proof.
  exists (fun _ => lev). split; [intros; apply lev_best|].
  exists [([97], 0%Z); ([97; 98; 99; 100], 0%Z)]%N, [([97; 98], 0%Z)]%N.
  eexists. eexists. eexists.
  split; [vm_compute; reflexivity|]. split; [vm_compute; reflexivity|]. split; [vm_compute; reflexivity|].
  split; [discriminate|]. vm_compute. lia.
Qed.
Lemma blank_reference_ignored : exists search, (forall n, finds_best (align_mod n) (search (align_mod n))) /\
  exists refs tests e, CalculateMinErrorRate search true refs tests = Fine e /\
    GetTokenizedString true tests (min_cost_item tests) = Fine [] /\
    GetTokenizedString true refs 1 = Fine [] /\ Edits e = 1.
Proof.
  exists (fun _ => lev). split; [intros; apply lev_best|].
  exists [([97], 0%Z); ([32], 0%Z)]%N, [([32], 0%Z)]%N.
  eexists. repeat split; vm_compute; reflexivity.
Qed.
Lemma printing_skips : exists search, (forall n, finds_best (align_mod n) (search (align_mod n))) /\
  exists references test_input edits, CalculatePairwise search true references test_input = Fine edits /\
    printed_matrices references edits = OutOfRange.
Proof.
  exists (fun _ => lev). split; [intros; apply lev_best|].
  exists [[]; [([97], 0%Z)]]%N, [[]; [([98], 0%Z)]]%N. eexists. split; vm_compute; reflexivity.
Qed.
Lemma empty_example_gets_next : exists search, (forall n, finds_best (align_mod n) (search (align_mod n))) /\
  exists references test_input edits, CalculatePairwise search true references test_input = Fine edits /\
    nth_error references 0 = Some [] /\ exists row, bind (at_ edits 0) GetDistances = Fine row /\ row <> [].
Proof.
  exists (fun _ => lev). split; [intros; apply lev_best|].
  exists [[]; [([97], 0%Z)]]%N, [[]; [([98], 0%Z)]]%N. eexists. split; [vm_compute; reflexivity|].
  split; [reflexivity|]. eexists. split; [vm_compute; reflexivity|]. discriminate.
Qed.
Lemma epsilon_ignored (search : list mod_arc -> list nat -> list nat -> list (nat * nat)) :
  (forall n, finds_best (align_mod n) (search (align_mod n))) ->
  exists ref test, ref <> test /\ CalculatePairEditDistanceValue search ref test = 0.
Proof. intros B. exists [epsilon_token], []. split; [discriminate|]. apply epsilon_vanishes; auto. Qed.
Lemma search_exists : exists search : list mod_arc -> list nat -> list nat -> list (nat * nat),
  forall n, finds_best (align_mod n) (search (align_mod n)).
Proof. exists (fun _ => lev). intros. apply lev_best. Qed.
