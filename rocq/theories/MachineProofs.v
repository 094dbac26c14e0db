From Verif Require Import Base MachineModel.
From Coq Require Import Lia.

(** ** Maps *)
Lemma tfind_empty {A} p : tfind p (@Empty A) = None.
Proof. destruct p; reflexivity. Qed.
Lemma tfind_tadd {A} p (x : A) : forall t q, tfind q (tadd p x t) = if Pos.eqb q p then Some x else tfind q t.
Proof.
  induction p as [p IH|p IH|]; intros t q; destruct t as [|l v r]; destruct q as [q|q|]; cbn [tadd tfind Pos.eqb]; try reflexivity; rewrite ?IH, ?tfind_empty; reflexivity.
Qed.
Lemma tget_tadd {A} p (x : list A) t q : tget q (tadd p x t) = if Pos.eqb q p then x else tget q t.
Proof. unfold tget. rewrite tfind_tadd. destruct (Pos.eqb q p); reflexivity. Qed.
Lemma tget_empty {A} p : tget p (@Empty (list A)) = [].
Proof. unfold tget. rewrite tfind_empty. reflexivity. Qed.
Lemma some_in_iff {A} (f : A -> bool) l : some_in f l = true <-> exists x, In x l /\ f x = true.
Proof.
  induction l as [|y l IH]; cbn [some_in].
  - split; [discriminate|intros (x & [] & _)].
  - destruct (f y) eqn:E.
    + split; [intros _; exists y; split; [left; reflexivity|exact E]|reflexivity].
    + rewrite IH. split; intros (x & H & F); [exists x; split; [right; exact H|exact F]|]. destruct H as [<-|H]; [congruence|exists x; split; assumption].
Qed.
Lemma all_in_iff {A} (f : A -> bool) l : all_in f l = true <-> forall x, In x l -> f x = true.
Proof.
  induction l as [|y l IH]; cbn [all_in].
  - split; [intros _ x []|reflexivity].
  - destruct (f y) eqn:E.
    + rewrite IH. split; [intros H x [<-|K]; [exact E|exact (H x K)]|intros H x K; apply H; right; exact K].
    + split; [discriminate|intros H; specialize (H y (or_introl eq_refl)); congruence].
Qed.
Lemma key_inj c d : key c = key d -> c = d.
Proof. unfold key. intros H. apply N.succ_inj. rewrite <- !N.succ_pos_spec. congruence. Qed.

(** A list from a number on *)
Fixpoint pidx {A} (n : positive) (l : list A) (p : positive) : option A :=
  match l with [] => None | x :: r => if Pos.eqb p n then Some x else pidx (Pos.succ n) r p end.
Lemma tfind_tlist {A} (l : list A) : forall n p, tfind p (tlist n l) = pidx n l p.
Proof.
  induction l as [|x l IH]; intros n p; cbn [tlist pidx]; [apply tfind_empty|]. rewrite tfind_tadd, IH. reflexivity.
Qed.
Lemma pidx_in {A} (l : list A) : forall n p x, pidx n l p = Some x -> In x l /\ (n <= p)%positive.
Proof.
  induction l as [|y l IH]; intros n p x; cbn [pidx]; [discriminate|]. destruct (Pos.eqb p n) eqn:E.
  - apply Pos.eqb_eq in E. subst p. intros H. injection H as ->. split; [left; reflexivity|lia].
  - intros H. apply IH in H as [H L]. split; [right; exact H|lia].
Qed.
Lemma pidx_map {A B} (f : A -> B) l : forall n p, pidx n (map f l) p = option_map f (pidx n l p).
Proof. induction l as [|x l IH]; intros n p; cbn [pidx map option_map]; [reflexivity|]. destruct (Pos.eqb p n); [reflexivity|apply IH]. Qed.

(** ** Lists of states *)
Section Explore.
Variables S L : Type.
Variable eqb : S -> S -> bool.
Variable hash : S -> positive.
Variable expand : S -> list (L * S).
Hypothesis eqb_eq : forall s s', eqb s s' = true -> s = s'.
Lemma in_bucket_in s l n : in_bucket S eqb s l = Some n -> In (s, n) l.
Proof.
  induction l as [|[s' m] l IH]; cbn [in_bucket]; [discriminate|]. destruct (eqb s s') eqn:E.
  - intros H. injection H as ->. apply eqb_eq in E. subst s'. left. reflexivity.
  - intros H. right. exact (IH H).
Qed.
Lemma in_index l : forall n h s m, In (s, m) (tget h (make_index S hash n l)) -> pidx n l m = Some s /\ (n <= m)%positive.
Proof.
  induction l as [|s0 l IH]; intros n h s m; cbn [make_index pidx]; [rewrite tget_empty; intros []|].
  unfold enter. rewrite tget_tadd. destruct (Pos.eqb h (hash s0)) eqn:E.
  - intros [H|H].
    + injection H as -> ->. rewrite Pos.eqb_refl. split; [reflexivity|lia].
    + apply IH in H as [H K]. destruct (Pos.eqb m n) eqn:Q; [apply Pos.eqb_eq in Q; lia|]. split; [exact H|lia].
  - intros H. apply IH in H as [H K]. destruct (Pos.eqb m n) eqn:Q; [apply Pos.eqb_eq in Q; lia|]. split; [exact H|lia].
Qed.
Lemma look_up_pidx l s m : look_up S eqb hash (make_index S hash 1 l) s = Some m -> pidx 1 l m = Some s.
Proof. unfold look_up. intros H. apply in_bucket_in in H. apply in_index in H as [H _]. exact H. Qed.
Lemma explore_spec f : forall t done todo, Forall (fun p => snd p = expand (fst p)) done ->
  Forall (fun p => snd p = expand (fst p)) (explore S L eqb hash expand f t done todo) /\ exists l, explore S L eqb hash expand f t done todo = rev done ++ l.
Proof.
  induction f as [|f IH]; intros t done todo F; cbn [explore].
  - split; [apply Forall_rev; exact F|exists []; rewrite app_nil_r; reflexivity].
  - destruct todo as [|s r].
    + split; [apply Forall_rev; exact F|exists []; rewrite app_nil_r; reflexivity].
    + destruct (all_new S L eqb hash (expand s) t []) as [t' new]. destruct (IH t' ((s, expand s) :: done) (r ++ rev new)) as [A (l & E)].
      * constructor; [reflexivity|exact F].
      * split; [exact A|]. rewrite E. cbn [rev]. exists ((s, expand s) :: l). rewrite <- app_assoc. reflexivity.
Qed.
Lemma reached_first f s : 0 < f -> exists l, reached_from S L eqb hash expand f s = (s, expand s) :: l.
Proof.
  destruct f as [|f]; [lia|]. intros _. unfold reached_from. cbn [explore]. destruct (all_new S L eqb hash (expand s) _ []) as [t' new].
  destruct (explore_spec f t' [(s, expand s)] ([] ++ rev new)) as [_ (l & E)]; [constructor; [reflexivity|constructor]|]. exists l. exact E.
Qed.
Lemma reached_expand f s : Forall (fun p => snd p = expand (fst p)) (reached_from S L eqb hash expand f s).
Proof. unfold reached_from. apply explore_spec. constructor. Qed.
Lemma all_some_forall2 {A B} (g : A -> option B) l : forall r, all_some (map g l) = Some r -> Forall2 (fun x y => g x = Some y) l r.
Proof.
  induction l as [|x l IH]; intros r; cbn [map all_some].
  - intros H. injection H as <-. constructor.
  - destruct (g x) as [y|] eqn:E; [|discriminate]. destruct (all_some (map g l)) as [r'|]; [|discriminate]. cbn. intros H. injection H as <-. constructor; [exact E|apply IH; reflexivity].
Qed.
Lemma forall2_pidx {A B} (R : A -> B -> Prop) l r : Forall2 R l r -> forall n p,
  match pidx n l p, pidx n r p with Some x, Some y => R x y | None, None => True | _, _ => False end.
Proof.
  induction 1 as [|x y l r H F IH]; intros n p; cbn [pidx]; [exact I|]. destruct (Pos.eqb p n); [exact H|apply IH].
Qed.
Lemma forall2_in {A B} (R : A -> B -> Prop) l r : Forall2 R l r -> (forall x, In x l -> exists y, In y r /\ R x y) /\ (forall y, In y r -> exists x, In x l /\ R x y).
Proof.
  induction 1 as [|x y l r H F [IH1 IH2]]; [split; intros z []|]. split.
  - intros z [<-|K]; [exists y; split; [left; reflexivity|exact H]|]. destruct (IH1 z K) as (u & U & V). exists u. split; [right; exact U|exact V].
  - intros z [<-|K]; [exists x; split; [left; reflexivity|exact H]|]. destruct (IH2 z K) as (u & U & V). exists u. split; [right; exact U|exact V].
Qed.
Lemma row_in l e r : row S L eqb hash (make_index S hash 1 l) e = Some r ->
  (forall a s, In (a, s) e -> exists m, In (a, m) r /\ pidx 1 l m = Some s) /\
  (forall a m, In (a, m) r -> exists s, In (a, s) e /\ pidx 1 l m = Some s).
Proof.
  unfold row. intros H. apply all_some_forall2, forall2_in in H as [H1 H2]. split.
  - intros a s K. destruct (H1 _ K) as ([a' m] & M & E). cbn [fst snd] in E. destruct (look_up S eqb hash (make_index S hash 1 l) s) as [m'|] eqn:Q; [|discriminate].
    cbn in E. injection E as <- <-. exists m'. split; [exact M|apply look_up_pidx; exact Q].
  - intros a m K. destruct (H2 _ K) as ([a' s] & M & E). cbn [fst snd] in E. destruct (look_up S eqb hash (make_index S hash 1 l) s) as [m'|] eqn:Q; [|discriminate].
    cbn in E. injection E as -> ->. exists s. split; [exact M|apply look_up_pidx; exact Q].
Qed.
End Explore.

(** ** Runs *)
Section Runs.
Variable Q : Type.
Variable delta : Q -> N -> list (str * N * Q).
Variable final : Q -> list (str * N).
Lemma runs_step q c x o w : In (o, w) (runs Q delta final q (c :: x)) <->
  exists o1 w1 q' o2 w2, In (o1, w1, q') (delta q c) /\ In (o2, w2) (runs Q delta final q' x) /\ o = o1 ++ o2 /\ w = (w1 + w2)%N.
Proof.
  cbn [runs]. rewrite in_flat_map. split.
  - intros ([[o1 w1] q'] & D & H). apply in_map_iff in H as ([o2 w2] & E & H). injection E as <- <-. exists o1, w1, q', o2, w2. repeat split; assumption.
  - intros (o1 & w1 & q' & o2 & w2 & D & H & -> & ->). exists (o1, w1, q'). split; [exact D|]. apply in_map_iff. exists (o2, w2). split; [reflexivity|exact H].
Qed.
End Runs.
Lemma least_exists (l : list (str * N)) p : In p l -> exists q, In q l /\ forall r, In r l -> (snd q <= snd r)%N.
Proof.
  revert p. induction l as [|x l IH]; intros p; [intros []|]. intros _. destruct l as [|y l].
  - exists x. split; [left; reflexivity|]. intros r [<-|[]]. lia.
  - destruct (IH y (or_introl eq_refl)) as (q & Hq & Lq). destruct (N.le_gt_cases (snd x) (snd q)) as [L|L].
    + exists x. split; [left; reflexivity|]. intros r [<-|H]; [lia|]. specialize (Lq r H). lia.
    + exists q. split; [right; exact Hq|]. intros r [<-|H]; [lia|exact (Lq r H)].
Qed.

(** ** Numbered automata *)
Lemma str_eqb_eq' a b : str_eqb a b = true <-> a = b.
Proof. apply str_eqb_eq. Qed.
Lemma arc_eqb_eq x y : arc_eqb x y = true -> x = y.
Proof.
  destruct x as [[o w] q], y as [[o' w'] q']. cbn. destruct (Pos.eqb q q') eqn:E1; [|discriminate]. destruct (N.eqb w w') eqn:E2; [|discriminate]. intros E3.
  apply Pos.eqb_eq in E1. apply N.eqb_eq in E2. apply str_eqb_eq in E3. congruence.
Qed.
Lemma group_in l : forall o w c q, In (o, w, q) (tget (key c) (group l)) <-> In (o, w, c, q) l.
Proof.
  induction l as [|[[[o0 w0] c0] q0] l IH]; intros o w c q; cbn [group]; [rewrite tget_empty; reflexivity|].
  destruct (some_in (arc_eqb (o0, w0, q0)) (tget (key c0) (group l))) eqn:S.
  - rewrite IH. split; [intros H; right; exact H|]. intros [H|H]; [|exact H]. injection H as -> -> -> ->. apply some_in_iff in S as (y & Y & E). apply arc_eqb_eq in E. subst y. apply IH. exact Y.
  - rewrite tget_tadd. destruct (Pos.eqb (key c) (key c0)) eqn:E.
    + apply Pos.eqb_eq, key_inj in E. subst c0. cbn [In]. rewrite IH. split; (intros [H|H]; [left|right; exact H]); congruence.
    + rewrite IH. split; [intros H; right; exact H|]. intros [H|H]; [|exact H]. injection H as -> -> -> ->. rewrite Pos.eqb_refl in E. discriminate.
Qed.
Definition nruns (A : nfa) : positive -> str -> list (str * N) := runs positive (ndelta A) (nfinal A).

(** ** Distances *)
Lemma make_dists_in l p q a b : In (q, a, b) (tget p (make_dists l)) <-> In (q, p, a, b) l.
Proof.
  induction l as [|[[[q0 p0] a0] b0] l IH]; cbn [make_dists fold_right]; [rewrite tget_empty; reflexivity|]. fold (make_dists l).
  rewrite tget_tadd. destruct (Pos.eqb p p0) eqn:E.
  - apply Pos.eqb_eq in E. subst p0. cbn [In]. rewrite IH. split; (intros [H|H]; [left|right; exact H]); congruence.
  - rewrite IH. split; [intros H; right; exact H|]. intros [H|H]; [|exact H]. injection H as -> -> -> ->. rewrite Pos.eqb_refl in E. discriminate.
Qed.
Section Dists.
Variable A : nfa.
Variable alphabet : list N.
Variable l : list (positive * positive * N * N).
Notation D := (make_dists l).
Hypothesis covers : forall q c p, In p (ndelta A q c) -> In c alphabet.
Hypothesis checked : forall q p a b, In (q, p, a, b) l -> check_dist A D alphabet p (q, a, b) = true.
Lemma dist_sound x : forall p q a b, In (q, a, b) (tget p D) -> forall o w, In (o, w) (nruns A p x) ->
  exists o' w', In (o', w') (nruns A q x) /\ (w' + b <= w + a)%N.
Proof.
  induction x as [|c x IH]; intros p q a b H o w R.
  - apply make_dists_in, checked in H. unfold check_dist in H.
    destruct (all_in _ (nfinal A p)) eqn:F; [|discriminate]. rewrite all_in_iff in F. specialize (F _ R). cbn in F.
    apply some_in_iff in F as ([o' w'] & K & L). apply N.leb_le in L. exists o', w'. split; assumption.
  - pose proof H as H'. apply make_dists_in, checked in H. unfold check_dist in H.
    destruct (all_in _ (nfinal A p)) eqn:F; [|discriminate]. rewrite all_in_iff in H. clear F.
    apply runs_step in R as (o1 & w1 & p' & o2 & w2 & Dp & R & -> & ->). specialize (H c (covers _ _ _ Dp)).
    destruct (ndelta A p c) as [|a0 lp] eqn:E; [destruct Dp|]. rewrite <- E in *. rewrite all_in_iff in H. specialize (H _ Dp). cbn in H.
    apply some_in_iff in H as ([[o1' w1'] q'] & Dq & C). unfold closer in C.
    destruct (if Pos.eqb q' p' then N.leb (w1' + b) (w1 + a) else false) eqn:S.
    + destruct (Pos.eqb q' p') eqn:T; [|discriminate]. apply Pos.eqb_eq in T. subst q'. apply N.leb_le in S.
      exists (o1' ++ o2), (w1' + w2)%N. split; [|lia]. apply runs_step. exists o1', w1', p', o2, w2. repeat split; assumption.
    + apply some_in_iff in C as ([[q2 a'] b'] & K & C). destruct (Pos.eqb q' q2) eqn:T; [|discriminate]. apply Pos.eqb_eq in T. subst q2. apply N.leb_le in C.
      destruct (IH p' q' a' b' K o2 w2 R) as (o2' & w2' & R' & L). exists (o1' ++ o2'), (w1' + w2')%N. split; [|lia]. apply runs_step. exists o1', w1', q', o2', w2'. repeat split; assumption.
Qed.

(** ** Configurations *)
Definition results (k : list item) (x : str) : list (str * N) :=
  flat_map (fun '(q, o, w) => map (fun '(o1, w1) => (o ++ o1, (w + w1)%N)) (nruns A q x)) k.
Definition best_of (r : list (str * N)) (o : str) : Prop := exists w, In (o, w) r /\ forall p, In p r -> (w <= snd p)%N.
Lemma results_in k x o w : In (o, w) (results k x) <-> exists q o1 w1 o2 w2, In (q, o1, w1) k /\ In (o2, w2) (nruns A q x) /\ o = o1 ++ o2 /\ w = (w1 + w2)%N.
Proof.
  unfold results. rewrite in_flat_map. split.
  - intros ([[q o1] w1] & K & H). apply in_map_iff in H as ([o2 w2] & E & H). injection E as <- <-. exists q, o1, w1, o2, w2. repeat split; assumption.
  - intros (q & o1 & w1 & o2 & w2 & K & H & -> & ->). exists (q, o1, w1). split; [exact K|]. apply in_map_iff. exists (o2, w2). split; [reflexivity|exact H].
Qed.
Lemma successors_in k c q o w : In (q, o, w) (successors A k c) <-> exists p o1 w1 o2 w2, In (p, o1, w1) k /\ In (o2, w2, q) (ndelta A p c) /\ o = o1 ++ o2 /\ w = (w1 + w2)%N.
Proof.
  unfold successors. rewrite in_flat_map. split.
  - intros ([[p o1] w1] & K & H). apply in_map_iff in H as ([[o2 w2] q'] & E & H). injection E as <- <- <-. exists p, o1, w1, o2, w2. repeat split; assumption.
  - intros (p & o1 & w1 & o2 & w2 & K & H & -> & ->). exists (p, o1, w1). split; [exact K|]. apply in_map_iff. exists (o2, w2, q). split; [reflexivity|exact H].
Qed.
Lemma results_step k c x o w : In (o, w) (results k (c :: x)) <-> In (o, w) (results (successors A k c) x).
Proof.
  rewrite !results_in. split.
  - intros (q & o1 & w1 & o2 & w2 & K & H & -> & ->). apply runs_step in H as (o3 & w3 & q' & o4 & w4 & Dq & H & -> & ->).
    exists q', (o1 ++ o3), (w1 + w3)%N, o4, w4. rewrite app_assoc, N.add_assoc. repeat split; [|exact H]. apply successors_in. exists q, o1, w1, o3, w3. repeat split; assumption.
  - intros (q' & o1 & w1 & o4 & w4 & K & H & -> & ->). apply successors_in in K as (q & o2 & w2 & o3 & w3 & K & Dq & -> & ->).
    exists q, o2, w2, (o3 ++ o4), (w3 + w4)%N. rewrite <- app_assoc, N.add_assoc. repeat split; [exact K|]. apply runs_step. exists o3, w3, q', o4, w4. repeat split; assumption.
Qed.
Lemma row_successors_eq k c : row_successors (item_rows A k) (key c) = successors A k c.
Proof.
  induction k as [|[[q o] w] k IH]; [reflexivity|]. unfold item_rows, successors in *. cbn [flat_map]. unfold ndelta at 1. destruct (tfind q A) as [[t f]|] eqn:E.
  - cbn [app row_successors]. unfold tget. destruct (tfind (key c) t) as [arcs|]; rewrite IH; reflexivity.
  - cbn [app map]. exact IH.
Qed.
(** Pruning keeps the best results *)
Lemma item_eqb_eq x y : item_eqb x y = true -> x = y.
Proof.
  destruct x as [[o w] q], y as [[o' w'] q']. cbn. destruct (Pos.eqb o o') eqn:E1; [|discriminate]. destruct (N.eqb q q') eqn:E2; [|discriminate]. intros E3.
  apply Pos.eqb_eq in E1. apply N.eqb_eq in E2. apply str_eqb_eq in E3. congruence.
Qed.
Lemma config_eqb_eq k : forall k', config_eqb k k' = true -> k = k'.
Proof.
  induction k as [|x k IH]; intros [|y k']; cbn [config_eqb]; try discriminate; [reflexivity|]. destruct (item_eqb x y) eqn:E; [|discriminate]. intros H.
  apply item_eqb_eq in E. apply IH in H. congruence.
Qed.
Lemma sort_in_in x k y : In y (sort_in x k) <-> y = x \/ In y k.
Proof.
  induction k as [|z k IH]; cbn [sort_in].
  - cbn. split; intros [H|[]]; left; congruence.
  - destruct (item_eqb x z) eqn:E.
    + apply item_eqb_eq in E. subst z. cbn. split; [intros H; right; exact H|intros [ ->|H]; [left; reflexivity|exact H]].
    + destruct (Pos.leb _ _); cbn [In].
      * split; (intros [H|H]; [left; congruence|right; exact H]).
      * rewrite IH. tauto.
Qed.
Lemma prune_in k x : In x (prune D k) <-> In x k /\ worse D k x = false.
Proof.
  unfold prune. transitivity (In x (filter (fun x => negb (worse D k x)) k)).
  - generalize (filter (fun x => negb (worse D k x)) k) as f. intros f. induction f as [|y f IH]; cbn [fold_right]; [reflexivity|]. rewrite sort_in_in, IH. cbn. split; (intros [H|H]; [left; congruence|right; exact H]).
  - rewrite filter_In. destruct (worse D k x); cbn; intuition discriminate.
Qed.
Lemma worse_sound k p o1 w1 x o2 w2 : worse D k (p, o1, w1) = true -> In (o2, w2) (nruns A p x) -> exists o w, In (o, w) (results k x) /\ (w < w1 + w2)%N.
Proof.
  intros H R. unfold worse in H. destruct (some_in _ k) eqn:S.
  - apply some_in_iff in S as ([[q o'] w'] & K & E). destruct (Pos.eqb q p) eqn:T; [|discriminate]. apply Pos.eqb_eq in T. subst q. apply N.ltb_lt in E.
    exists (o' ++ o2), (w' + w2)%N. split; [|lia]. apply results_in. exists p, o', w', o2, w2. repeat split; assumption.
  - clear S. destruct (tget p D) as [|d ds] eqn:T; [discriminate|]. rewrite <- T in *. apply some_in_iff in H as ([[q a] b] & K & S).
    apply some_in_iff in S as ([[q' o'] w'] & I' & C). destruct (Pos.eqb q q') eqn:E; [|discriminate]. apply Pos.eqb_eq in E. subst q'. apply N.ltb_lt in C.
    destruct (dist_sound x p q a b K o2 w2 R) as (o3 & w3 & R3 & L). exists (o' ++ o3), (w' + w3)%N. split; [|lia]. apply results_in. exists q, o', w', o3, w3. repeat split; assumption.
Qed.
Lemma prune_best k x o : best_of (results (prune D k) x) o <-> best_of (results k x) o.
Proof.
  assert (Sub : forall p, In p (results (prune D k) x) -> In p (results k x)).
  { intros [o' w']. rewrite !results_in. intros (q & o1 & w1 & o2 & w2 & K & H). apply prune_in in K as [K _]. exists q, o1, w1, o2, w2. split; assumption. }
  assert (Keep : forall o' w', In (o', w') (results k x) -> (forall p, In p (results k x) -> (w' <= snd p)%N) -> In (o', w') (results (prune D k) x)).
  { intros o' w' H M. pose proof H as H0. apply results_in in H as (q & o1 & w1 & o2 & w2 & K & R & -> & ->). apply results_in. exists q, o1, w1, o2, w2. repeat split; try assumption.
    apply prune_in. split; [exact K|]. destruct (worse D k (q, o1, w1)) eqn:W; [|reflexivity]. destruct (worse_sound _ _ _ _ _ _ _ W R) as (o3 & w3 & R3 & L). specialize (M _ R3). cbn in M. lia. }
  split.
  - intros (w & H & M). exists w. split; [exact (Sub _ H)|]. intros p Hp. destruct (least_exists _ _ Hp) as ([o0 w0] & H0 & M0).
    specialize (M _ (Keep _ _ H0 M0)). specialize (M0 _ Hp). cbn in *. lia.
  - intros (w & H & M). exists w. split; [exact (Keep _ _ H M)|]. intros p Hp. exact (M _ (Sub _ Hp)).
Qed.
(** Certain output and common cost *)
Lemma lcp_prefix a : forall b, exists r s, a = lcp a b ++ r /\ b = lcp a b ++ s.
Proof.
  induction a as [|x a IH]; intros b; cbn [lcp]; [exists [], b; split; reflexivity|]. destruct b as [|y b]; [exists (x :: a), []; split; reflexivity|].
  destruct (N.eqb x y) eqn:E; [|exists (x :: a), (y :: b); split; reflexivity]. apply N.eqb_eq in E. subst y. destruct (IH b) as (r & s & E1 & E2). exists r, s. cbn. rewrite <- E1, <- E2. split; reflexivity.
Qed.
Lemma fold_lcp (k : list item) : forall a, (exists r, a = fold_left (fun a '(_, o', _) => lcp a o') k a ++ r) /\
  forall q o (w : N), In (q, o, w) k -> exists r, o = fold_left (fun a '(_, o', _) => lcp a o') k a ++ r.
Proof.
  induction k as [|[[q0 o0] w0] k IH]; intros a; cbn [fold_left].
  - split; [exists []; rewrite app_nil_r; reflexivity|intros q o w []].
  - destruct (IH (lcp a o0)) as [(r & E) H]. destruct (lcp_prefix a o0) as (r1 & s1 & E1 & E2). split.
    + exists (r ++ r1). rewrite app_assoc, <- E. exact E1.
    + intros q o w [K|K]; [|exact (H q o w K)]. injection K as -> -> ->. exists (r ++ s1). rewrite app_assoc, <- E. exact E2.
Qed.
Lemma config_lcp_spec k q o w : In (q, o, w) k -> exists r, o = config_lcp k ++ r.
Proof.
  destruct k as [|[[q0 o0] w0] k]; [intros []|]. cbn [config_lcp]. destruct (fold_lcp k o0) as [H1 H2]. intros [H|H]; [injection H as -> -> ->; exact H1|exact (H2 q o w H)].
Qed.
Lemma fold_min (k : list item) : forall a, (fold_left (fun a '(_, _, w') => N.min a w') k a <= a)%N /\
  forall q o w, In (q, o, w) k -> (fold_left (fun (a : N) '(_, _, w') => N.min a w') k a <= w)%N.
Proof.
  induction k as [|[[q0 o0] w0] k IH]; intros a; cbn [fold_left]; [split; [lia|intros q o w []]|]. destruct (IH (N.min a w0)) as [H1 H2]. split; [lia|].
  intros q o w [K|K]; [|exact (H2 q o w K)]. injection K as -> -> ->. lia.
Qed.
Lemma config_min_spec k q o w : In (q, o, w) k -> (config_min k <= w)%N.
Proof.
  destruct k as [|[[q0 o0] w0] k]; [intros []|]. cbn [config_min]. destruct (fold_min k w0) as [H1 H2]. intros [H|H]; [injection H as -> -> ->; exact H1|exact (H2 q o w H)].
Qed.
Lemma shift_results k x o w : let pre := config_lcp k in let m := config_min k in
  In (o, w) (results k x) <-> exists o' w', In (o', w') (results (shift pre m k) x) /\ o = pre ++ o' /\ w = (m + w')%N.
Proof.
  intros pre m. rewrite results_in. split.
  - intros (q & o1 & w1 & o2 & w2 & K & H & -> & ->). destruct (config_lcp_spec k q o1 w1 K) as (r & E). pose proof (config_min_spec k q o1 w1 K) as L. fold pre in E. fold m in L.
    exists (r ++ o2), (w1 - m + w2)%N. split; [|split; [rewrite E at 1; rewrite app_assoc; reflexivity|lia]].
    apply results_in. exists q, r, (w1 - m)%N, o2, w2. repeat split; [|exact H]. unfold shift. apply in_map_iff. exists (q, o1, w1). split; [|exact K]. rewrite E. rewrite skipn_app, skipn_all, Nat.sub_diag. reflexivity.
  - intros (o' & w' & H & -> & ->). apply results_in in H as (q & o1 & w1 & o2 & w2 & K & H & -> & ->). unfold shift in K. apply in_map_iff in K as ([[q0 o0] w0] & E & K). injection E as <- <- <-.
    destruct (config_lcp_spec k q0 o0 w0 K) as (r & E). pose proof (config_min_spec k q0 o0 w0 K) as L. fold pre in E. fold m in L.
    exists q0, o0, w0, o2, w2. repeat split; [exact K|exact H| |lia]. rewrite E. rewrite skipn_app, skipn_all, Nat.sub_diag. cbn. rewrite <- app_assoc. reflexivity.
Qed.
Lemma shift_best k x o : let pre := config_lcp k in let m := config_min k in
  best_of (results k x) o <-> exists o', best_of (results (shift pre m k) x) o' /\ o = pre ++ o'.
Proof.
  intros pre m. split.
  - intros (w & H & M). apply shift_results in H as (o' & w' & H & -> & ->). exists o'. split; [|reflexivity]. exists w'. split; [exact H|].
    intros [o1 w1] H1. assert (In (pre ++ o1, (m + w1)%N) (results k x)) as H2 by (apply shift_results; exists o1, w1; repeat split; exact H1). specialize (M _ H2). cbn [snd] in *. fold m in M. lia.
  - intros (o' & (w & H & M) & ->). exists (m + w)%N. split; [apply shift_results; exists o', w; repeat split; exact H|].
    intros [o1 w1] H1. apply shift_results in H1 as (o2 & w2 & H2 & -> & ->). specialize (M _ H2). cbn [snd] in *. fold m. lia.
Qed.
Lemma expand_config_in k c pre k' : In (c, pre, k') (expand_config A D alphabet k) <->
  In c alphabet /\ successors A k c <> [] /\ pre = config_lcp (prune D (successors A k c)) /\ k' = shift pre (config_min (prune D (successors A k c))) (prune D (successors A k c)).
Proof.
  unfold expand_config. rewrite in_flat_map. split.
  - intros (c' & H & K). rewrite row_successors_eq in K. destruct (successors A k c') as [|i r] eqn:E; [destruct K|]. rewrite <- E in K. destruct K as [K|[]]. injection K as <- <- <-.
    split; [exact H|]. split; [congruence|]. split; reflexivity.
  - intros (H & NE & -> & ->). exists c. split; [exact H|]. rewrite row_successors_eq. destruct (successors A k c) as [|i r] eqn:E; [congruence|]. left. reflexivity.
Qed.
Lemma config_finals_in k : config_finals A k = results k [].
Proof. reflexivity. Qed.
Lemma fold_least r : forall a, (let m := fold_left (fun a b : str * N => if N.ltb (snd b) (snd a) then b else a) r a in In m (a :: r)).
Proof.
  induction r as [|b r IH]; intros a; cbn [fold_left]; [left; reflexivity|]. destruct (N.ltb (snd b) (snd a)).
  - specialize (IH b). cbn in IH |- *. tauto.
  - specialize (IH a). cbn in IH |- *. tauto.
Qed.
Lemma config_final_spec k f : config_final A k = Some f -> forall o, f = Some o <-> best_of (results k []) o.
Proof.
  unfold config_final. rewrite config_finals_in. generalize (results k []) as r. intros [|[o w] r]; intros H o1.
  - injection H as <-. split; [discriminate|intros (w & [] & _)].
  - pose proof (fold_least r (o, w)) as F. cbv zeta in F. destruct (fold_left _ r (o, w)) as [o0 w0]. destruct (all_in _ _) eqn:E; [|discriminate]. injection H as <-. rewrite all_in_iff in E.
    assert (M : forall p, In p ((o, w) :: r) -> (w0 < snd p)%N \/ p = (o0, w0)).
    { intros [o' w'] K. specialize (E _ K). cbn in E. destruct (N.ltb w0 w') eqn:L; [left; apply N.ltb_lt in L; exact L|]. destruct (N.eqb w0 w') eqn:Q; [|discriminate].
      right. apply N.eqb_eq in Q. apply str_eqb_eq in E. congruence. }
    split.
    + intros K. injection K as <-. exists w0. split; [exact F|]. intros p K. destruct (M p K) as [L| ->]; cbn; lia.
    + intros (w1 & K & L). specialize (L _ F). cbn in L. destruct (M _ K) as [Q|Q]; [cbn in Q; lia|]. congruence.
Qed.
(** ** The machine *)
Lemma make_row_some r c o j : tfind (key c) (make_row r) = Some (o, j) -> In (c, o, j) r.
Proof.
  induction r as [|[[c0 o0] j0] r IH]; cbn [make_row fold_right]; [rewrite tfind_empty; discriminate|]. fold (make_row r). rewrite tfind_tadd. destruct (Pos.eqb (key c) (key c0)) eqn:E.
  - apply Pos.eqb_eq, key_inj in E. subst c0. intros H. injection H as <- <-. left. reflexivity.
  - intros H. right. exact (IH H).
Qed.
Lemma make_row_none r c o j : tfind (key c) (make_row r) = None -> In (c, o, j) r -> False.
Proof.
  induction r as [|[[c0 o0] j0] r IH]; cbn [make_row fold_right]; [intros _ []|]. fold (make_row r). rewrite tfind_tadd. destruct (Pos.eqb (key c) (key c0)) eqn:E; [discriminate|].
  intros H [K|K]; [|exact (IH H K)]. injection K as -> -> ->. rewrite Pos.eqb_refl in E. discriminate.
Qed.
Section Machine.
Variable ks : list (list item * list (N * str * list item)).
Variable rows : list (trie (str * positive) * option str).
Hypothesis expanded : Forall (fun p => snd p = expand_config A D alphabet (fst p)) ks.
Hypothesis made : config_rows A ks = Some rows.
Notation M := (tlist 1 rows).
Lemma machine_row i k : pidx 1 (map fst ks) i = Some k -> exists r f, tfind i M = Some (make_row r, f) /\
  row _ _ config_eqb config_hash (make_index _ config_hash 1 (map fst ks)) (expand_config A D alphabet k) = Some r /\ config_final A k = Some f.
Proof.
  intros H. rewrite pidx_map in H. destruct (pidx 1 ks i) as [[k0 e]|] eqn:E; [|discriminate]. cbn in H. injection H as ->.
  pose proof made as Hm. unfold config_rows in Hm. apply all_some_forall2 in Hm. pose proof (forall2_pidx _ _ _ Hm 1 i) as F. rewrite E in F. rewrite tfind_tlist. destruct (pidx 1 rows i) as [y|]; [|destruct F]. cbn [fst snd] in F.
  apply pidx_in in E as [E _]. rewrite Forall_forall in expanded. specialize (expanded _ E). cbn in expanded. subst e.
  destruct (row _ _ _ _ _ _) as [r|]; [|discriminate]. destruct (config_final A k) as [f|]; [|discriminate]. injection F as <-. exists r, f. repeat split.
Qed.
Lemma best_none k x : results k x = [] -> forall o, ~ best_of (results k x) o.
Proof. intros E o (w & H & _). rewrite E in H. destruct H. Qed.
Lemma srun_best x : forall i k, pidx 1 (map fst ks) i = Some k -> forall o, srun M i x = Some o <-> best_of (results k x) o.
Proof.
  induction x as [|c x IH]; intros i k H o; destruct (machine_row i k H) as (r & f & Hf & Hr & Hc); cbn [srun]; rewrite Hf.
  - apply config_final_spec. exact Hc.
  - assert (Step : best_of (results k (c :: x)) o <-> best_of (results (prune D (successors A k c)) x) o).
    { rewrite prune_best. unfold best_of. split; intros (w & K & L); exists w; (split; [apply results_step; exact K|]); intros [o' w'] K'; apply (L (o', w')); apply results_step; exact K'. }
    rewrite Step. clear Step. apply (row_in _ _ _ _ config_eqb_eq) in Hr as [R1 R2]. destruct (tfind (key c) (make_row r)) as [[o1 j]|] eqn:T.
    + apply make_row_some in T. destruct (R2 _ _ T) as (k' & E & P). apply expand_config_in in E as (_ & _ & -> & ->). rewrite shift_best. split.
      * destruct (srun M j x) as [o2|] eqn:Q; [|discriminate]. cbn. intros K. injection K as <-. exists o2. split; [apply (IH _ _ P); exact Q|reflexivity].
      * intros (o2 & K & ->). apply (IH _ _ P) in K. rewrite K. reflexivity.
    + split; [discriminate|]. intros (w & K & _). exfalso.
      apply results_in in K as (q & o1 & w1 & o2 & w2 & K & _). apply prune_in in K as [K _]. assert (NE : successors A k c <> []) by (intros Q; rewrite Q in K; destruct K).
      apply successors_in in K as (p & o3 & w3 & o4 & w4 & _ & K & _). pose proof (covers _ _ _ K) as Ca.
      destruct (R1 (c, config_lcp (prune D (successors A k c))) (shift (config_lcp (prune D (successors A k c))) (config_min (prune D (successors A k c))) (prune D (successors A k c)))) as (m & Q & _).
      { apply expand_config_in. repeat split; assumption. }
      exact (make_row_none _ _ _ _ T Q).
Qed.
(** Letters of the machine are in the alphabet *)
Lemma machine_alphabet i t f c y : tfind i M = Some (t, f) -> tfind (key c) t = Some y -> In c alphabet.
Proof.
  rewrite tfind_tlist. intros H K. pose proof made as Hm. unfold config_rows in Hm. apply all_some_forall2 in Hm. pose proof (forall2_pidx _ _ _ Hm 1 i) as F. rewrite H in F.
  destruct (pidx 1 ks i) as [[k e]|] eqn:E; [|destruct F]. cbn [fst snd] in F. apply pidx_in in E as [E _]. rewrite Forall_forall in expanded. specialize (expanded _ E). cbn in expanded. subst e.
  destruct (row _ _ _ _ _ _) as [r|] eqn:Hr; [|discriminate]. destruct (config_final A k) as [f'|]; [|discriminate]. injection F as <- <-.
  destruct y as [o j]. apply make_row_some in K. apply (row_in _ _ _ _ config_eqb_eq) in Hr as [_ R2]. destruct (R2 _ _ K) as (k' & Q & _). apply expand_config_in in Q as (Q & _). exact Q.
Qed.
End Machine.
End Dists.

(** ** One machine after the other *)
Section Inverse.
Variables F G : machine.
Variable alphabet : list N.
Hypothesis covers : forall i t f c y, tfind i F = Some (t, f) -> tfind (key c) t = Some y -> In c alphabet.
Lemma srun_feed y : forall g z g' y', feed G g y = Some (z, g') -> srun G g (y ++ y') = option_map (app z) (srun G g' y').
Proof.
  induction y as [|c y IH]; intros g z g' y' H; cbn [feed app srun] in *.
  - injection H as <- <-. destruct (srun G g y'); reflexivity.
  - destruct (tfind g G) as [[t f]|]; [|discriminate]. destruct (tfind (key c) t) as [[o g1]|]; [|discriminate]. destruct (feed G g1 y) as [[o' g2]|] eqn:E; [|discriminate]. injection H as <- <-.
    rewrite (IH _ _ _ y' E). destruct (srun G g2 y'); cbn; [rewrite app_assoc|]; reflexivity.
Qed.
Lemma cut_spec p s r : cut p s = Some r -> s = p ++ r.
Proof.
  unfold cut. revert s. induction p as [|c p IH]; intros s.
  - cbn. intros H. injection H as ->. reflexivity.
  - destruct s as [|d s]; cbn [prefixb length skipn]; [discriminate|]. destruct (N.eqb c d) eqn:E; cbn; [|discriminate]. apply N.eqb_eq in E. subst d. intros H. rewrite (IH s H). reflexivity.
Qed.
Definition closed (l : list triple) : Prop := forall s r, In s l -> In r (triple_step F G alphabet s) -> exists s', r = Some s' /\ In s' l.
Lemma closed_inverse l : closed l -> (forall s, In s l -> triple_end F G s = true) ->
  forall x f g pend y, In (f, g, pend) l -> srun F f x = Some y -> srun G g y = Some (pend ++ x).
Proof.
  intros C E. induction x as [|c x IH]; intros f g pend y H R; cbn [srun] in R; destruct (tfind f F) as [[t fin]|] eqn:T; try discriminate.
  - specialize (E _ H). unfold triple_end in E. rewrite T in E. subst fin. destruct (feed G g y) as [[z g']|] eqn:Fd; [|discriminate]. destruct (tfind g' G) as [[t' [z'|]]|] eqn:T'; try discriminate.
    apply str_eqb_eq in E. pose proof (srun_feed _ _ _ _ [] Fd) as Q. rewrite app_nil_r in Q. rewrite Q. cbn [srun]. rewrite T'. cbn. rewrite E, app_nil_r. reflexivity.
  - destruct (tfind (key c) t) as [[y1 f']|] eqn:K; [|discriminate]. destruct (srun F f' x) as [y2|] eqn:R2; [|discriminate]. cbn in R. injection R as <-.
    destruct (C _ (match feed G g y1 with
         | None => None
         | Some (z, g') => match cut z (pend ++ [c]) with Some pend' => Some (f', g', pend') | None => None end
         end) H) as (s' & Q & I').
    { unfold triple_step. rewrite T. apply in_flat_map. exists c. split; [exact (covers _ _ _ _ _ T K)|]. rewrite K. left. reflexivity. }
    destruct (feed G g y1) as [[z g']|] eqn:Fd; [|discriminate]. destruct (cut z (pend ++ [c])) as [pend'|] eqn:Cu; [|discriminate]. injection Q as <-.
    rewrite (srun_feed _ _ _ _ y2 Fd), (IH _ _ _ _ I' R2). cbn. apply cut_spec in Cu. rewrite app_assoc, <- Cu, <- app_assoc. reflexivity.
Qed.
Lemma in_tset_put T s s' : in_tset (put_tset T s) s' = true -> s' = s \/ in_tset T s' = true.
Proof.
  destruct s as [[f g] p], s' as [[f' g'] p']. unfold in_tset, put_tset. rewrite tget_tadd. destruct (Pos.eqb f' f) eqn:E; [|intros H; right; exact H].
  cbn [some_in]. apply Pos.eqb_eq in E. subst f'. destruct (if Pos.eqb g' g then str_eqb p' p else false) eqn:Q; [|intros H; right; exact H].
  intros _. left. destruct (Pos.eqb g' g) eqn:Q1; [|discriminate]. apply Pos.eqb_eq in Q1. apply str_eqb_eq in Q. congruence.
Qed.
Lemma fold_tset l : forall T acc (P : triple -> Prop), (forall s, in_tset T s = true -> P s \/ In s acc) ->
  let '(T', new) := fold_left (fun '(T0, acc) s' => if in_tset T0 s' then (T0, acc) else (put_tset T0 s', s' :: acc)) l (T, acc) in
  (forall s, in_tset T' s = true -> P s \/ In s new) /\ (forall s, In s l -> P s \/ In s new) /\ (forall s, In s acc -> In s new).
Proof.
  induction l as [|s l IH]; intros T acc P H; cbn [fold_left].
  - repeat split; [exact H|intros s []|intros s K; exact K].
  - destruct (in_tset T s) eqn:E.
    + specialize (IH T acc P H). destruct (fold_left _ l (T, acc)) as [T' new]. destruct IH as (I1 & I2 & I3). repeat split; [exact I1| |exact I3].
      intros s' [<-|K]; [|exact (I2 _ K)]. destruct (H _ E) as [Q|Q]; [left; exact Q|right; exact (I3 _ Q)].
    + specialize (IH (put_tset T s) (s :: acc) P). destruct (fold_left _ l (put_tset T s, s :: acc)) as [T' new]. destruct IH as (I1 & I2 & I3).
      * intros s' K. apply in_tset_put in K as [ ->|K]; [right; left; reflexivity|]. destruct (H _ K) as [Q|Q]; [left; exact Q|right; right; exact Q].
      * repeat split; [exact I1| |intros s' K; apply I3; right; exact K]. intros s' [<-|K]; [right; apply I3; left; reflexivity|exact (I2 _ K)].
Qed.
Lemma all_some_in {A} (l : list (option A)) : forall r, all_some l = Some r -> forall x, In x l -> exists y, x = Some y /\ In y r.
Proof.
  induction l as [|[a|] l IH]; intros r; cbn [all_some]; [intros _ x []| |discriminate]. destruct (all_some l) as [r'|]; [|discriminate]. cbn. intros H. injection H as <-. intros x [<-|K].
  - exists a. split; [reflexivity|left; reflexivity].
  - destruct (IH r' eq_refl x K) as (y & -> & Y). exists y. split; [reflexivity|right; exact Y].
Qed.
Lemma grow_spec fuel : forall T done todo T' done',
  (forall s, in_tset T s = true -> In s done \/ In s todo) ->
  (forall s r, In s done -> In r (triple_step F G alphabet s) -> exists s', r = Some s' /\ (In s' done \/ In s' todo)) ->
  grow F G alphabet fuel T done todo = Some (T', done') ->
  closed done' /\ (forall s, In s done \/ In s todo -> In s done').
Proof.
  induction fuel as [|fuel IH]; intros T done todo T' done' Ht Hd; destruct todo as [|s r]; cbn [grow]; try discriminate.
  - intros H. injection H as <- <-. split; [|intros s [K|[]]; exact K]. intros s r K Q. destruct (Hd s r K Q) as (s' & -> & [W|[]]). exists s'. split; [reflexivity|exact W].
  - intros H. injection H as <- <-. split; [|intros s [K|[]]; exact K]. intros s r K Q. destruct (Hd s r K Q) as (s' & -> & [W|[]]). exists s'. split; [reflexivity|exact W].
  - destruct (all_some (triple_step F G alphabet s)) as [l|] eqn:E; [|discriminate].
    pose proof (fold_tset l T [] (fun s' => In s' (s :: done) \/ In s' r)) as Q. destruct (fold_left _ l (T, [])) as [T1 new]. destruct Q as (Q1 & Q2 & _).
    { intros s' K. left. destruct (Ht _ K) as [W|[<-|W]]; [left; right; exact W|left; left; reflexivity|right; exact W]. }
    intros H. apply IH in H as [H1 H2].
    + split; [exact H1|]. intros s' [K|[<-|K]]; apply H2; [left; right; exact K|left; left; reflexivity|right; apply in_or_app; right; exact K].
    + intros s' K. destruct (Q1 _ K) as [[W|W]|W]; [left; exact W|right; apply in_or_app; right; exact W|right; apply in_or_app; left; exact W].
    + intros s' r' [<-|K] W.
      * destruct (all_some_in _ _ E _ W) as (y & -> & Y). exists y. split; [reflexivity|]. destruct (Q2 _ Y) as [[Z|Z]|Z]; [left; exact Z|right; apply in_or_app; right; exact Z|right; apply in_or_app; left; exact Z].
      * destruct (Hd _ _ K W) as (y & -> & [Y|[Y|Y]]); exists y; (split; [reflexivity|]).
        -- left. right. exact Y.
        -- left. left. exact Y.
        -- right. apply in_or_app. right. exact Y.
Qed.
Lemma inverse_sound fuel : inverse_ok F G alphabet fuel = true -> forall x y, srun F 1 x = Some y -> srun G 1 y = Some x.
Proof.
  unfold inverse_ok. destruct (grow _ _ _ _ _ _ _) as [[T done]|] eqn:E; [|discriminate]. intros H x y R. rewrite all_in_iff in H.
  apply grow_spec in E as [C I'].
  - apply (closed_inverse done C H x 1%positive 1%positive [] y); [|exact R]. apply I'. right. left. reflexivity.
  - intros s K. right. left. apply in_tset_put in K as [ ->|K]; [reflexivity|]. destruct s as [[f g] p]. unfold in_tset in K. rewrite tget_empty in K. discriminate.
  - intros s r [].
Qed.
End Inverse.
