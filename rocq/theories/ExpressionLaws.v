From Verif Require Import Base ExpressionModel ExpressionSpec ExpressionProofs ExpressionBuild ExpressionOr.

Lemma symbols_words x w : lang x w <-> exists l, In l (symbols x) /\ ~ In Fresh l /\ word_of l = w.
Proof. exact (lang_symbols x w). Qed.
Lemma symbols_shape x l : In l (symbols x) -> l = [Eps] \/ (l <> [] /\ ~ In Eps l).
Proof. intros H. exact (proj1 (Forall_forall _ _) (symbols_good x) l H). Qed.
Lemma mk_cat_words l w : Forall built l -> (lang (mk_cat l) w <-> words_of in_cat l w).
Proof.
  intros H. destruct (cat_list_wf l [] (built_all l H) (wf_cat [] (Forall_nil _) (Forall_nil _))) as [_ A]. unfold mk_cat. rewrite (A w). split.
  - intros (u & v & -> & Hu & Hv). inversion Hu; subst. exact Hv.
  - intros K. exists [], w. split; [reflexivity|]. split; [constructor|exact K].
Qed.
Lemma cat_add_words acc l w : built (ICat acc) -> Forall built l ->
  (lang (ICat (cat_list l acc)) w <-> exists u v, w = u ++ v /\ lang (ICat acc) u /\ words_of in_cat l v).
Proof. intros A H. destruct (cat_list_wf l acc (built_all l H) (built_wf _ A)) as [_ B]. exact (B w). Qed.
Lemma mk_or_words l w : Forall built l -> Forall (fun x => is_any x = false) l ->
  (lang (mk_or l) w <-> exists x, In x l /\ in_or x w).
Proof.
  intros H N. destruct (or_list_words l [] (built_all l H) N or_state_nil) as [_ A]. unfold mk_or. rewrite (A w). split.
  - intros [K|K]; [apply lang_or_inv in K as (x & [] & _)|exact K].
  - intros K. right. exact K.
Qed.
Lemma built_or_state acc : built (IOr acc) -> is_any (IOr acc) = false -> or_state acc.
Proof.
  intros A N. apply built_wf in A. inversion A; subst; [cbn [is_any] in N; congruence|split; assumption].
Qed.
Lemma or_add_words acc l w : built (IOr acc) -> is_any (IOr acc) = false -> Forall built l -> Forall (fun x => is_any x = false) l ->
  (lang (IOr (or_list l acc)) w <-> lang (IOr acc) w \/ exists x, In x l /\ in_or x w).
Proof. intros A N0 H N. destruct (or_list_words l acc (built_all l H) N (built_or_state acc A N0)) as [_ B]. exact (B w). Qed.
Lemma words_app P a b w : words_of P (a ++ b) w <-> exists u v, w = u ++ v /\ words_of P a u /\ words_of P b v.
Proof.
  revert w. induction a as [|x a IH]; intros w; cbn [app].
  - split; [intros H; exists [], w; split; [reflexivity|split; [constructor|exact H]]|intros (u & v & -> & Hu & Hv); inversion Hu; subst; exact Hv].
  - split.
    + intros H. inversion H; subst. apply IH in H4 as (v1 & v2 & -> & A & B). exists (u ++ v1), v2. split; [apply app_assoc|]. split; [constructor; assumption|exact B].
    + intros (u & v & -> & Hu & Hv). inversion Hu; subst. rewrite <- app_assoc. constructor; [assumption|]. apply IH. exists v0, v. split; [reflexivity|]. split; assumption.
Qed.
Lemma words_one P x w : words_of P [x] w <-> P x w.
Proof.
  split.
  - intros H. inversion H; subst. inversion H4; subst. rewrite app_nil_r. assumption.
  - intros H. rewrite <- (app_nil_r w). constructor; [exact H|constructor].
Qed.
Lemma built_mk_cat l : Forall built l -> built (mk_cat l).
Proof. intros H. exact (B_cat_add [] l B_cat H). Qed.
Lemma built_mk_or l : Forall built l -> built (mk_or l).
Proof. intros H. exact (B_or_add [] l B_or H). Qed.
Lemma flatten_words a b c w : Forall built a -> Forall built b -> Forall built c ->
  (lang (mk_cat (a ++ mk_cat b :: c)) w <-> lang (mk_cat (a ++ b ++ c)) w).
Proof.
  intros A B C. pose proof (built_mk_cat b B) as Bb.
  rewrite !mk_cat_words.
  2:{ apply Forall_app. split; [exact A|]. apply Forall_app. split; assumption. }
  2:{ apply Forall_app. split; [exact A|]. constructor; assumption. }
  change (mk_cat b :: c) with ([mk_cat b] ++ c). rewrite !words_app.
  assert (E : forall v, words_of in_cat ([mk_cat b] ++ c) v <-> words_of in_cat (b ++ c) v).
  { intros v. rewrite !words_app.
    split; intros (u1 & u2 & -> & H1 & H2); exists u1, u2; (split; [reflexivity|split; [|exact H2]]).
    - apply words_one in H1. apply (mk_cat_words b u1 B). exact H1.
    - apply words_one. apply (mk_cat_words b u1 B). exact H1. }
  split; intros (u & v & -> & H1 & H2); exists u, v; (split; [reflexivity|split; [exact H1|]]); apply E; exact H2.
Qed.
Lemma cat_list_app a : forall b acc, cat_list (a ++ b) acc = cat_list b (cat_list a acc).
Proof. induction a as [|x a IH]; intros b acc; [reflexivity|]. cbn [app cat_list]. apply IH. Qed.
Lemma wf_cat_list l acc : wf (ICat l) -> cat_list l acc = acc ++ l.
Proof.
  intros W. inversion W; subst. apply cat_list_copies; [|assumption].
  apply Forall_forall. intros y Hy. apply wf_copy. exact (proj1 (Forall_forall _ _) H0 y Hy).
Qed.
(** Adding to a Cat does not look at what is there *)
Lemma cat_step_app x : forall acc, cat_step x acc = acc ++ cat_step x [].
Proof.
  induction x as [s|s| | |l IH|l IH|l r _ _] using item_ind'; intros acc; rewrite (cat_step_eq _ acc), (cat_step_eq _ []);
    match goal with |- context [is_any ?x] => destruct (is_any x); [reflexivity|] end; try reflexivity.
  - destruct (is_control s); [symmetry; apply app_nil_r|reflexivity].
  - destruct (is_control s); [symmetry; apply app_nil_r|reflexivity].
  - revert acc. induction l as [|y l IHl]; intros acc; cbn [cat_list]; [symmetry; apply app_nil_r|].
    inversion IH as [|? ? H1 H2]; subst. rewrite (H1 acc), (IHl H2 (acc ++ _)), (IHl H2 (cat_step y [])). rewrite app_assoc. reflexivity.
  - destruct l as [|y [|z l]]; try reflexivity. inversion IH as [|? ? H1 _]; subst. apply H1.
Qed.
Lemma cat_list_acc l : forall acc, cat_list l acc = acc ++ cat_list l [].
Proof.
  induction l as [|x l IH]; intros acc; cbn [cat_list]; [symmetry; apply app_nil_r|].
  rewrite (IH (cat_step x acc)), (IH (cat_step x [])), cat_step_app, app_assoc. reflexivity.
Qed.
Lemma flatten_same a b c : Forall built b -> is_any (mk_cat b) = false ->
  mk_cat (a ++ mk_cat b :: c) = mk_cat (a ++ b ++ c).
Proof.
  intros B N. unfold mk_cat at 1 3. rewrite !cat_list_app. cbn [cat_list]. f_equal. f_equal.
  rewrite cat_step_eq, N. unfold mk_cat. rewrite wf_cat_list.
  - symmetry. apply cat_list_acc.
  - apply built_wf. exact (built_mk_cat b B).
Qed.
Lemma unit_left x w : built x -> (lang (plus (mk_cat []) x) w <-> in_cat x w).
Proof.
  intros B. unfold plus. rewrite mk_cat_words by (repeat constructor; exact B). split.
  - intros H. inversion H; subst. unfold in_cat in H2. cbn in H2. inversion H2; subst. apply words_one in H4. exact H4.
  - intros H. change w with ([] ++ w). constructor; [unfold in_cat; cbn; constructor|]. apply words_one. exact H.
Qed.
Lemma unit_right x w : built x -> (lang (plus x (mk_cat [])) w <-> in_cat x w).
Proof.
  intros B. unfold plus. rewrite mk_cat_words by (constructor; [exact B|repeat constructor]). split.
  - intros H. inversion H; subst. apply words_one in H4. unfold in_cat in H4. cbn in H4. inversion H4; subst. rewrite app_nil_r. assumption.
  - intros H. rewrite <- (app_nil_r w). constructor; [exact H|]. apply words_one. unfold in_cat. cbn. constructor.
Qed.
Lemma repeated_words x n w : built x -> (lang (repeated x n) w <-> power (in_cat x) n w).
Proof.
  intros B. unfold repeated. rewrite mk_cat_words by (apply Forall_forall; intros y Hy; apply repeat_spec in Hy as ->; exact B).
  revert w. induction n as [|n IH]; intros w; cbn [repeat].
  - split; intros H; inversion H; subst; constructor.
  - split; intros H; inversion H; subst; constructor; try assumption; apply IH; assumption.
Qed.
Lemma ques_words x p w : built x -> is_any x = false -> (lang (ques x p) w <-> w = [] \/ in_or x w).
Proof.
  intros B N. assert (E : forall v, in_or (mk_cat []) v <-> v = []).
  { intros v. unfold in_or. cbn. split; [intros [_ H]; inversion H; reflexivity|intros ->; split; [reflexivity|constructor]]. }
  unfold ques. destruct p; rewrite mk_or_words; try (repeat constructor; assumption).
  - split.
    + intros (y & [<-|[<-|[]]] & H); [right; exact H|left; apply E; exact H].
    + intros [->|H]; [exists (mk_cat []); split; [right; left; reflexivity|apply E; reflexivity]|exists x; split; [left; reflexivity|exact H]].
  - split.
    + intros (y & [<-|[<-|[]]] & H); [left; apply E; exact H|right; exact H].
    + intros [->|H]; [exists (mk_cat []); split; [left; reflexivity|apply E; reflexivity]|exists x; split; [right; left; reflexivity|exact H]].
Qed.
Lemma or_any l : Forall built l -> Exists (fun x => is_any x = true) l -> is_any (mk_or l) = true.
Proof.
  intros B E. unfold mk_or. assert (G : or_state []) by exact or_state_nil. revert G. generalize (@nil item).
  induction E as [x l H|x l H IH]; intros acc G; cbn [or_list]; rewrite (or_good_has_any acc (proj2 G)).
  - rewrite H. exact H.
  - inversion B as [|? ? B1 B2]; subst. destruct (is_any x) eqn:A; [exact A|]. apply (IH B2). apply (or_step_ok x (built_wf x B1) A acc G).
Qed.
Lemma or_any_stays acc l : built (IOr acc) -> Forall built l -> is_any (IOr acc) = true -> is_any (IOr (or_list l acc)) = true.
Proof.
  intros A B N. apply built_wf in A. inversion A as [| | | | |y Wy Ny|? Wl Gl|]; subst.
  - destruct (or_list_any_state l y Ny Wy (built_all l B)) as (z & -> & Hz & _). exact Hz.
  - rewrite (or_good_is_any acc Gl) in N. discriminate N.
Qed.
Lemma built_copy x : built x -> copy x = x.
Proof. intros B. exact (wf_copy x (built_wf x B)). Qed.
Lemma or_step_code x acc : is_any x = false ->
  or_step x acc =
  if accepts (IOr acc) x false then
    if accepts x (IOr acc) false && Nat.ltb (state_count x) (state_count (IOr acc)) then or_list [x] [] else acc
  else if accepts x (IOr acc) false then or_list [x] []
  else add_item_code x acc.
Proof. intros H. rewrite or_step_eq, (update_code x H). reflexivity. Qed.

(** A concatenation of several parts with ANY among them has no words *)
Lemma cat_any_empty l w : Exists (fun x => is_any x = true) l -> ~ lang (ICat l) w.
Proof.
  intros E. revert w. induction E as [x l H|x l H IH]; intros w K; apply lang_cat_inv in K as (u & v & -> & Hu & Hv).
  - exact (any_lang x u H Hu).
  - exact (IH v Hv).
Qed.
