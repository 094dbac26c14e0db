(** Proofs about the path iterator. *)
From Coq Require Import List NArith ZArith Bool Lia Sorting.Sorted.
From Verif Require Import PathModel PathSpec.
Import ListNotations.

Section Proofs.

Variable W : Type.
Variable wone wzero : W.
Variable wtimes : W -> W -> W.
Variable weqb : W -> W -> bool.
Variable m : fst_t W.
Variable rank : nat -> nat.
Hypothesis down : forall s a, In a (arcs m s) -> rank (nextstate a) < rank s.

Notation fin := (is_final wzero weqb m).
Notation obs := (observe wone wtimes).

(** * The tree of paths below a state *)

Fixpoint sub (f : nat -> list (list nat)) (j : nat) (l : list (arc W))
  : list (list nat) :=
  match l with
  | [] => []
  | a :: l' => map (cons j) (f (nextstate a)) ++ sub f (S j) l'
  end.

Fixpoint Tk (k : nat) (s : nat) : list (list nat) :=
  match k with
  | O => []
  | S k' =>
    (if fin s then [[]] else match arcs m s with [] => [[]] | _ => [] end)
      ++ sub (Tk k') 0 (arcs m s)
  end.

Lemma sub_ext f g l : forall j,
  (forall a, In a l -> f (nextstate a) = g (nextstate a)) ->
  sub f j l = sub g j l.
Proof.
  induction l as [|a l IH]; simpl; intros j H; [reflexivity|].
  rewrite H by (left; reflexivity).
  f_equal. apply IH. intros b Hb. apply H. right; exact Hb.
Qed.

Lemma Tk_stable : forall k k' s, rank s < k -> rank s < k' -> Tk k s = Tk k' s.
Proof.
  induction k as [|k IH]; intros k' s H H'; [lia|].
  destruct k' as [|k']; [lia|]. simpl. f_equal.
  apply sub_ext. intros a Ha. pose proof (down s a Ha).
  apply IH; lia.
Qed.

Definition T (s : nat) : list (list nat) := Tk (S (rank s)) s.

Lemma T_eq s :
  T s = (if fin s then [[]] else match arcs m s with [] => [[]] | _ => [] end)
          ++ sub T 0 (arcs m s).
Proof.
  unfold T at 1. cbn [Tk]. f_equal. apply sub_ext.
  intros a Ha. pose proof (down s a Ha). unfold T. apply Tk_stable; lia.
Qed.

(** * Frames *)

Definition frame : Type := nat * nat * arc W.
Definition fs (f : frame) : nat := fst (fst f).
Definition fi (f : frame) : nat := snd (fst f).
Definition fa (f : frame) : arc W := snd f.

Variable s0 : nat.
Hypothesis Hstart : start m = Some s0.

Inductive linked : list frame -> nat -> Prop :=
| linked_nil : linked [] s0
| linked_cons fr s o a :
    linked fr s -> nth_error (arcs m s) o = Some a ->
    linked ((s, o, a) :: fr) (nextstate a).

Definition pre (fr : list frame) : list nat := rev (map fi fr).

Lemma follow_app p : forall s l t q,
  follow m s p = Some (l, t) ->
  follow m s (p ++ q) =
  match follow m t q with
  | None => None
  | Some (l', u) => Some (l ++ l', u)
  end.
Proof.
  induction p as [|j p IH]; simpl; intros s l t q H.
  - injection H as <- <-. simpl. destruct (follow m s q) as [[l' u]|]; reflexivity.
  - destruct (nth_error (arcs m s) j) as [a|]; [|discriminate].
    destruct (follow m (nextstate a) p) as [[l1 t1]|] eqn:E; [|discriminate].
    injection H as <- <-. rewrite (IH _ _ _ q E).
    destruct (follow m t1 q) as [[l' u]|]; reflexivity.
Qed.

Lemma linked_follow fr n :
  linked fr n -> follow m s0 (pre fr) = Some (rev (map fa fr), n).
Proof.
  induction 1 as [|fr s o a H IH Ha]; [reflexivity|].
  unfold pre in *. cbn [map rev fi fa snd fst].
  rewrite (follow_app _ _ _ _ [o] IH). simpl. rewrite Ha. reflexivity.
Qed.

Definition mid (fr : list frame) : iterator W :=
  Iterator (map fs fr) (map (fun f => ilabel (fa f)) fr)
    (map (fun f => olabel (fa f)) fr)
    (map (fun f => arc_weight (fa f)) fr)
    (map (fun f => Z.of_nat (fi f)) fr) true.

Definition fresh (s : nat) (fr : list frame) : iterator W :=
  Iterator (s :: map fs fr) (map (fun f => ilabel (fa f)) fr)
    (map (fun f => olabel (fa f)) fr)
    (final m s :: map (fun f => arc_weight (fa f)) fr)
    ((-1)%Z :: map (fun f => Z.of_nat (fi f)) fr) false.

Definition ended : iterator W := Iterator [] [] [] [] [] true.

Fixpoint rest_mid (fr : list frame) : list (list nat) :=
  match fr with
  | [] => []
  | (s, o, _) :: fr' =>
    map (app (pre fr')) (sub T (S o) (skipn (S o) (arcs m s)))
      ++ rest_mid fr'
  end.

Definition rest_fresh (s : nat) (fr : list frame) : list (list nat) :=
  map (app (pre fr)) (sub T 0 (arcs m s)) ++ rest_mid fr.

Lemma skipn_nth {A} (l : list A) : forall n,
  skipn n l =
  match nth_error l n with None => [] | Some a => a :: skipn (S n) l end.
Proof.
  induction l as [|x l IH]; intros [|n]; try reflexivity.
  cbn [skipn nth_error]. rewrite IH. reflexivity.
Qed.

Lemma pre_cons s o a fr q : pre ((s, o, a) :: fr) ++ q = pre fr ++ o :: q.
Proof. unfold pre. cbn [map rev fi fst snd]. rewrite <- app_assoc. reflexivity. Qed.

Lemma map_pre_cons s o a fr L :
  map (app (pre fr)) (map (cons o) L) = map (app (pre ((s, o, a) :: fr))) L.
Proof.
  rewrite map_map. apply map_ext. intros q. rewrite pre_cons. reflexivity.
Qed.

Definition moved (r : outcome (iterator W * option nat))
  (L : list (list nat)) : Prop :=
  (L = [] /\ r = Ok (ended, None)) \/
  (exists s o a fr, linked fr s /\ nth_error (arcs m s) o = Some a /\
     r = Ok (mid ((s, o, a) :: fr), Some (nextstate a)) /\
     L = map (app (pre ((s, o, a) :: fr))) (T (nextstate a))
           ++ rest_mid ((s, o, a) :: fr)).

Lemma arc_at_nat s k : arc_at m s (Z.of_nat k) = Ok (nth_error (arcs m s) k).
Proof.
  unfold arc_at. destruct (Z.ltb_spec (Z.of_nat k) 0); [lia|].
  rewrite Nat2Z.id. reflexivity.
Qed.

Lemma move_mid fr : forall n,
  linked fr n -> moved (move_on m (map fs fr) (mid fr)) (rest_mid fr).
Proof.
  induction fr as [|[[s o] a] fr IH]; intros n H.
  - left. split; reflexivity.
  - inversion H as [|fr1 s1 o1 a1 Hl Ha]; subst.
    cbn [map fs fst snd move_on mid offsets fi].
    replace (Z.of_nat o + 1)%Z with (Z.of_nat (S o)) by lia.
    rewrite arc_at_nat. cbn [bind rest_mid].
    rewrite (skipn_nth (arcs m s) (S o)).
    destruct (nth_error (arcs m s) (S o)) as [b|] eqn:Eb.
    + right. exists s, (S o), b, fr. split; [exact Hl|]. split; [exact Eb|].
      split; [reflexivity|].
      cbn [sub rest_mid]. rewrite map_app, <- app_assoc.
      rewrite (map_pre_cons s (S o) b). reflexivity.
    + cbn [sub map app]. exact (IH s Hl).
Qed.

Lemma move_fresh s fr :
  linked fr s ->
  moved (move_on m (s :: map fs fr) (fresh s fr)) (rest_fresh s fr).
Proof.
  intros H. cbn [move_on fresh offsets].
  replace (-1 + 1)%Z with (Z.of_nat 0) by reflexivity.
  rewrite arc_at_nat. cbn [bind]. unfold rest_fresh.
  change (arcs m s) with (skipn 0 (arcs m s)) at 2.
  rewrite (skipn_nth (arcs m s) 0).
  destruct (nth_error (arcs m s) 0) as [b|] eqn:Eb.
  - right. exists s, 0, b, fr. split; [exact H|]. split; [exact Eb|].
    split; [reflexivity|].
    cbn [sub rest_mid]. rewrite map_app, <- app_assoc.
    rewrite (map_pre_cons s 0 b). reflexivity.
  - cbn [sub map app]. exact (move_mid fr s H).
Qed.

(** * Configurations *)

Definition config (it : iterator W) (L : list (list nat)) : Prop :=
  (exists fr n, linked fr n /\ fr <> [] /\ it = mid fr /\ L = rest_mid fr) \/
  (exists fr s, linked fr s /\ it = fresh s fr /\ L = rest_fresh s fr).

Definition rd := reads wone wzero wtimes weqb m.

Lemma rev_map_swap {A B} (f : A -> B) l : rev (map f l) = map f (rev l).
Proof. symmetry. apply map_rev. Qed.

Lemma reads_fresh fr n :
  linked fr n -> fin n = true -> rd (pre fr) (obs (fresh n fr)).
Proof.
  intros H Hf. exists (rev (map fa fr)), n. split.
  - exists s0. split; [exact Hstart|]. apply linked_follow, H.
  - rewrite Hf. unfold observe, weight, fresh, product.
    cbn [path_ilabels path_olabels path_weights rev].
    rewrite !rev_map_swap, !map_map. reflexivity.
Qed.

Lemma reads_mid fr n :
  linked fr n -> fin n = false -> rd (pre fr) (obs (mid fr)).
Proof.
  intros H Hf. exists (rev (map fa fr)), n. split.
  - exists s0. split; [exact Hstart|]. apply linked_follow, H.
  - rewrite Hf. unfold observe, weight, mid, product.
    cbn [path_ilabels path_olabels path_weights rev].
    rewrite !rev_map_swap, !map_map, app_nil_r. reflexivity.
Qed.

Lemma forward_spec : forall fuel fr n,
  rank n < fuel -> linked fr n -> fr <> [] ->
  exists it p L, forward wzero weqb fuel m (mid fr) n = Ok it /\
    T n = p :: L /\ rd (pre fr ++ p) (obs it) /\
    config it (map (app (pre fr)) L ++ rest_mid fr).
Proof.
  induction fuel as [|fuel IH]; intros fr n Hr Hl Hn; [lia|].
  cbn [forward]. rewrite (T_eq n).
  destruct (weqb (final m n) wzero) eqn:Ez.
  - assert (Hf : fin n = false) by (unfold is_final; rewrite Ez; reflexivity).
    rewrite Hf.
    destruct (arcs m n) as [|a l] eqn:Ea.
    + exists (mid fr), [], []. split; [reflexivity|]. split; [reflexivity|].
      rewrite app_nil_r. split.
      * exact (reads_mid fr n Hl Hf).
      * left. exists fr, n. repeat (split; [assumption || reflexivity|]).
        reflexivity.
    + assert (Hnth : nth_error (arcs m n) 0 = Some a)
        by (rewrite Ea; reflexivity).
      assert (Hlow : rank (nextstate a) < rank n)
        by (apply down; rewrite Ea; left; reflexivity).
      destruct (IH ((n, 0, a) :: fr) (nextstate a)) as (it & p & L & E & ET & Hrd & Hc).
      * lia.
      * constructor; assumption.
      * discriminate.
      * exists it, (0 :: p), (map (cons 0) L ++ sub T 1 l).
        split; [exact E|]. split.
        { cbn [sub app]. rewrite ET. reflexivity. }
        rewrite pre_cons in Hrd. split; [exact Hrd|].
        rewrite map_app, (map_pre_cons n 0 a), <- app_assoc.
        cbn [rest_mid] in Hc. rewrite Ea in Hc. exact Hc.
  - assert (Hf : fin n = true) by (unfold is_final; rewrite Ez; reflexivity).
    rewrite Hf.
    exists (fresh n fr), [], (sub T 0 (arcs m n)).
    split; [reflexivity|]. split; [reflexivity|].
    rewrite app_nil_r. split; [exact (reads_fresh fr n Hl Hf)|].
    right. exists fr, n. split; [exact Hl|]. split; reflexivity.
Qed.

Lemma config_not_done it L : config it L -> done it = false.
Proof.
  intros [(fr & n & _ & Hn & -> & _)|(fr & s & _ & -> & _)]; [|reflexivity].
  destruct fr as [|f fr]; [congruence|reflexivity].
Qed.

(** The ranks of all states on the way are below that of the start state. *)
Lemma linked_rank fr n : linked fr n -> rank n <= rank s0.
Proof.
  induction 1 as [|fr s o a H IH Ha]; [lia|].
  pose proof (down s a (nth_error_In _ _ Ha)). lia.
Qed.

Lemma next_spec fuel it L :
  rank s0 < fuel -> config it L ->
  exists it', next wzero weqb fuel m it = Ok it' /\
    match L with
    | [] => it' = ended
    | p :: rest => rd p (obs it') /\ config it' rest
    end.
Proof.
  intros Hfuel Hc.
  assert (Hmove : moved (move_on m (path_states it) it) L /\
                  exists o os, offsets it = o :: os /\ (-1 <= o)%Z).
  { destruct Hc as [(fr & n & Hl & Hn & -> & ->)|(fr & s & Hl & -> & ->)].
    - split; [exact (move_mid fr n Hl)|].
      destruct fr as [|f fr]; [congruence|].
      exists (Z.of_nat (fi f)), (map (fun f => Z.of_nat (fi f)) fr).
      split; [reflexivity|lia].
    - split; [exact (move_fresh s fr Hl)|].
      eexists _, _. split; [reflexivity|lia]. }
  destruct Hmove as [Hmove (o & os & Eo & Ho)].
  unfold next. rewrite (config_not_done it L Hc), Eo.
  unfold initial_state_is_final.
  destruct (Z.eqb_spec o (-2)); [lia|].
  destruct Hmove as [[-> ->]|(s & j & a & fr & Hl & Ha & -> & ->)].
  - exists ended. split; reflexivity.
  - cbn [bind done path_states mid map].
    assert (Hl' : linked ((s, j, a) :: fr) (nextstate a))
      by (constructor; assumption).
    destruct (forward_spec fuel ((s, j, a) :: fr) (nextstate a))
      as (it' & p & L & E & ET & Hrd & Hc').
    + pose proof (linked_rank _ _ Hl'). lia.
    + exact Hl'.
    + discriminate.
    + exists it'. split; [exact E|]. rewrite ET. cbn [map app].
      split; [exact Hrd|exact Hc'].
Qed.

Lemma collect_spec fuel : rank s0 < fuel ->
  forall n L it p, config it L -> rd p (obs it) -> length L < n ->
  exists out, collect wone wzero wtimes weqb n fuel m it = Ok (out, ended) /\
    Forall2 rd (p :: L) out.
Proof.
  intros Hfuel. induction n as [|n IH]; intros L it p Hc Hrd Hn; [lia|].
  cbn [collect]. rewrite (config_not_done _ _ Hc).
  destruct (next_spec fuel it L Hfuel Hc) as (it' & -> & H). cbn [bind].
  destruct L as [|q L].
  - subst it'. exists [obs it]. split.
    + destruct n; reflexivity.
    + constructor; [exact Hrd|constructor].
  - destruct H as [Hrd' Hc']. simpl in Hn.
    destruct (IH L it' q Hc' Hrd') as (out & -> & HF); [lia|].
    exists (obs it :: out). split; [reflexivity|].
    constructor; assumption.
Qed.

Definition roots : list (list nat) :=
  (if fin s0 then [[]] else []) ++ sub T 0 (arcs m s0).

Lemma collect_ended n fuel :
  collect wone wzero wtimes weqb n fuel m ended = Ok ([], ended).
Proof. destruct n; reflexivity. Qed.

Lemma map_app_nil (L : list (list nat)) : map (app []) L = L.
Proof. rewrite map_ext with (g := fun q => q); [apply map_id|reflexivity]. Qed.

Lemma rest_fresh_nil s : rest_fresh s [] = sub T 0 (arcs m s).
Proof.
  unfold rest_fresh. cbn [rest_mid pre map rev].
  rewrite app_nil_r. apply map_app_nil.
Qed.

Lemma reset_spec fuel pl : rank s0 < fuel ->
  exists it, reset wzero weqb fuel m (Iterator [] [] [] [] [] pl) = Ok it /\
    forall n, length roots <= n ->
    exists out, collect wone wzero wtimes weqb n fuel m it = Ok (out, ended) /\
      Forall2 rd roots out.
Proof.
  intros Hfuel. unfold reset. rewrite Hstart.
  cbn [path_states path_ilabels path_olabels path_weights offsets].
  unfold roots, is_final.
  destruct (weqb (final m s0) wzero) eqn:Ez; cbn [negb app].
  - assert (Hc : config (fresh s0 []) (rest_fresh s0 [])).
    { right. exists [], s0. split; [constructor|]. split; reflexivity. }
    destruct (next_spec fuel _ _ Hfuel Hc) as (it & E & H).
    change (Iterator [s0] [] [] [final m s0] [new_state] false)
      with (fresh s0 []).
    exists it. split; [exact E|]. rewrite rest_fresh_nil in H.
    intros n Hn. destruct (sub T 0 (arcs m s0)) as [|p L].
    + subst it. exists []. rewrite collect_ended. split; [reflexivity|constructor].
    + destruct H as [Hrd Hc']. apply collect_spec; [exact Hfuel|exact Hc'|exact Hrd|].
      simpl in Hn. lia.
  - unfold next. cbn [done path_states offsets]. rewrite Z.eqb_refl.
    cbn [path_ilabels path_olabels path_weights pop_labels].
    exists (fresh s0 []). split; [reflexivity|].
    intros n Hn. simpl in Hn.
    apply collect_spec; [exact Hfuel| | |lia].
    + right. exists [], s0. split; [constructor|]. split; [reflexivity|].
      symmetry. apply rest_fresh_nil.
    + apply (reads_fresh [] s0); [constructor|].
      unfold is_final. rewrite Ez. reflexivity.
Qed.

(** * The members of the tree and their order *)

Lemma in_sub f l : forall j p,
  In p (sub f j l) <->
  exists i a q, nth_error l i = Some a /\ p = (j + i) :: q /\
                In q (f (nextstate a)).
Proof.
  induction l as [|b l IH]; intros j p; cbn [sub].
  - split; [intros []|]. intros (i & a & q & E & _).
    destruct i; discriminate.
  - rewrite in_app_iff, in_map_iff, IH. split.
    + intros [(q & <- & Hq)|(i & a & q & E & -> & Hq)].
      * exists 0, b, q. rewrite Nat.add_0_r. repeat split; assumption.
      * exists (S i), a, q. rewrite Nat.add_succ_r. repeat split; assumption.
    + intros ([|i] & a & q & E & -> & Hq).
      * left. injection E as <-. exists q. rewrite Nat.add_0_r.
        split; [reflexivity|exact Hq].
      * right. exists i, a, q. rewrite Nat.add_succ_r.
        split; [exact E|]. split; [reflexivity|exact Hq].
Qed.

Definition good (s : nat) (p : list nat) : Prop :=
  exists l t, follow m s p = Some (l, t) /\ (fin t = true \/ arcs m t = []).

Lemma in_T : forall k s p, rank s < k -> (In p (T s) <-> good s p).
Proof.
  induction k as [|k IH]; intros s p Hk; [lia|].
  rewrite T_eq, in_app_iff, in_sub. split.
  - intros [H|(i & a & q & E & -> & Hq)].
    + assert (p = [] /\ (fin s = true \/ arcs m s = [])) as [-> Hs].
      { destruct (fin s); [|destruct (arcs m s)];
          cbn in H; intuition congruence. }
      exists [], s. split; [reflexivity|exact Hs].
    + pose proof (down s a (nth_error_In _ _ E)).
      apply (IH (nextstate a)) in Hq; [|lia].
      destruct Hq as (l & t & El & Ht). exists (a :: l), t.
      split; [|exact Ht]. cbn [follow plus]. rewrite E, El. reflexivity.
  - intros (l & t & El & Ht). destruct p as [|j q].
    + left. injection El as <- <-.
      destruct (fin s); [left; reflexivity|].
      destruct Ht as [Ht| ->]; [discriminate|]. left; reflexivity.
    + right. cbn [follow] in El.
      destruct (nth_error (arcs m s) j) as [a|] eqn:E; [|discriminate].
      destruct (follow m (nextstate a) q) as [[l1 t1]|] eqn:E1; [|discriminate].
      injection El as <- <-.
      exists j, a, q. split; [exact E|]. split; [reflexivity|].
      pose proof (down s a (nth_error_In _ _ E)).
      apply (IH (nextstate a)); [lia|]. exists l1, t1. split; assumption.
Qed.

Lemma sorted_app {A} (R : A -> A -> Prop) l1 l2 :
  StronglySorted R l1 -> StronglySorted R l2 ->
  (forall x y, In x l1 -> In y l2 -> R x y) -> StronglySorted R (l1 ++ l2).
Proof.
  intros H1 H2 H. induction H1 as [|x l1 H1 IH Hx]; [exact H2|].
  simpl. constructor.
  - apply IH. intros y z Hy Hz. apply H; [right; exact Hy|exact Hz].
  - apply Forall_app. split; [exact Hx|].
    apply Forall_forall. intros y Hy. apply H; [left; reflexivity|exact Hy].
Qed.

Lemma sorted_cons j L :
  StronglySorted before L -> StronglySorted before (map (cons j) L).
Proof.
  induction 1 as [|p L H IH Hp]; simpl; constructor; [exact IH|].
  apply Forall_map. eapply Forall_impl; [|exact Hp].
  intros q Hq. apply before_eq, Hq.
Qed.

Lemma sub_sorted f l : forall j,
  (forall a, In a l -> StronglySorted before (f (nextstate a))) ->
  StronglySorted before (sub f j l).
Proof.
  induction l as [|b l IH]; intros j H; cbn [sub]; [constructor|].
  apply sorted_app.
  - apply sorted_cons, H. left; reflexivity.
  - apply IH. intros a Ha. apply H. right; exact Ha.
  - intros x y Hx Hy. apply in_map_iff in Hx as (q & <- & _).
    apply in_sub in Hy as (i & a & q' & _ & -> & _).
    apply before_lt. lia.
Qed.

Lemma nil_before f l j :
  forall x y, In x [@nil nat] -> In y (sub f j l) -> before x y.
Proof.
  intros x y [<-|[]] Hy. apply in_sub in Hy as (i & a & q' & _ & -> & _).
  constructor.
Qed.

Lemma T_sorted : forall k s, rank s < k -> StronglySorted before (T s).
Proof.
  induction k as [|k IH]; intros s Hk; [lia|]. rewrite T_eq.
  assert (Hsub : StronglySorted before (sub T 0 (arcs m s))).
  { apply sub_sorted. intros a Ha. apply IH. pose proof (down s a Ha). lia. }
  assert (H1 : StronglySorted before [[]])
    by (constructor; [constructor|constructor]).
  destruct (fin s); [apply sorted_app; [exact H1|exact Hsub|apply nil_before]|].
  destruct (arcs m s) eqn:E; [exact H1|exact Hsub].
Qed.

Lemma roots_sorted : StronglySorted before roots.
Proof.
  assert (Hsub : StronglySorted before (sub T 0 (arcs m s0))).
  { apply sub_sorted. intros a _. apply (T_sorted (S (rank (nextstate a)))). lia. }
  unfold roots. destruct (fin s0); [|exact Hsub].
  apply sorted_app; [constructor; constructor|exact Hsub|apply nil_before].
Qed.

Lemma in_roots p :
  In p roots <-> accepted wzero weqb m p \/ stuck wzero weqb m p.
Proof.
  unfold roots. rewrite in_app_iff, in_sub. split.
  - intros [H|(i & a & q & E & -> & Hq)].
    + left. destruct (fin s0) eqn:Ef; [|destruct H].
      destruct H as [<-|[]]. exists [], s0. split; [|exact Ef].
      exists s0. split; [exact Hstart|reflexivity].
    + apply (in_T (S (rank (nextstate a)))) in Hq; [|lia].
      destruct Hq as (l & t & El & Ht).
      assert (Hlead : leads m ((0 + i) :: q) (a :: l) t).
      { exists s0. split; [exact Hstart|]. cbn [follow plus].
        rewrite E, El. reflexivity. }
      destruct (fin t) eqn:Ef.
      * left. exists (a :: l), t. split; assumption.
      * right. split; [discriminate|]. exists (a :: l), t.
        split; [exact Hlead|]. split; [exact Ef|].
        destruct Ht; [discriminate|assumption].
  - intros H.
    assert (Hg : exists l t, follow m s0 p = Some (l, t) /\
              (fin t = true \/ (p <> [] /\ arcs m t = []))).
    { destruct H as [(l & t & (s & Es & El) & Hf)|(Hn & l & t & (s & Es & El) & Hf & Ha)];
        rewrite Hstart in Es; injection Es as <-; exists l, t; auto. }
    destruct Hg as (l & t & El & Ht). destruct p as [|j q].
    + left. injection El as <- <-. destruct Ht as [->|[Hn _]]; [|congruence].
      left; reflexivity.
    + right. cbn [follow] in El.
      destruct (nth_error (arcs m s0) j) as [a|] eqn:E; [|discriminate].
      destruct (follow m (nextstate a) q) as [[l1 t1]|] eqn:E1; [|discriminate].
      injection El as <- <-.
      exists j, a, q. split; [exact E|]. split; [reflexivity|].
      apply (in_T (S (rank (nextstate a)))); [lia|].
      exists l1, t1. split; [exact E1|]. tauto.
Qed.

End Proofs.

Section Main.

Variable W : Type.
Variable wone wzero : W.
Variable wtimes : W -> W -> W.
Variable weqb : W -> W -> bool.

Lemma paths_spec (m : fst_t W) :
  acyclic m ->
  exists ps bound,
    StronglySorted before ps /\
    (forall p, In p ps <-> accepted wzero weqb m p \/ stuck wzero weqb m p) /\
    forall n fuel check, bound <= n -> bound <= fuel ->
      (check = true -> acyclic_property m = true) ->
      exists it out it',
        make wzero weqb fuel m check = Ok (false, it) /\
        collect wone wzero wtimes weqb n fuel m it = Ok (out, it') /\
        Forall2 (reads wone wzero wtimes weqb m) ps out /\
        done it' = true /\
        reset wzero weqb fuel m it' = Ok it.
Proof.
  intros [rank down]. destruct (start m) as [s0|] eqn:Hs.
  - exists (roots W wzero weqb m rank s0).
    exists (S (rank s0) + length (roots W wzero weqb m rank s0)).
    split; [apply roots_sorted; assumption|].
    split; [intros p; apply in_roots; assumption|].
    intros n fuel check Hn Hf Hcheck.
    assert (Hf' : rank s0 < fuel) by lia.
    destruct (reset_spec W wone wzero wtimes weqb m rank down s0 Hs fuel false Hf')
      as (it & E & H).
    destruct (H n) as (out & Ec & HF); [lia|].
    exists it, out, (ended W). split.
    + unfold make.
      assert (check && negb (acyclic_property m) = false) as ->.
      { destruct check; [rewrite Hcheck by reflexivity|]; reflexivity. }
      unfold empty_iterator. rewrite E. reflexivity.
    + split; [exact Ec|]. split; [exact HF|]. split; [reflexivity|].
      rewrite <- E. unfold reset. rewrite Hs. reflexivity.
  - exists [], 0. split; [constructor|]. split.
    + intros p. split; [intros []|].
      intros [(l & t & (s & E & _) & _)|(_ & l & t & (s & E & _) & _)];
        congruence.
    + intros n fuel check _ _ Hcheck.
      exists empty_iterator, [], empty_iterator. split.
      * unfold make.
        assert (check && negb (acyclic_property m) = false) as ->.
        { destruct check; [rewrite Hcheck by reflexivity|]; reflexivity. }
        unfold reset. rewrite Hs. reflexivity.
      * split; [destruct n; reflexivity|]. split; [constructor|].
        split; [reflexivity|]. unfold reset. rewrite Hs. reflexivity.
Qed.

Lemma connected_paths (m : fst_t W) :
  acyclic m -> connected wzero weqb m ->
  exists ps bound,
    StronglySorted before ps /\
    (forall p, In p ps <-> accepted wzero weqb m p) /\
    forall n fuel check, bound <= n -> bound <= fuel ->
      (check = true -> acyclic_property m = true) ->
      exists it out it',
        make wzero weqb fuel m check = Ok (false, it) /\
        collect wone wzero wtimes weqb n fuel m it = Ok (out, it') /\
        Forall2 (reads wone wzero wtimes weqb m) ps out.
Proof.
  intros Ha Hc. destruct (paths_spec m Ha) as (ps & bound & Hs & Hin & H).
  exists ps, bound. split; [exact Hs|]. split.
  - intros p. rewrite Hin. split; [|tauto].
    intros [K|(Hn & l & t & Hl & Hf & He)]; [exact K|].
    rewrite (Hc p l t Hl He) in Hf. discriminate.
  - intros n fuel check Hn Hf Hcheck.
    destruct (H n fuel check Hn Hf Hcheck) as (it & out & it' & A & B & C & _).
    exists it, out, it'. repeat (split; [assumption|]). assumption.
Qed.

Lemma cyclic_error (m : fst_t W) fuel :
  acyclic_property m = false ->
  exists it, make wzero weqb fuel m true = Ok (true, it) /\ done it = true.
Proof.
  intros H. exists empty_iterator. unfold make. rewrite H.
  split; reflexivity.
Qed.

Lemma before_irrefl p : ~ before p p.
Proof.
  induction p as [|j p IH]; intros H; inversion H; subst; [lia|].
  apply IH. assumption.
Qed.

Lemma sorted_nodup (ps : list (list nat)) : StronglySorted before ps -> NoDup ps.
Proof.
  induction 1 as [|p ps H IH Hp]; constructor; [|exact IH].
  intros Hin. rewrite Forall_forall in Hp.
  exact (before_irrefl p (Hp p Hin)).
Qed.

End Main.

(** * Examples *)

(** foo(bar)? with b as first letter: the start state is final, too. *)
Definition optional_machine : fst_t (option N) :=
  machine_of [Some 5%N; Some 0%N]
    [[Arc 98%N 66%N (Some 1%N) 1]; []] true.

Lemma optional_acyclic : acyclic optional_machine.
Proof.
  exists (fun s => 1 - s). intros [|[|s]] a H; simpl in H.
  - destruct H as [<-|[]]. simpl. lia.
  - destruct H.
  - destruct s; destruct H.
Qed.

Lemma reset_midway :
  exists (m : fst_t (option N)) it it1 it2,
    acyclic m /\
    make None teqb 9 m true = Ok (false, it) /\
    next None teqb 9 m it = Ok it1 /\ done it1 = false /\
    reset None teqb 9 m it1 = Ok it2 /\
    observe (Some 0%N) ttimes it2 <> observe (Some 0%N) ttimes it.
Proof.
  exists optional_machine.
  exists (Iterator [0] [] [] [Some 5%N] [(-1)%Z] false).
  exists (Iterator [1; 0] [98%N] [66%N] [Some 0%N; Some 1%N] [(-1)%Z; 0%Z] false).
  exists (Iterator [0; 1; 0] [98%N] [66%N] [Some 5%N; Some 0%N; Some 1%N]
            [(-1)%Z; (-1)%Z; 0%Z] false).
  split; [exact optional_acyclic|].
  split; [reflexivity|]. split; [reflexivity|]. split; [reflexivity|].
  split; [reflexivity|]. intros H. discriminate H.
Qed.

Definition dead_machine : fst_t (option N) :=
  machine_of [None; None; Some 0%N]
    [[Arc 97%N 97%N (Some 0%N) 1; Arc 98%N 98%N (Some 0%N) 2]; []; []] true.

Lemma dead_acyclic : acyclic dead_machine.
Proof.
  exists (fun s => 1 - s). intros [|[|[|s]]] a H; simpl in H.
  - destruct H as [<-|[<-|[]]]; simpl; lia.
  - destruct H.
  - destruct H.
  - destruct s; destruct H.
Qed.

Lemma unconnected_false_path :
  exists (m : fst_t (option N)) it out it' r,
    acyclic m /\
    make None teqb 9 m true = Ok (false, it) /\
    collect (Some 0%N) None ttimes teqb 9 9 m it = Ok (out, it') /\
    In r out /\
    ~ exists p, accepted None teqb m p /\
                reads (Some 0%N) None ttimes teqb m p r.
Proof.
  exists dead_machine, (Iterator [0] [97%N] [97%N] [Some 0%N] [0%Z] true),
    [([97%N], [97%N], Some 0%N); ([98%N], [98%N], Some 0%N)],
    (Iterator [] [] [] [] [] true), ([97%N], [97%N], Some 0%N).
  split; [exact dead_acyclic|]. split; [reflexivity|].
  split; [reflexivity|]. split; [left; reflexivity|].
  intros (p & (l & t & (s & Es & El) & Hf) & (l' & t' & (s' & Es' & El') & Hr)).
  rewrite Es in Es'. injection Es' as <-. rewrite El in El'.
  injection El' as <- <-. injection Es as <-.
  destruct p as [|[|[|i]] p]; simpl in El.
  - injection El as <- <-. discriminate Hf.
  - destruct p as [|j p]; simpl in El.
    + injection El as <- <-. discriminate Hf.
    + destruct j; discriminate El.
  - destruct p as [|j p]; simpl in El.
    + injection El as <- <-. discriminate Hr.
    + destruct j; discriminate El.
  - destruct i; discriminate El.
Qed.

(** a*b, with the loop first *)
Definition loop_machine : fst_t (option N) :=
  machine_of [None; Some 0%N]
    [[Arc 97%N 97%N (Some 0%N) 0; Arc 98%N 98%N (Some 0%N) 1]; []] false.

Lemma loop_forward : forall fuel it,
  forward None teqb fuel loop_machine it 0 = Diverges.
Proof.
  induction fuel as [|fuel IH]; intros it; [reflexivity|].
  cbn [forward]. change (teqb (final loop_machine 0) None) with true.
  cbn [arcs loop_machine machine_of nth nextstate]. apply IH.
Qed.

Lemma loop_diverges :
  exists m : fst_t (option N),
    connected None teqb m /\ (exists p, accepted None teqb m p) /\
    forall fuel, make None teqb fuel m false = Diverges.
Proof.
  exists loop_machine. split; [|split].
  - assert (H : forall p s l t, (s = 0 \/ s = 1) ->
               follow loop_machine s p = Some (l, t) -> t = 0 \/ t = 1).
    { induction p as [|j p IH]; intros s l t Hs E; cbn [follow] in E.
      - injection E as _ <-. exact Hs.
      - destruct (nth_error (arcs loop_machine s) j) as [a|] eqn:Ea;
          [|discriminate].
        destruct (follow loop_machine (nextstate a) p) as [[l1 t1]|] eqn:E1;
          [|discriminate].
        injection E as _ <-. apply (IH (nextstate a) l1); [|exact E1].
        destruct Hs as [-> | ->]; simpl in Ea.
        + destruct j as [|[|j]]; simpl in Ea.
          * injection Ea as <-. left; reflexivity.
          * injection Ea as <-. right; reflexivity.
          * destruct j; discriminate.
        + destruct j; discriminate. }
    intros p l t (s & Es & El) Ha. injection Es as <-.
    destruct (H p 0 l t (or_introl eq_refl) El) as [-> | ->].
    + discriminate Ha.
    + reflexivity.
  - exists [1]. exists [Arc 98%N 98%N (Some 0%N) 1], 1. split; [|reflexivity].
    exists 0. split; reflexivity.
  - intros fuel. unfold make, reset, loop_machine.
    cbn [start machine_of acyclic_property andb].
    change (teqb (final (machine_of [None; Some 0%N]
      [[Arc 97%N 97%N (Some 0%N) 0; Arc 98%N 98%N (Some 0%N) 1]; []] false) 0)
      None) with true.
    cbn. change (machine_of [None; Some 0%N]
      [[Arc 97%N 97%N (Some 0%N) 0; Arc 98%N 98%N (Some 0%N) 1]; []] false)
      with loop_machine. rewrite loop_forward. reflexivity.
Qed.
