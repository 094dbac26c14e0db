From Coq Require Import Ascii String.
From Verif Require Import Base ContainerModel ContainerSpec ContainerProofs InventoryModel InventorySpec.
Local Open Scope list_scope.

Lemma obj_eqb_eq x : forall y, obj_eqb x y = true <-> x = y.
Proof.
  induction x as [k i|s|i|k l IH|b] using obj_rect2; intros [k' i'|s'|i'|k' l'|b']; simpl; try (split; intros; discriminate).
  - rewrite andb_true_iff, !N.eqb_eq. split; [intros [-> ->]; auto|intros E; injection E; auto].
  - rewrite str_eqb_eq. split; congruence.
  - rewrite N.eqb_eq. split; congruence.
  - rewrite andb_true_iff, N.eqb_eq.
    assert (Q : forall l', (fix go l l' := match l, l' with [], [] => true | a :: r, b :: r' => obj_eqb a b && go r r' | _, _ => false end) l l' = true <-> l = l').
    { induction IH as [|y l Hy Hl IHl]; intros [|z m]; try (split; intros; congruence; discriminate). rewrite andb_true_iff, Hy, IHl. split; [intros [-> ->]; auto|intros E; injection E; auto]. }
    rewrite Q. split; [intros [-> ->]; auto|intros E; injection E; auto].
  - rewrite Nat.eqb_eq. split; congruence.
Qed.
Lemma existsb_obj v l : existsb (obj_eqb v) l = true <-> In v l.
Proof.
  rewrite existsb_exists. split; [intros (x & I & E); apply obj_eqb_eq in E; subst; auto|]. intros I. exists v. split; auto. apply obj_eqb_eq. reflexivity.
Qed.
Lemma has_str_In k l : has_str k l = true <-> In k l.
Proof.
  unfold has_str. rewrite existsb_exists. split; [intros (x & I & E); apply str_eqb_eq in E; subst; auto|]. intros I. exists k. split; auto. apply str_eqb_refl.
Qed.
Lemma has_str_not k l : has_str k l = false <-> ~ In k l.
Proof. rewrite <- has_str_In. destruct (has_str k l); split; congruence. Qed.

Lemma lookup_In {A} k (v : A) l : lookup k l = Some v -> In (k, v) l.
Proof. induction l as [|[k' v'] l IH]; simpl; [discriminate|]. destruct (str_eqb k k') eqn:E; [apply str_eqb_eq in E; intros X; injection X as ->; subst; auto|auto]. Qed.
Lemma lookup_None {A} k (l : list (str * A)) : lookup k l = None <-> ~ In k (map fst l).
Proof.
  induction l as [|[k' v'] l IH]; simpl; [tauto|]. destruct (str_eqb k k') eqn:E.
  - apply str_eqb_eq in E. subst. split; [discriminate|]. intros H. destruct H. auto.
  - apply str_eqb_neq in E. rewrite IH. split; intros H; [intros [X|X]; [congruence|auto]|auto].
Qed.
Lemma lookup_nodup {A} k (v : A) l : NoDup (map fst l) -> In (k, v) l -> lookup k l = Some v.
Proof.
  induction l as [|[k' v'] l IH]; simpl; [contradiction|]. intros N I. inversion N; subst. destruct I as [I|I].
  - injection I as -> ->. rewrite str_eqb_refl. reflexivity.
  - destruct (str_eqb k k') eqn:E; [|auto]. apply str_eqb_eq in E. subst. destruct H1. apply (in_map fst) in I. exact I.
Qed.

Section Heap.
  Variable h : heap.
  Variable c : container.
  Variable reserved : list str.

  Definition same_kind (s : inv) : Prop := c_class (i_container s) = c_class c /\ c_type (i_container s) = c_type c /\ i_reserved s = reserved.
  Definition good (s : inv) (es : list entry) : Prop :=
    same_kind s /\ holds s es /\ NoDup (map (fun e => alias_of e) es) /\ (forall e, In e es -> ~ In (alias_of e) method_names /\ ~ In (alias_of e) reserved) /\
    NoDup (entry_items es) /\ Forall (takeable h c) (entry_items es).

  Lemma entry_items_app es fs : entry_items (es ++ fs) = entry_items es ++ entry_items fs.
  Proof. unfold entry_items. apply flat_map_app. Qed.
  Lemma fields_aliases s es : holds s es -> map fst (i_fields s) = map (fun e => alias_of e) es.
  Proof. intros H. rewrite (holds_fields _ _ H), map_map. reflexivity. Qed.
  Lemma method_ok s es m : good s es -> In m method_names -> method s m = true.
  Proof.
    intros (_ & H & _ & M & _) I. unfold method. rewrite (fields_aliases _ _ H). apply negb_true_iff, has_str_not. intros J. apply in_map_iff in J as (e & E & J). subst. destruct (M e J). contradiction.
  Qed.

  Lemma add_field_spec s es a v : good s es ->
    (free reserved es a /\ fst (add_field s a v) = true /\ snd (add_field s a v) = Inv (i_container s) (i_reserved s) (i_fields s ++ [(a, v)]) (item_aliases s) (suppl_aliases s)) \/
    (~ free reserved es a /\ add_field s a v = (false, s)).
  Proof.
    intros G. pose proof G as (K & H & _). unfold add_field. rewrite (fields_aliases _ _ H). destruct K as (_ & _ & ->).
    destruct (has_str a reserved) eqn:R; simpl.
    - right. split; auto. intros [F _]. apply has_str_In in R. auto.
    - apply has_str_not in R. destruct (has_str a (map (fun e => alias_of e) es)) eqn:F.
      + right. split; auto. intros [_ Q]. apply has_str_In in F. apply in_map_iff in F as (e & E & I). destruct (Q e I E).
      + left. apply has_str_not in F. split; [|auto]. split; auto. intros e I E. apply F. apply in_map_iff. eauto.
  Qed.

  Lemma good_add s es a v b : good s es -> free reserved es a -> ~ In a method_names -> (b = true -> takeable h c v /\ ~ In v (entry_items es)) ->
    good (let s' := Inv (i_container s) (i_reserved s) (i_fields s ++ [(a, v)]) (item_aliases s) (suppl_aliases s) in if b : bool then append_item s' a v else append_suppl s' a) (es ++ [(a, v, b)]).
  Proof.
    intros (K & H & N & M & D & T) F NM B. split; [|split; [|split; [|split; [|split]]]].
    - destruct b; exact K.
    - destruct H as [H1 H2 H3 H4]. unfold items_of in *. destruct b; constructor; unfold items_of; simpl; rewrite ?map_app, ?filter_app, ?entry_items_app, ?map_app, ?H1, ?H2, ?H3, ?H4; simpl; rewrite ?app_nil_r; auto.
    - rewrite map_app. simpl.
      assert (Q : ~ In a (map (fun e => alias_of e) es)) by (intros I; apply in_map_iff in I as (e & E & I); destruct F as [_ F]; destruct (F e I E)).
      clear - N Q. rewrite <- (rev_involutive (_ ++ [a])). apply NoDup_rev. rewrite rev_app_distr. simpl. constructor; [rewrite <- in_rev; exact Q|apply NoDup_rev; exact N].
    - intros e I. apply in_app_or in I as [I|[<-|[]]]; auto. split; auto. apply F.
    - rewrite entry_items_app. destruct b; simpl; rewrite ?app_nil_r; auto. destruct (B eq_refl) as [_ Q].
      rewrite <- (rev_involutive (_ ++ [v])). apply NoDup_rev. rewrite rev_app_distr. simpl. constructor; [rewrite <- in_rev; exact Q|apply NoDup_rev; exact D].
    - rewrite entry_items_app. apply Forall_app. split; auto. destruct b; simpl; constructor; auto. apply B. reflexivity.
  Qed.

  Lemma field_value_spec t attr : obj_of t attr (field_value t attr).
  Proof.
    unfold obj_of, field_value. destruct attr as [|x attr]; [auto|]. destruct (lookup (x :: attr) (t_attrs t)) eqn:E.
    - right. left. split; [discriminate|]. reflexivity.
    - right. right. repeat split; auto. discriminate.
  Qed.
  Lemma valid_here s v k : same_kind s -> known h v k -> exists b, valid_item h (i_container s) v = Some b /\ (b = true <-> takeable h c v).
  Proof.
    intros (K1 & K2 & _) K. destruct (valid_item_spec h (i_container s) v k K) as (b & E & I). exists b. split; auto. rewrite I.
    unfold takeable, accepted. rewrite K1, K2. split; [eauto|]. intros (k' & K' & A). unfold known in *. rewrite K in K'. injection K' as <-. exact A.
  Qed.

  Ltac names := simpl; auto 10.
  Lemma inv_step_spec s es o : good s es -> safe_op o -> op_value_known h o ->
    exists a s' es', inv_step h s o = Some (a, s') /\ entry_step h c reserved es o a es' /\ good s' es'.
  Proof.
    intros G Sf KV. pose proof G as (K & H & N & M & D & T).
    assert (Me : forall m, In m method_names -> method s m = true) by (intros; eapply method_ok; eauto).
    assert (MK : forall a v, ~ In a method_names -> exists b s' es', make_suppl s a v = Some (b, s') /\ entry_step h c reserved es (MakeSuppl a v) (Added b) es' /\ (if b then free reserved es a /\ es' = es ++ [(a, v, false)] else ~ free reserved es a /\ es' = es) /\ good s' es').
    { intros a v NM. unfold make_suppl. rewrite (Me (codes "make_suppl")), (Me (codes "_add_field")) by names. cbn [negb orb].
      destruct (add_field_spec s es a v G) as [(F & E1 & E2)|(F & E)].
      - destruct (add_field s a v) as [b s1]. cbn [fst snd] in *. subst b s1. do 3 eexists. split; [reflexivity|]. split; [apply made; exact F|]. split; [split; auto|].
        apply (good_add s es a v false G F NM). discriminate.
      - rewrite E. do 3 eexists. split; [reflexivity|]. split; [apply not_made; exact F|]. split; [split; auto|]. exact G. }
    destruct o as [t attr|t|a v|xs|a d]; cbn [inv_step].
    - destruct KV as (k & KV). unfold add_item. rewrite (Me (codes "add_item")), (Me (codes "valid_item")), (Me (codes "_add_field")) by names. cbn [negb orb].
      set (v := field_value t attr) in *. destruct (valid_here s v k K KV) as (b & E & B). rewrite E.
      assert (Hit := holds_items _ _ H). rewrite Hit.
      destruct b; cbn [negb orb].
      + destruct (existsb (obj_eqb v) (entry_items es)) eqn:X.
        * apply existsb_obj in X. do 3 eexists. split; [reflexivity|]. split; [|exact G]. cbn [fst]. apply item_refused with v; [apply field_value_spec|]. tauto.
        * assert (X' : ~ In v (entry_items es)) by (rewrite <- existsb_obj, X; discriminate).
          destruct (add_field_spec s es (t_alias t) v G) as [(F & E1 & E2)|(F & E3)].
          -- destruct (add_field s (t_alias t) v) as [b' s1]. cbn [fst snd] in *. subst b' s1. do 3 eexists. split; [reflexivity|]. split.
             ++ apply (item_added h c reserved es t attr v); auto; [apply field_value_spec|apply B; reflexivity].
             ++ apply (good_add s es (t_alias t) v true G F); [apply Sf; reflexivity|]. intros _. split; auto. apply B. reflexivity.
          -- rewrite E3. do 3 eexists. split; [reflexivity|]. split; [|exact G]. apply item_refused with v; [apply field_value_spec|]. tauto.
      + do 3 eexists. split; [reflexivity|]. split; [|exact G]. apply item_refused with v; [apply field_value_spec|]. intros [Q _]. apply B in Q. discriminate.
    - unfold add_suppl. rewrite (Me (codes "add_suppl")) by names. cbn [negb]. destruct (MK (t_alias t) (t_value t)) as (b & s' & es' & E & _ & B & G'); [apply Sf; reflexivity|].
      rewrite E. exists (Added b), s', es'. split; [reflexivity|]. split; auto. destruct b, B as [F ->]; constructor; exact F.
    - destruct (MK a v) as (b & s' & es' & E & B & _ & G'); [apply Sf; reflexivity|]. rewrite E. exists (Added b), s', es'. split; [reflexivity|]. auto.
    - rewrite (Me (codes "add")) by names. exists Self, s, es. split; [reflexivity|]. split; [constructor|exact G].
    - unfold get. rewrite (Me (codes "get")) by names. cbn [negb].
      rewrite (holds_item_aliases _ _ H), (holds_suppl_aliases _ _ H), (holds_fields _ _ H).
      assert (A : has_str a (map (fun e => alias_of e) (filter (fun e : entry => snd e) es)) || has_str a (map (fun e => alias_of e) (filter (fun e : entry => negb (snd e)) es)) = true <-> exists e, In e es /\ alias_of e = a).
      { rewrite orb_true_iff, !has_str_In, !in_map_iff. split.
        - intros [(e & E & I)|(e & E & I)]; apply filter_In in I as [I _]; eauto.
        - intros (e & I & E). destruct (snd e) eqn:Sn; [left|right]; exists e; split; auto; apply filter_In; rewrite Sn; auto. }
      destruct (has_str a (map (fun e => alias_of e) (filter (fun e : entry => snd e) es)) || has_str a (map (fun e => alias_of e) (filter (fun e : entry => negb (snd e)) es))) eqn:Q.
      + destruct (proj1 A eq_refl) as (((a' & v) & b) & I & E). simpl in E. subst a'.
        rewrite (lookup_nodup a v).
        * exists (Found v), s, es. split; [reflexivity|]. split; [|exact G]. eapply found; eauto.
        * rewrite map_map. exact N.
        * apply in_map_iff. exists (a, v, b). auto.
      + exists (Found d), s, es. split; [reflexivity|]. split; [|exact G]. apply not_found. intros e I E. assert (false = true) by (apply A; eauto). discriminate.
  Qed.

  Lemma inv_run_spec s es os : good s es -> Forall safe_op os -> Forall (op_value_known h) os ->
    exists as_ s' es', inv_run h s os = Some (as_, s') /\ entry_steps h c reserved es os as_ es' /\ good s' es'.
  Proof.
    intros G Sf KV. revert s es G. induction os as [|o os IH]; intros s es G.
    - exists [], s, es. split; [reflexivity|]. split; [constructor|exact G].
    - inversion Sf; inversion KV; subst. destruct (inv_step_spec s es o G) as (a & s1 & es1 & E1 & S1 & G1); auto.
      destruct (IH H2 H6 s1 es1 G1) as (as_ & s2 & es2 & E2 & S2 & G2). exists (a :: as_), s2, es2. simpl. rewrite E1, E2. split; [reflexivity|]. split; auto. econstructor; eauto.
  Qed.
End Heap.

Lemma good_new h cls typed reserved : good h (Container cls typed []) reserved (new_inventory cls typed reserved) [].
Proof. repeat split; simpl; auto; try constructor; contradiction. Qed.

(** Every history of an inventory is a history of its list of entries. *)
Lemma inventory_history h cls typed reserved os : Forall safe_op os -> Forall (op_value_known h) os ->
  exists answers s es, inv_run h (new_inventory cls typed reserved) os = Some (answers, s) /\
    entry_steps h (Container cls typed []) reserved [] os answers es /\ holds s es.
Proof.
  intros Sf KV. destruct (inv_run_spec h (Container cls typed []) reserved _ [] os (good_new h cls typed reserved) Sf KV) as (as_ & s & es & E & S1 & (_ & H & _)). eauto 10.
Qed.

(** Lists of entries made that way have no alias twice and no item twice. *)
Lemma entry_step_nodup h c reserved es o a es' : entry_step h c reserved es o a es' ->
  NoDup (map (fun e => alias_of e) es) -> NoDup (entry_items es) -> NoDup (map (fun e => alias_of e) es') /\ NoDup (entry_items es') /\ exists more, es' = es ++ more.
Proof.
  assert (R : forall A (l : list A) x, NoDup l -> ~ In x l -> NoDup (l ++ [x])).
  { intros A l x N I. rewrite <- (rev_involutive (l ++ [x])). apply NoDup_rev. rewrite rev_app_distr. simpl. constructor; [rewrite <- in_rev; exact I|apply NoDup_rev; exact N]. }
  assert (Fr : forall es a, free reserved es a -> ~ In a (map (fun e : entry => alias_of e) es)).
  { intros l x [_ F] I. apply in_map_iff in I as (e & E & I). destruct (F e I E). }
  intros St N D. inversion St; subst; try (repeat split; auto; exists []; rewrite app_nil_r; reflexivity).
  - rewrite map_app, entry_items_app. simpl. repeat split; eauto.
  - rewrite map_app, entry_items_app. simpl. rewrite app_nil_r. repeat split; eauto.
  - rewrite map_app, entry_items_app. simpl. rewrite app_nil_r. repeat split; eauto.
Qed.
Lemma entry_steps_nodup h c reserved es os as_ es' : entry_steps h c reserved es os as_ es' ->
  NoDup (map (fun e => alias_of e) es) -> NoDup (entry_items es) -> NoDup (map (fun e => alias_of e) es') /\ NoDup (entry_items es') /\ exists more, es' = es ++ more.
Proof.
  induction 1 as [|es o a es1 os as_ es2 S1 S2 IH]; intros N D; [repeat split; auto; exists []; rewrite app_nil_r; reflexivity|].
  destruct (entry_step_nodup _ _ _ _ _ _ _ S1 N D) as (N1 & D1 & m1 & ->). destruct (IH N1 D1) as (N2 & D2 & m2 & ->). repeat split; auto. exists (m1 ++ m2). rewrite app_assoc. reflexivity.
Qed.

Lemma entry_value_unique (es : list entry) a v b w b' : NoDup (map (fun e => alias_of e) es) -> In (a, v, b) es -> In (a, w, b') es -> v = w.
Proof.
  induction es as [|[[a' v'] c'] es IH]; simpl; [contradiction|]. intros N I J. inversion N; subst.
  assert (Q : forall x y, In (a, x, y) es -> In a (map (fun e => alias_of e) es)) by (intros x y K; apply in_map_iff; exists (a, x, y); auto).
  destruct I as [I|I], J as [J|J]; [congruence| | |eauto].
  - injection I as -> -> ->. destruct (H1 (Q _ _ J)).
  - injection J as -> -> ->. destruct (H1 (Q _ _ I)).
Qed.
Lemma entry_step_unique h c reserved es o a es' a2 es2 : NoDup (map (fun e => alias_of e) es) -> entry_step h c reserved es o a es' -> entry_step h c reserved es o a2 es2 -> a = a2 /\ es' = es2.
Proof.
  assert (U : forall t attr v w, obj_of t attr v -> obj_of t attr w -> v = w).
  { intros t attr v w [[-> ->]|[[A B]|(A & B & ->)]] [[E ->]|[[A' B']|(A' & B' & ->)]]; try congruence; contradiction. }
  intros N S1 S2. destruct S1; inversion S2; subst; auto; try (exfalso; tauto);
    try (match goal with H : obj_of ?t ?a ?v, H' : obj_of ?t ?a ?w |- _ => rewrite (U t a v w H H') in * end; auto; exfalso; tauto).
  - split; auto. f_equal. eapply entry_value_unique; eauto.
  - exfalso. match goal with I : In _ ?l, F : forall e, In e ?l -> _ |- _ => apply (F _ I) end. reflexivity.
  - exfalso. match goal with I : In _ ?l, F : forall e, In e ?l -> _ |- _ => apply (F _ I) end. reflexivity.
Qed.

Lemma from_list_history h cls typed reserved items attr suppls s : from_list h cls typed reserved items attr suppls = Some s ->
  exists answers, inv_run h (new_inventory cls typed reserved) (map (fun t => AddItem t attr) items ++ map AddSuppl suppls) = Some (answers, s).
Proof.
  unfold from_list. generalize (new_inventory cls typed reserved) as s0. induction items as [|t items IH]; simpl; intros s0.
  - revert s0. induction suppls as [|t suppls IH]; simpl; intros s0 E; [injection E as <-; eexists; reflexivity|].
    destruct (add_suppl s0 t) as [[b s1]|]; simpl in *; [|discriminate]. destruct (IH s1 E) as (as_ & ->). simpl. eexists. reflexivity.
  - destruct (add_item h s0 t attr) as [[b s1]|]; simpl in *; [|discriminate]. intros E. destruct (IH s1 E) as (as_ & ->). simpl. eexists. reflexivity.
Qed.

(** An item called "get" is there, but nothing can be looked up any more. *)
Lemma shadowed : exists s, inv_run [] (new_inventory 9 None base_attributes) [AddItem (Thing (Plain 5 1) (codes "get") (Plain 5 1) []) []] = Some ([Added true], s) /\
  forall a d, get s a d = None.
Proof. eexists. split; [vm_compute; reflexivity|]. intros a d. reflexivity. Qed.
Lemma shadowed_add : exists s, inv_run [] (new_inventory 9 None base_attributes) [MakeSuppl (codes "_add_field") (Plain 5 1)] = Some ([Added true], s) /\
  forall t, valid_item [] (i_container s) (t_self t) = Some true -> add_item [] s t [] = None.
Proof. eexists. split; [vm_compute; reflexivity|]. intros t E. unfold add_item. simpl in *. rewrite E. reflexivity. Qed.
