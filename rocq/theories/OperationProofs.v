From Coq Require Import Ascii String Sorted.
From Verif Require Import Base ContainerModel ContainerSpec ContainerProofs InventoryModel InventorySpec InventoryProofs OperationModel OperationSpec.
Local Open Scope list_scope.

(** ** Dictionaries with increasing keys *)
Definition below_all (k : N) (d : list (N * nat)) : Prop := forall k' v, In (k', v) d -> (k' < k)%N.
Definition increasing (d : list (N * nat)) : Prop := StronglySorted N.lt (map fst d).

Lemma dict_get_In {A} k (v : A) d : dict_get k d = Some v -> In (k, v) d.
Proof. induction d as [|[k' v'] d IH]; simpl; [discriminate|]. destruct (N.eqb_spec k k') as [->|]; [intros E; injection E as ->; auto|auto]. Qed.
Lemma dict_set_new k v d : below_all k d -> dict_set k v d = d ++ [(k, v)].
Proof.
  induction d as [|[k' v'] d IH]; simpl; auto. intros B. destruct (N.eqb_spec k k') as [->|_].
  - assert (k' < k')%N by (apply (B k' v'); left; reflexivity). lia.
  - rewrite IH; auto. intros k2 v2 I. apply (B k2 v2). right. exact I.
Qed.
Lemma dict_get_app {A} k (d : list (N * A)) e : dict_get k (d ++ e) = match dict_get k d with Some v => Some v | None => dict_get k e end.
Proof. induction d as [|[k' v'] d IH]; simpl; auto. destruct (N.eqb k k'); auto. Qed.
Lemma dict_get_below k d : below_all k d -> dict_get k d = None.
Proof.
  intros B. destruct (dict_get k d) as [v|] eqn:E; auto. apply dict_get_In in E. apply B in E. lia.
Qed.
Lemma increasing_app d k v : increasing d -> below_all k d -> increasing (d ++ [(k, v)]).
Proof.
  unfold increasing. induction d as [|[k' v'] d IH]; simpl; intros I B; [repeat constructor|]. inversion I; subst. constructor.
  - apply IH; auto. intros a b J. apply (B a b). right. exact J.
  - rewrite map_app. apply Forall_app. split; auto. constructor; [|constructor]. apply (B k' v'). left. reflexivity.
Qed.
Lemma max_key_spec (d : list (N * nat)) m : max_key d = Some m -> (exists v, In (m, v) d) /\ forall k v, In (k, v) d -> (k <= m)%N.
Proof.
  unfold max_key. destruct d as [|[k0 v0] d]; simpl; [discriminate|]. intros E. injection E as <-.
  assert (Q : forall (d : list (N * nat)) k, (k <= fold_left N.max (map fst d) k)%N /\ (forall k' v, In (k', v) d -> (k' <= fold_left N.max (map fst d) k)%N) /\ (fold_left N.max (map fst d) k = k \/ exists v, In (fold_left N.max (map fst d) k, v) d)).
  { clear. induction d as [|[k1 v1] d IH]; simpl; intros k; [split; [lia|split; [contradiction|auto]]|].
    destruct (IH (N.max k k1)) as (A & B & C). split; [lia|split].
    - intros k' v [E|I]; [injection E as -> ->; lia|eauto].
    - destruct C as [C|(v & C)]; [|right; exists v; auto]. rewrite C. destruct (N.max_spec k k1) as [[_ ->]|[_ ->]]; eauto. }
  destruct (Q d k0) as (A & B & C). split.
  - destruct C as [->|(v & C)]; eauto.
  - intros k v [E|I]; [injection E as -> ->; lia|eauto].
Qed.

(** ** One operation *)
Lemma add_item_cases b t added b' : add_item [] b t [] = Some (added, b') ->
  if added then items_of b' = items_of b ++ [t_self t] else b' = b.
Proof.
  unfold add_item. destruct (negb (method b (codes "add_item")) || negb (method b (codes "valid_item"))); [discriminate|]. cbn [field_value].
  destruct (valid_item [] (i_container b) (t_self t)) as [ok|]; [|discriminate]. destruct (negb ok || existsb (obj_eqb (t_self t)) (items_of b)); [intros E; injection E as <- <-; reflexivity|].
  destruct (negb (method b (codes "_add_field"))); [discriminate|]. unfold add_field. destruct (has_str (t_alias t) (i_reserved b) || has_str (t_alias t) (map fst (i_fields b))); intros E; injection E as <- <-; reflexivity.
Qed.

Definition ok_dict (s : op_inv) : Prop :=
  (prefix s mod 10 = 0)%N /\ increasing (index_dict s) /\
  (forall k id, In (k, id) (index_dict s) -> is_item s id /\ (prefix s < k)%N /\ (k mod 10 <> 0)%N /\ exists o, nth_error (ops s) id = Some o /\ o_index o = k) /\
  match items_of (base s) with
  | [] => index_dict s = []
  | [_] => index_dict s = [] \/ exists id, index_dict s = [((prefix s + 1)%N, id)]
  | _ => True
  end.

Ltac Zify.zify_post_hook ::= Z.to_euclidean_division_equations.
Lemma next_index_above s index : ok_dict s -> next_index s = Some index -> below_all index (index_dict s) /\ (prefix s < index)%N /\ (index mod 10 <> 0)%N /\
  (items_of (base s) = [] -> index = (prefix s + 1)%N).
Proof.
  intros (P & I & D & L). unfold next_index. destruct (items_of (base s)) as [|x [|y l]].
  - intros E. injection E as <-. rewrite L. split; [intros k v []|]. repeat split; lia.
  - intros E. injection E as <-. split; [|repeat split; try lia; discriminate]. intros k v J. destruct L as [L|(id & L)]; rewrite L in J; [destruct J|]. destruct J as [J|[]]. injection J as <- _. lia.
  - destruct (max_key (index_dict s)) as [m|] eqn:M; [|discriminate]. intros E. injection E as <-. apply max_key_spec in M as [(v & M) Ms]. destruct (D m v M) as (_ & D1 & D2 & _).
    destruct (N.eqb_spec ((m + 1) mod 10) 0) as [Z|Z].
    + split; [intros k w J; specialize (Ms k w J); lia|]. repeat split; try lia. discriminate.
    + split; [intros k w J; specialize (Ms k w J); lia|]. repeat split; try lia. discriminate.
Qed.
Ltac Zify.zify_post_hook ::= idtac.

Lemma make_cases s a c id s' : make_operation s a c = Some (id, s') ->
  exists index added, next_index s = Some index /\ id = length (ops s) /\ prefix s' = prefix s /\ ops s' = ops s ++ [Op a c index id id id] /\
    index_dict s' = (if added : bool then dict_set index id (index_dict s) else index_dict s) /\
    (if added then items_of (base s') = items_of (base s) ++ [op_obj id] else base s' = base s).
Proof.
  unfold make_operation. destruct (negb (method (base s) (codes "_make_operation")) || negb (method (base s) (codes "_next_index"))); [discriminate|].
  destruct (next_index s) as [index|]; [|discriminate]. destruct (add_item [] (base s) (op_thing (length (ops s)) a) []) as [[added b]|] eqn:E; [|discriminate].
  intros X. injection X as <- <-. exists index, added. cbn [prefix ops index_dict base]. repeat split; auto. apply (add_item_cases _ _ _ _ E).
Qed.

Definition keeps (s s' : op_inv) : Prop := forall index id, index_lookup s index = Some id -> index_lookup s' index = Some id.

Lemma make_ok s a c id s' : ok_dict s -> make_operation s a c = Some (id, s') -> ok_dict s' /\ keeps s s'.
Proof.
  intros O M. destruct (make_cases _ _ _ _ _ M) as (index & added & N & Eid & Pf & Op_ & Di & It). destruct (next_index_above s index O N) as (B & P1 & P2 & P3).
  destruct O as (P & I & D & L). destruct added.
  - rewrite dict_set_new in Di by exact B. split.
    + unfold ok_dict. rewrite Pf, Di, It. split; auto. split; [apply increasing_app; auto|]. split.
      * intros k j J. apply in_app_or in J as [J|[J|[]]].
        -- destruct (D k j J) as (D1 & D2 & D3 & o & D4 & D5). repeat split; auto.
           ++ unfold is_item. rewrite It. apply in_or_app. auto.
           ++ exists o. split; auto. rewrite Op_. rewrite nth_error_app1; auto. apply nth_error_Some. congruence.
        -- injection J as <- <-. repeat split; auto.
           ++ unfold is_item. rewrite It. apply in_or_app. right. left. reflexivity.
           ++ eexists. split; [rewrite Op_, Eid, nth_error_app2, Nat.sub_diag by lia; reflexivity|reflexivity].
      * destruct (items_of (base s)) as [|x [|y l]]; simpl; auto. right. exists id. rewrite L, P3; auto.
    + intros i j J. unfold index_lookup in *. rewrite Di, dict_get_app, J. reflexivity.
  - split; [|intros i j J; unfold index_lookup in *; rewrite Di; exact J].
    unfold ok_dict. rewrite Pf, Di, It. repeat split; auto; destruct (D k id0 H) as (D1 & D2 & D3 & o & D4 & D5); auto.
    + unfold is_item in *. rewrite It. exact D1.
    + exists o. split; auto. rewrite Op_, nth_error_app1; auto. apply nth_error_Some. congruence.
Qed.

(** An operation that was added is found by its index. *)
Lemma make_found s a c id s' : ok_dict s -> (forall i, is_item s i -> i < length (ops s)) -> make_operation s a c = Some (id, s') -> is_item s' id ->
  exists o, nth_error (ops s') id = Some o /\ o_alias o = a /\ o_cost o = c /\ index_lookup s' (o_index o) = Some id.
Proof.
  intros O R M It'. destruct (make_cases _ _ _ _ _ M) as (index & added & N & Eid & Pf & Op_ & Di & It). destruct (next_index_above s index O N) as (B & _).
  exists (Op a c index id id id). split; [rewrite Op_, Eid, nth_error_app2, Nat.sub_diag by lia; reflexivity|]. repeat split. cbn [o_index].
  destruct added.
  - unfold index_lookup. rewrite Di, dict_set_new by exact B. rewrite dict_get_app, dict_get_below by exact B. simpl. rewrite N.eqb_refl. reflexivity.
  - exfalso. unfold is_item in It'. rewrite It in It'. apply R in It'. lia.
Qed.

Lemma op_do_ok s o s' : ok_dict s -> op_do s o = Some s' -> ok_dict s' /\ keeps s s'.
Proof.
  intros O. destruct o as [a c|a c i|id]; simpl.
  - destruct (make_operation s a c) as [[id s1]|] eqn:M; simpl; [|discriminate]. intros E. injection E as <-. eapply make_ok; eauto.
  - intros E. injection E as <-. split; [|intros x y H; exact H]. destruct O as (P & I & D & L). repeat split; auto; cbn [index_dict foreign prefix base ops] in *; destruct (D k id H) as (D1 & D2 & D3 & o & D4 & D5); auto.
    exists o. split; auto. rewrite nth_error_app1; auto. apply nth_error_Some. congruence.
  - unfold add_operation. destruct (nth_error (ops s) id) as [o|] eqn:Eo; [|discriminate]. destruct (add_item [] (base s) (op_thing id (o_alias o)) []) as [[added b]|] eqn:E; simpl; [|discriminate].
    intros X. injection X as <-. split; [|intros x y H; exact H]. apply add_item_cases in E. destruct O as (P & I & D & L). destruct added.
    + unfold ok_dict. cbn [index_dict prefix base ops]. rewrite E. repeat split; auto.
      * destruct (D k id0 H) as (D1 & _). unfold is_item in *. cbn [base]. rewrite E. apply in_or_app. auto.
      * apply (D k id0 H).
      * apply (D k id0 H).
      * apply (D k id0 H).
      * destruct (items_of (base s)) as [|x [|y l]]; simpl; auto.
    + subst b. repeat split; auto; apply (D k id0 H).
Qed.

Lemma new_ok os p : (p mod 10 = 0)%N -> ok_dict (new_op_inv os p).
Proof. intros P. repeat split; auto; try (destruct H; fail). constructor. Qed.

(** After any history: indices increase, are above the prefix, are no multiples of ten,
    and lead to the operation with that index. *)
Lemma op_history os p l s : (p mod 10 = 0)%N -> op_run (new_op_inv os p) l = Some s ->
  StronglySorted N.lt (map fst (index_dict s)) /\
  forall index id, index_lookup s index = Some id -> is_item s id /\ (p < index)%N /\ (index mod 10 <> 0)%N /\ exists o, nth_error (ops s) id = Some o /\ o_index o = index.
Proof.
  intros P R. assert (Q : ok_dict s /\ prefix s = p).
  { revert R. unfold op_run. generalize (new_ok os p P). assert (E : prefix (new_op_inv os p) = p) by reflexivity. revert E. generalize (new_op_inv os p) as s0.
    induction l as [|o l IH]; intros s0 E O; simpl; [intros X; injection X as <-; auto|]. destruct (op_do s0 o) as [s1|] eqn:D; [|discriminate].
    destruct (op_do_ok _ _ _ O D) as [O1 _]. apply IH; auto. rewrite <- E. destruct o as [a c|a c i|id]; simpl in D.
    - destruct (make_operation s0 a c) as [[j s2]|] eqn:M; [|discriminate]. simpl in D. injection D as <-. destruct (make_cases _ _ _ _ _ M) as (_ & _ & _ & _ & X & _). exact X.
    - injection D as <-. reflexivity.
    - unfold add_operation in D. destruct (nth_error (ops s0) id); [|discriminate]. destruct (add_item [] (base s0) _ []) as [[]|]; [|discriminate]. injection D as <-. reflexivity. }
  destruct Q as ((_ & I & D & _) & E). split; [exact I|]. intros index id L. apply dict_get_In in L. destruct (D index id L) as (A & B & C & F). rewrite E in B. auto.
Qed.
Lemma op_kept os p l l' s s' : (p mod 10 = 0)%N -> op_run (new_op_inv os p) l = Some s -> op_run s l' = Some s' ->
  forall index id, index_lookup s index = Some id -> index_lookup s' index = Some id.
Proof.
  intros P R R'. assert (O : ok_dict s).
  { revert R. unfold op_run. generalize (new_ok os p P). generalize (new_op_inv os p) as s0. induction l as [|o l IH]; intros s0 O; simpl; [intros X; injection X as <-; auto|].
    destruct (op_do s0 o) as [s1|] eqn:D; [|discriminate]. destruct (op_do_ok _ _ _ O D). apply IH. auto. }
  clear R. revert s O R'. unfold op_run. induction l' as [|o l' IH]; simpl; intros s O R' index id; [injection R' as <-; auto|].
  destruct (op_do s o) as [s1|] eqn:D; [|discriminate]. destruct (op_do_ok _ _ _ O D) as [O1 K]. intros L. apply (IH s1 O1 R'). auto.
Qed.

(** The only way for an index to be missing *)
Lemma next_index_total s : next_index s = None <-> 2 <= length (items_of (base s)) /\ index_dict s = [].
Proof.
  unfold next_index. destruct (items_of (base s)) as [|x [|y l]]; simpl; try (split; [discriminate|lia]).
  unfold max_key. destruct (index_dict s) as [|[k v] d]; simpl; split; try discriminate; [split; [lia|reflexivity]|auto|intros [_ H]; discriminate].
Qed.

Lemma NoDup_app_l {A} (l m : list A) : NoDup (l ++ m) -> NoDup l.
Proof. induction l as [|x l IH]; simpl; intros N; [constructor|]. inversion N; subst. constructor; auto. intros I. apply H1. apply in_or_app. auto. Qed.

(** ** from_args *)
Fixpoint numbered (k : nat) (names : list (str * Z)) : list entry :=
  match names with [] => [] | (a, _) :: r => (a, op_obj k, true) :: numbered (S k) r end.
Definition full (k : nat) (p : N) (names : list (str * Z)) (s : op_inv) : Prop :=
  prefix s = p /\ good [] (Container inv_class (Some [op_class]) []) op_attributes (base s) (numbered k names) /\
  index_dict s = map (fun i => (nth_index p i, k + i)) (seq 0 (length names)) /\
  length (ops s) = k + length names.

Lemma numbered_app k l a c : numbered k (l ++ [(a, c)]) = numbered k l ++ [(a, op_obj (k + length l), true)].
Proof. revert k; induction l as [|[b d] l IH]; intros k; simpl; [rewrite Nat.add_0_r; reflexivity|]. rewrite IH. rewrite Nat.add_succ_r. reflexivity. Qed.
Lemma numbered_aliases k l : map (fun e => alias_of e) (numbered k l) = map fst l.
Proof. revert k; induction l as [|[b d] l IH]; intros k; simpl; auto. rewrite IH. reflexivity. Qed.
Lemma numbered_items k l : entry_items (numbered k l) = map op_obj (seq k (length l)).
Proof. revert k; induction l as [|[b d] l IH]; intros k; simpl; auto. rewrite <- IH. reflexivity. Qed.

Ltac Zify.zify_post_hook ::= Z.to_euclidean_division_equations.
Lemma nth_index_next p n : (p mod 10 = 0)%N -> nth_index p (S n) = (let i := nth_index p n + 1 in if (i mod 10 =? 0)%N then i + 1 else i)%N.
Proof. intros P. unfold nth_index. cbv zeta. destruct (N.eqb_spec ((p + N.of_nat n + 1 + N.of_nat n / 9 + 1) mod 10) 0); lia. Qed.
Lemma nth_index_lt p n m : n < m -> (nth_index p n < nth_index p m)%N.
Proof. intros L. unfold nth_index. lia. Qed.
Lemma nth_index_0 p : nth_index p 0 = (p + 1)%N.
Proof. unfold nth_index. lia. Qed.
Lemma nth_index_1 p : nth_index p 1 = (p + 2)%N.
Proof. unfold nth_index. lia. Qed.
Lemma nth_index_facts p n : (p mod 10 = 0)%N -> (nth_index p n mod 10 <> 0)%N /\ (p < nth_index p n)%N /\ (n < 90 -> (nth_index p n < p + 100)%N).
Proof. intros P. unfold nth_index. repeat split; lia. Qed.
(** They are all the numbers that are not multiples of ten. *)
Lemma nth_index_all p i : (p mod 10 = 0)%N -> (p < i)%N -> (i mod 10 <> 0)%N -> exists n, nth_index p n = i.
Proof.
  intros P L M. exists (N.to_nat (9 * ((i - p) / 10) + (i - p) mod 10 - 1)%N). unfold nth_index. rewrite N2Nat.id. lia.
Qed.
Ltac Zify.zify_post_hook ::= idtac.

Lemma full_max p k n : max_key (map (fun i => (nth_index p i, k + i)) (seq 0 (S n))) = Some (nth_index p n).
Proof.
  destruct (max_key (map (fun i => (nth_index p i, k + i)) (seq 0 (S n)))) as [m|] eqn:E; [|discriminate].
  apply max_key_spec in E as [(v & I) M]. apply in_map_iff in I as (j & X & I). injection X as <- _. apply in_seq in I.
  specialize (M (nth_index p n) (k + n)). f_equal. assert (Q : (nth_index p n <= nth_index p j)%N) by (apply M; apply in_map_iff; exists n; split; auto; apply in_seq; lia).
  destruct (Nat.eq_dec j n) as [->|Ne]; auto. assert (j < n) by lia. pose proof (nth_index_lt p j n). lia.
Qed.

Lemma full_next k p names s : (p mod 10 = 0)%N -> full k p names s -> next_index s = Some (nth_index p (length names)).
Proof.
  intros P (E & G & D & L). unfold next_index. destruct G as (_ & H & _). rewrite (holds_items _ _ H), numbered_items, E, D.
  destruct names as [|x [|y names]]; simpl length.
  - simpl. rewrite nth_index_0. reflexivity.
  - simpl. rewrite nth_index_1. reflexivity.
  - cbn [seq map]. change (0 :: 1 :: seq 2 (length names)) with (seq 0 (S (S (length names)))).
    pose proof (full_max p k (S (length names))) as M. cbn [seq map] in M. rewrite M.
    rewrite (nth_index_next p (S (length names)) P). reflexivity.
Qed.

Lemma full_make k p names s a c : (p mod 10 = 0)%N -> full k p names s -> Forall (fun x => usable (fst x)) (names ++ [(a, c)]) -> ~ In a (map fst names) ->
  exists s', make_operation s a c = Some (k + length names, s') /\ full k p (names ++ [(a, c)]) s' /\
    ops s' = ops s ++ [Op a c (nth_index p (length names)) (k + length names) (k + length names) (k + length names)].
Proof.
  intros P F U N. pose proof (full_next k p names s P F) as Ni. destruct F as (E & G & D & L). apply Forall_app in U as [U1 U2]. inversion U2 as [|z zs [U3 U4] _]; subst z zs. cbn [fst] in U3, U4.
  unfold make_operation. rewrite Ni, L.
  assert (Me : forall m, In m (map codes ["_make_operation"; "_next_index"]%string) -> method (base s) m = true).
  { intros m I. unfold method. destruct G as (_ & H & _). rewrite (fields_aliases _ _ H), numbered_aliases. apply negb_true_iff, has_str_not. intros J. apply in_map_iff in J as (x & X & J). rewrite Forall_forall in U1. destruct (U1 x J) as [Q _]. apply Q. unfold op_methods. apply in_or_app. left. rewrite X. exact I. }
  rewrite (Me (codes "_make_operation")), (Me (codes "_next_index")) by (simpl; auto). cbn [negb orb].
  destruct (inv_step_spec [] (Container inv_class (Some [op_class]) []) op_attributes (base s) (numbered k names) (AddItem (op_thing (k + length names) a) []) G) as (an & b & es & St & Es & G').
  - intros a' X. injection X as <-. cbn [t_alias op_thing]. intros I. apply U3. unfold op_methods. apply in_or_app. auto.
  - exists op_class. reflexivity.
  - simpl in St. destruct (add_item [] (base s) (op_thing (k + length names) a) []) as [[added b0]|]; [|discriminate]. simpl in St. injection St as <- <-.
    inversion Es; subst.
    + exists (OpInv b0 (prefix s) (dict_set (nth_index (prefix s) (length names)) (k + length names) (index_dict s)) (ops s ++ [Op a c (nth_index (prefix s) (length names)) (k + length names) (k + length names) (k + length names)])).
      split; [reflexivity|]. split; [|reflexivity]. unfold full. cbn [prefix base index_dict ops]. split; auto. split.
      * rewrite numbered_app. match goal with O : obj_of _ _ v |- _ => destruct O as [[_ ->]|[[X _]|[X _]]]; [|contradiction|contradiction] end. exact G'.
      * rewrite D. rewrite dict_set_new.
        -- rewrite app_length, Nat.add_1_r, seq_S, map_app. simpl. split; auto. rewrite app_length. simpl. lia.
        -- intros k' v' I. apply in_map_iff in I as (i & X & I). injection X as <- _. apply in_seq in I. apply nth_index_lt. lia.
    + exfalso. match goal with O : obj_of _ _ v |- _ => destruct O as [[_ ->]|[[X _]|[X _]]]; [|contradiction|contradiction] end.
      match goal with Q : ~ (_ /\ _ /\ _) |- _ => apply Q end. cbn [t_self t_alias op_thing]. repeat split.
      * exists op_class. split; [reflexivity|]. left. reflexivity.
      * rewrite numbered_items. intros I. apply in_map_iff in I as (i & X & I). unfold op_obj in X. injection X as X. apply in_seq in I. lia.
      * exact U4.
      * intros e I X. apply N. rewrite <- (numbered_aliases k). apply in_map_iff. eauto.
Qed.

Lemma full_update k p names s f i j : full k p names s -> full k p names (update f i j s).
Proof.
  intros (E & G & D & L). unfold full, update. cbn [prefix base index_dict ops]. split; [exact E|]. split; [exact G|]. split; [exact D|]. destruct (nth_error (ops s) i); [rewrite replace_length|]; exact L.
Qed.

(** What the four operations of an argument look like, when made at [k] with [n] before *)
Definition made_ops (p : N) (n k : nat) (arg : str * Z) : list operation :=
  let '(a, c) := arg in
  [Op a c (nth_index p n) k (S k) (S (S k));
   Op (partial_alias a) c (nth_index p (S n)) k (S k) (S (S (S k)));
   Op (unexpected_alias a) (c + 750)%Z (nth_index p (S (S n))) k (S (S (S k))) (S (S k));
   Op (unexpected_partial_alias a) (c + 750)%Z (nth_index p (S (S (S n)))) k (S (S (S k))) (S (S (S k)))].

Lemma replace_app {A} (l m : list A) n x : replace (l ++ m) (length l + n) x = l ++ replace m n x.
Proof. induction l; simpl; auto. rewrite IHl. reflexivity. Qed.
Lemma nth_error_after {A} (l m : list A) n : nth_error (l ++ m) (length l + n) = nth_error m n.
Proof. rewrite nth_error_app2 by lia. f_equal. lia. Qed.

Lemma full_arg k p names s arg : (p mod 10 = 0)%N -> full k p names s -> Forall (fun x => usable (fst x)) (names ++ variants arg) -> NoDup (map fst (names ++ variants arg)) ->
  exists s', add_arg s arg = Some s' /\ full k p (names ++ variants arg) s' /\ ops s' = ops s ++ made_ops p (length names) (k + length names) arg.
Proof.
  destruct arg as [a c]. intros P F U N. change (variants (a, c)) with [(a, c); (partial_alias a, c); (unexpected_alias a, (c + 750)%Z); (unexpected_partial_alias a, (c + 750)%Z)] in *. unfold add_arg.
  set (x1 := (a, c)) in *. set (x2 := (partial_alias a, c)) in *. set (x3 := (unexpected_alias a, (c + 750)%Z)) in *. set (x4 := (unexpected_partial_alias a, (c + 750)%Z)) in *.
  assert (Us : forall pre post, names ++ [x1; x2; x3; x4] = pre ++ post -> Forall (fun x => usable (fst x)) pre) by (intros pre post X; rewrite X in U; apply Forall_app in U; apply U).
  assert (Ns : forall pre x post, names ++ [x1; x2; x3; x4] = pre ++ x :: post -> ~ In (fst x) (map fst pre)).
  { intros pre x post X I. rewrite X, map_app in N. simpl in N. apply NoDup_remove_2 in N. apply N. apply in_or_app. auto. }
  destruct (full_make k p names s a c P F) as (s1 & E1 & F1 & O1); [apply (Us (names ++ [x1]) [x2; x3; x4]); rewrite <- app_assoc; reflexivity|apply (Ns names x1 [x2; x3; x4]); reflexivity|]. rewrite E1.
  destruct (full_make k p (names ++ [x1]) s1 (partial_alias a) c P F1) as (s2 & E2 & F2 & O2); [apply (Us ((names ++ [x1]) ++ [x2]) [x3; x4]); rewrite <- !app_assoc; reflexivity|apply (Ns (names ++ [x1]) x2 [x3; x4]); rewrite <- !app_assoc; reflexivity|]. rewrite E2.
  destruct (full_make k p ((names ++ [x1]) ++ [x2]) s2 (unexpected_alias a) (c + 750) P F2) as (s3 & E3 & F3 & O3); [apply (Us (((names ++ [x1]) ++ [x2]) ++ [x3]) [x4]); rewrite <- !app_assoc; reflexivity|apply (Ns ((names ++ [x1]) ++ [x2]) x3 [x4]); rewrite <- !app_assoc; reflexivity|].
  change UNEXPECTED_PENALTY with 750%Z. rewrite E3.
  destruct (full_make k p (((names ++ [x1]) ++ [x2]) ++ [x3]) s3 (unexpected_partial_alias a) (c + 750) P F3) as (s4 & E4 & F4 & O4); [apply (Us ((((names ++ [x1]) ++ [x2]) ++ [x3]) ++ [x4]) []); rewrite <- !app_assoc; reflexivity|apply (Ns (((names ++ [x1]) ++ [x2]) ++ [x3]) x4 []); rewrite <- !app_assoc; reflexivity|].
  rewrite E4. eexists. split; [reflexivity|]. split.
  - repeat apply full_update. rewrite <- !app_assoc in F4. exact F4.
  - destruct F as (_ & _ & _ & L).
    assert (L1 : length (names ++ [x1]) = S (length names)) by (rewrite app_length; simpl; lia).
    assert (L2 : length ((names ++ [x1]) ++ [x2]) = S (S (length names))) by (rewrite !app_length; simpl; lia).
    assert (L3 : length (((names ++ [x1]) ++ [x2]) ++ [x3]) = S (S (S (length names)))) by (rewrite !app_length; simpl; lia).
    rewrite L1, L2, L3 in *. rewrite O1, <- app_assoc in O2. rewrite O2, <- !app_assoc in O3. rewrite O3, <- !app_assoc in O4. cbn [app] in O4. clear O1 O2 O3.
    assert (K0 : k + length names = length (ops s) + 0) by lia. assert (K1 : k + S (length names) = length (ops s) + 1) by lia.
    assert (K2 : k + S (S (length names)) = length (ops s) + 2) by lia. assert (K3 : k + S (S (S (length names))) = length (ops s) + 3) by lia.
    rewrite K0, K1, K2, K3 in O4. rewrite K0, K1, K2, K3.
    unfold update. cbn [ops base prefix index_dict]. rewrite O4.
    repeat (rewrite nth_error_after; cbn [nth_error]; rewrite replace_app; cbn [replace]).
    unfold set_partial, set_unexpected, set_match. cbn [o_alias o_cost o_index o_match o_partial o_unexpected]. unfold made_ops.
    replace (S (S (S (length (ops s) + 0)))) with (length (ops s) + 3) by lia. replace (S (S (length (ops s) + 0))) with (length (ops s) + 2) by lia. replace (S (length (ops s) + 0)) with (length (ops s) + 1) by lia.
    reflexivity.
Qed.

Fixpoint all_made (p : N) (n k : nat) (args : list (str * Z)) : list operation :=
  match args with [] => [] | arg :: r => made_ops p n k arg ++ all_made p (4 + n) (4 + k) r end.

Lemma full_args k p args : (p mod 10 = 0)%N -> forall names s, full k p names s ->
  Forall (fun x => usable (fst x)) (names ++ flat_map variants args) -> NoDup (map fst (names ++ flat_map variants args)) ->
  exists s', for_each add_arg s args = Some s' /\ full k p (names ++ flat_map variants args) s' /\
    ops s' = ops s ++ all_made p (length names) (k + length names) args.
Proof.
  intros P. induction args as [|arg args IH]; intros names s F U N.
  - exists s. simpl. rewrite !app_nil_r. rewrite app_nil_r in *. auto.
  - cbn [flat_map] in *. rewrite app_assoc in U, N.
    destruct (full_arg k p names s arg P F) as (s1 & E1 & F1 & O1).
    + apply Forall_app in U. apply U.
    + rewrite map_app in N. apply NoDup_app_l in N. exact N.
    + destruct (IH (names ++ variants arg) s1 F1 U N) as (s2 & E2 & F2 & O2). exists s2. cbn [for_each]. rewrite E1. split; auto. split; [rewrite app_assoc; exact F2|].
      rewrite O2, O1, <- app_assoc. f_equal. cbn [all_made]. f_equal.
      rewrite app_length. replace (length (variants arg)) with 4 by (destruct arg; reflexivity). f_equal; lia.
Qed.

Lemma all_made_names p args : forall n k i x, nth_error (flat_map variants args) i = Some x ->
  exists o, nth_error (all_made p n k args) i = Some o /\ o_alias o = fst x /\ o_cost o = snd x /\ o_index o = nth_index p (n + i).
Proof.
  induction args as [|[a c] args IH]; intros n k i x E; [destruct i; discriminate|].
  destruct i as [|[|[|[|i]]]]; cbn [flat_map variants app nth_error all_made made_ops fst snd] in *;
    try (injection E as <-; eexists; split; [reflexivity|]; cbn [o_alias o_cost o_index fst snd]; repeat split; f_equal; lia).
  destruct (IH (4 + n) (4 + k) i x E) as (o & E1 & E2 & E3 & E4). exists o. repeat split; auto. rewrite E4. f_equal. lia.
Qed.
Lemma all_made_links p args : forall n k j arg, nth_error args j = Some arg ->
  exists o0 o1 o2 o3, let l := all_made p n k args in let id := k + 4 * j in
    nth_error l (4 * j) = Some o0 /\ nth_error l (4 * j + 1) = Some o1 /\ nth_error l (4 * j + 2) = Some o2 /\ nth_error l (4 * j + 3) = Some o3 /\
    map o_match [o0; o1; o2; o3] = [id; id; id; id] /\ map o_partial [o0; o1; o2; o3] = [id + 1; id + 1; id + 3; id + 3] /\ map o_unexpected [o0; o1; o2; o3] = [id + 2; id + 3; id + 2; id + 3].
Proof.
  induction args as [|[a c] args IH]; intros n k j arg E; [destruct j; discriminate|]. cbv zeta. destruct j as [|j].
  - do 4 eexists. cbn [all_made made_ops app Nat.mul Nat.add nth_error]. do 4 (split; [reflexivity|]).
    cbn [map o_match o_partial o_unexpected]. repeat split; repeat (f_equal; try lia).
  - destruct (IH (4 + n) (4 + k) j arg E) as (o0 & o1 & o2 & o3 & E0 & E1 & E2 & E3 & E4 & E5 & E6). cbv zeta in *. exists o0, o1, o2, o3.
    replace (4 * S j) with (S (S (S (S (4 * j))))) by lia. cbn [all_made made_ops app Nat.add nth_error].
    do 4 (split; [assumption|]). rewrite E4, E5, E6. repeat split; repeat (f_equal; try lia).
Qed.

Lemma full_lookup k p names s n : full k p names s -> n < length names -> index_lookup s (nth_index p n) = Some (k + n).
Proof.
  intros (_ & _ & D & _) L. unfold index_lookup. rewrite D. clear D.
  assert (Q : forall m b, b <= n < b + m -> dict_get (nth_index p n) (map (fun i => (nth_index p i, k + i)) (seq b m)) = Some (k + n)).
  { induction m as [|m IH]; intros b H; [lia|]. simpl. destruct (N.eqb_spec (nth_index p n) (nth_index p b)) as [E|E].
    - assert (n = b) as ->; auto. destruct (Nat.lt_trichotomy n b) as [X|[X|X]]; auto; apply (nth_index_lt p) in X; lia.
    - apply IH. assert (n <> b) by congruence. lia. }
  apply Q. lia.
Qed.

Lemma args_spec os p args : (p mod 10 = 0)%N -> Forall (fun x => usable (fst x)) (flat_map variants args) -> NoDup (map fst (flat_map variants args)) ->
  exists s, from_args os p args = Some s /\ full (length os) p (flat_map variants args) s /\ ops s = os ++ all_made p 0 (length os) args.
Proof.
  intros P U N. destruct (full_args (length os) p args P [] (new_op_inv os p)) as (s & E & F & O); auto.
  - unfold full. cbn [prefix new_op_inv base index_dict ops length seq map]. split; auto. split; [apply good_new|]. split; auto.
  - cbn [length] in O. rewrite Nat.add_0_r in O. exists s. auto.
Qed.

(** All operations of the arguments, in order: alias, cost, index, lookup. *)
Lemma args_indices os p args : (p mod 10 = 0)%N -> Forall (fun x => usable (fst x)) (flat_map variants args) -> NoDup (map fst (flat_map variants args)) ->
  exists s, from_args os p args = Some s /\ length (index_dict s) = 4 * length args /\
    forall n x, nth_error (flat_map variants args) n = Some x ->
      exists o, nth_error (ops s) (length os + n) = Some o /\ o_alias o = fst x /\ o_cost o = snd x /\ o_index o = nth_index p n /\ index_lookup s (o_index o) = Some (length os + n).
Proof.
  intros P U N. destruct (args_spec os p args P U N) as (s & E & F & O). exists s. split; auto. split.
  - pose proof F as (_ & _ & D & _). rewrite D, map_length, seq_length. clear. induction args as [|[a c] l IH]; auto. cbn [flat_map variants app length]. rewrite IH. lia.
  - intros n x H. destruct (all_made_names p args 0 (length os) n x H) as (o & E1 & E2 & E3 & E4). exists o. rewrite O, nth_error_after. repeat split; auto. rewrite E4. eapply full_lookup; eauto. apply nth_error_Some. congruence.
Qed.

Lemma args_links os p args : (p mod 10 = 0)%N -> Forall (fun x => usable (fst x)) (flat_map variants args) -> NoDup (map fst (flat_map variants args)) ->
  exists s, from_args os p args = Some s /\
    forall j arg, nth_error args j = Some arg -> let id := length os + 4 * j in
      exists o0 o1 o2 o3, nth_error (ops s) id = Some o0 /\ nth_error (ops s) (id + 1) = Some o1 /\ nth_error (ops s) (id + 2) = Some o2 /\ nth_error (ops s) (id + 3) = Some o3 /\
        map o_match [o0; o1; o2; o3] = [id; id; id; id] /\ map o_partial [o0; o1; o2; o3] = [id + 1; id + 1; id + 3; id + 3] /\ map o_unexpected [o0; o1; o2; o3] = [id + 2; id + 3; id + 2; id + 3].
Proof.
  intros P U N. destruct (args_spec os p args P U N) as (s & E & F & O). exists s. split; auto. intros j arg H. cbv zeta.
  destruct (all_made_links p args 0 (length os) j arg H) as (o0 & o1 & o2 & o3 & E0 & E1 & E2 & E3 & L). cbv zeta in *. exists o0, o1, o2, o3.
  rewrite O, <- !Nat.add_assoc, !nth_error_after. rewrite !Nat.add_assoc. auto.
Qed.

Lemma args_shown os p args : (p mod 10 = 0)%N -> Forall (fun x => usable (fst x)) (flat_map variants args) -> NoDup (map fst (flat_map variants args)) ->
  exists s, from_args os p args = Some s /\ shown s = map fst args.
Proof.
  intros P U N. destruct (args_spec os p args P U N) as (s & E & F & O). exists s. split; auto. unfold shown. destruct F as (_ & (_ & H & _) & _). rewrite (holds_items _ _ H), numbered_items. clear H E U N.
  assert (Q : forall args n k pre, length pre = k ->
    flat_map (fun x => match x with Plain _ i => match nth_error (pre ++ all_made p n k args) (N.to_nat i) with Some o => if Nat.eqb (o_match o) (N.to_nat i) then [o_alias o] else [] | None => [] end | _ => [] end)
      (map op_obj (seq k (length (flat_map variants args)))) = map fst args).
  { clear. induction args as [|[a c] args IH]; intros n k pre L; auto.
    cbn [flat_map variants app length seq map op_obj all_made made_ops fst snd].
    rewrite !Nat2N.id. rewrite <- L.
    match goal with |- context [nth_error (pre ++ ?m) _] => set (l := m) end.
    assert (N0 : nth_error (pre ++ l) (length pre) = nth_error l 0) by (rewrite <- (nth_error_after pre l 0); f_equal; lia).
    assert (N1 : nth_error (pre ++ l) (S (length pre)) = nth_error l 1) by (rewrite <- (nth_error_after pre l 1); f_equal; lia).
    assert (N2 : nth_error (pre ++ l) (S (S (length pre))) = nth_error l 2) by (rewrite <- (nth_error_after pre l 2); f_equal; lia).
    assert (N3 : nth_error (pre ++ l) (S (S (S (length pre)))) = nth_error l 3) by (rewrite <- (nth_error_after pre l 3); f_equal; lia).
    rewrite N0, N1, N2, N3. unfold l at 1 2 3 4. cbn [nth_error o_match o_alias]. rewrite Nat.eqb_refl.
    replace (length pre =? S (length pre)) with false by (symmetry; apply Nat.eqb_neq; lia).
    replace (length pre =? S (S (length pre))) with false by (symmetry; apply Nat.eqb_neq; lia).
    replace (length pre =? S (S (S (length pre)))) with false by (symmetry; apply Nat.eqb_neq; lia). unfold l. clear N0 N1 N2 N3 l.
    cbn [app]. f_equal.
    specialize (IH (4 + n) (4 + length pre) (pre ++ made_ops p n (length pre) (a, c))). rewrite <- app_assoc in IH. cbn [made_ops app Nat.add] in IH. apply IH. rewrite app_length. simpl. lia. }
  rewrite O. apply Q. reflexivity.
Qed.

(** Two operations are given the same index when the first is refused. *)
Lemma refused_index : exists s id1 s1 id2 s2 o1 o2, make_operation s (codes "text") 0 = Some (id1, s1) /\ make_operation s1 (codes "voicing") 0 = Some (id2, s2) /\
  s = new_op_inv [] 200 /\ nth_error (ops s2) id1 = Some o1 /\ nth_error (ops s2) id2 = Some o2 /\ id1 <> id2 /\ o_index o1 = o_index o2.
Proof. exists (new_op_inv [] 200). eexists _, _, _, _, _, _. split; [vm_compute; reflexivity|]. split; [vm_compute; reflexivity|]. split; [reflexivity|]. split; [reflexivity|]. split; [reflexivity|]. split; [discriminate|reflexivity]. Qed.
(** Two operations from elsewhere: no index can be found for a third. *)
Lemma no_index : exists s, op_run (new_op_inv [] 200) [MakeElsewhere (codes "a") 0 1; MakeElsewhere (codes "b") 0 2; AddOp 0; AddOp 1] = Some s /\ make_operation s (codes "c") 0 = None.
Proof. eexists. split; vm_compute; reflexivity. Qed.
(** The 91st operation is in the range of the next inventory. *)
Lemma overflow : exists args s o, length args = 23 /\ from_args [] 100 args = Some s /\ nth_error (ops s) 90 = Some o /\ o_index o = 201%N.
Proof.
  exists (map (fun i => (codes "op" ++ [N.of_nat (97 + i)], 0%Z)) (seq 0 23)). eexists. eexists. split; [reflexivity|]. split; [vm_compute; reflexivity|]. split; [reflexivity|]. reflexivity.
Qed.
Lemma documented_links : exists s o, from_args [] 200 [(codes "voicing", 0%Z)] = Some s /\ alias_at s 1 = Some (codes "partial_voicing") /\ alias_at s 2 = Some (codes "unexpected_voicing") /\ alias_at s 3 = Some (codes "unexpected_partial_voicing") /\
  nth_error (ops s) 2 = Some o /\ o_partial o <> 1 /\ o_unexpected o <> 3.
Proof. eexists. eexists. split; [vm_compute; reflexivity|]. repeat split; try reflexivity; discriminate. Qed.

Lemma shipped : exists s, from_args [] 100 COMMON = Some s /\ shown s = map (fun x => codes (fst x)) shipped_operations /\
  map (fun o => (o_alias o, o_cost o)) (ops s) = flat_map (fun x => variants (codes (fst x), snd x)) shipped_operations.
Proof. eexists. split; [vm_compute; reflexivity|]. split; vm_compute; reflexivity. Qed.
Lemma common_usable : Forall (fun x => usable (fst x)) (flat_map variants COMMON) /\ NoDup (map fst (flat_map variants COMMON)).
Proof.
  split.
  - assert (B : forallb (fun x => negb (has_str (fst x) (op_methods ++ op_attributes))) (flat_map variants COMMON) = true) by (vm_compute; reflexivity).
    apply Forall_forall. intros x I. rewrite forallb_forall in B. specialize (B x I). apply negb_true_iff, has_str_not in B. split; intros J; apply B; apply in_or_app; auto.
  - assert (B : (fix nd l := match l with [] => true | x :: r => negb (has_str x r) && nd r end) (map fst (flat_map variants COMMON)) = true) by (vm_compute; reflexivity).
    revert B. generalize (map fst (flat_map variants COMMON)) as l. induction l as [|x l IH]; intros B; constructor; apply andb_true_iff in B as [B1 B2]; auto. apply negb_true_iff, has_str_not in B1. exact B1.
Qed.
