(** Adding features to a symbol keeps those that it has. *)
From Verif Require Import Base FeatureModel ProfileModel SoundModel.

Lemma read_write h r s q : read (write h r s) q = if Nat.eqb q r && Nat.ltb r (length h) then s else read h q.
Proof.
  revert r q. induction h as [|x h IH]; intros r q; cbn [write].
  - change (Nat.ltb r (length (@nil (list nat)))) with false. rewrite andb_false_r. reflexivity.
  - destruct r as [|r], q as [|q]; try reflexivity. exact (IH r q).
Qed.
Lemma write_length h r s : length (write h r s) = length h.
Proof. revert r. induction h as [|x h IH]; intros [|r]; cbn; auto. Qed.
Lemma has_in f l : has f l = true -> In f l.
Proof. unfold has. intros H. apply existsb_exists in H as (x & I' & E). apply Nat.eqb_eq in E. subst. exact I'. Qed.
Lemma set_add_in s f g : In g (set_add s f) <-> In g s \/ g = f.
Proof.
  unfold set_add. destruct (has f s) eqn:E.
  - apply has_in in E. split; [auto|]. intros [H| ->]; assumption.
  - rewrite in_app_iff. cbn. intuition.
Qed.
Lemma adds_in l : forall s g, In g (fold_left set_add l s) <-> In g s \/ In g l.
Proof. induction l as [|f l IH]; intros s g; cbn; [tauto|]. rewrite IH, set_add_in. intuition. Qed.

Section Add.
Variable W : world.
Definition special (f : nat) : Prop := exists a, f = any_of W a.
Notation step p := (fun h d => match lookup (aspect_alias W (fst d)) (p_items p) with
  | Some r => write h r (fold_left set_add (snd d) (filter (fun f => negb (Nat.eqb f (any_of W (fst d)))) (read h r)))
  | None => h end).
Lemma step_keeps p h d r f : ~ special f -> In f (read h r) -> In f (read (step p h d) r).
Proof.
  intros Ns I'. cbn beta. destruct (lookup _ _) as [q|]; [|exact I']. rewrite read_write. destruct (Nat.eqb r q && _) eqn:E; [|exact I'].
  apply andb_true_iff in E as [E _]. apply Nat.eqb_eq in E. subst q. apply adds_in. left. apply filter_In. split; [exact I'|].
  apply negb_true_iff, Nat.eqb_neq. intros ->. apply Ns. exists (fst d). reflexivity.
Qed.
Lemma step_length p h d : length (step p h d) = length h.
Proof. cbn beta. destruct (lookup _ _); [apply write_length|reflexivity]. Qed.
Lemma steps_keep p l : forall h r f, ~ special f -> In f (read h r) -> In f (read (fold_left (step p) l h) r).
Proof. induction l as [|d l IH]; intros h r f Ns I'; [exact I'|]. cbn [fold_left]. apply IH; [exact Ns|]. apply step_keeps; assumption. Qed.
Lemma steps_length p l : forall h, length (fold_left (step p) l h) = length h.
Proof. induction l as [|d l IH]; intros h; [reflexivity|]. cbn [fold_left]. rewrite IH. apply step_length. Qed.
Lemma keeps m : forall fs h r f, ~ special f -> In f (read h r) -> In f (read (add_features W m fs h) r).
Proof.
  induction m as [|p m IH]; intros fs h r f Ns I'; [exact I'|]. unfold add_features. cbn [fold_left]. apply IH; [exact Ns|].
  apply steps_keep; assumption.
Qed.
Lemma keeps_length m : forall fs h, length (add_features W m fs h) = length h.
Proof. induction m as [|p m IH]; intros fs h; [reflexivity|]. unfold add_features. cbn [fold_left]. etransitivity; [apply IH|]. apply steps_length. Qed.

Lemma dict_add_in a f d b s g : In (b, s) (dict_add a f d) -> In g s -> (b = a /\ g = f) \/ exists s', In (b, s') d /\ In g s'.
Proof.
  induction d as [|[c t] d IH]; cbn [dict_add].
  - intros [E|[]] I'. injection E as <- <-. destruct I' as [<-|[]]. auto.
  - destruct (Nat.eqb a c) eqn:E.
    + apply Nat.eqb_eq in E. subst c. intros [E|I1] I2.
      * injection E as <- <-. apply set_add_in in I2 as [I2| ->]; [|auto]. right. exists t. cbn. auto.
      * right. exists s. cbn. auto.
    + intros [E'|I1] I2; [injection E' as <- <-; right; exists t; cbn; auto|]. destruct (IH I1 I2) as [H|(s' & H1 & H2)]; [auto|]. right. exists s'. cbn. auto.
Qed.
Lemma dict_add_new a f d : exists s, In (a, s) (dict_add a f d) /\ In f s.
Proof.
  induction d as [|[c t] d IH]; cbn [dict_add].
  - exists [f]. cbn. auto.
  - destruct (Nat.eqb a c) eqn:E.
    + apply Nat.eqb_eq in E. subst c. exists (set_add t f). split; [left; reflexivity|]. apply set_add_in. auto.
    + destruct IH as (s & H1 & H2). exists s. cbn. auto.
Qed.
Lemma dict_add_old a f d b s g : In (b, s) d -> In g s -> exists s', In (b, s') (dict_add a f d) /\ In g s'.
Proof.
  induction d as [|[c t] d IH]; cbn [dict_add]; intros I1 I2; [destruct I1|]. destruct (Nat.eqb a c) eqn:E.
  - apply Nat.eqb_eq in E. subst c. destruct I1 as [E|I1].
    + injection E as <- <-. exists (set_add t f). split; [left; reflexivity|]. apply set_add_in. auto.
    + exists s. cbn. auto.
  - destruct I1 as [E'|I1].
    + injection E' as <- <-. exists t. cbn. auto.
    + destruct (IH I1 I2) as (s' & H1 & H2). exists s'. cbn. auto.
Qed.
Lemma aspect_dict_has inv fs f a : In f fs -> aspect_of W f = Some a -> inventory_of W a = inv -> exists s, In (a, s) (aspect_dict W inv fs) /\ In f s.
Proof.
  intros I' A V. unfold aspect_dict. assert (I2 : In f (to_set fs)) by (unfold to_set; apply adds_in; auto). revert I2. generalize (to_set fs). intros l.
  assert (G : forall l d, (In f l \/ exists s, In (a, s) d /\ In f s) -> exists s, In (a, s) (fold_left (fun d f =>
      match aspect_of W f with
      | Some a => if Nat.eqb (inventory_of W a) inv then dict_add a f d else d
      | None => d
      end) l d) /\ In f s).
  { clear l I'. induction l as [|g l IH]; intros d [I'|(s & H1 & H2)]; cbn [fold_left].
    - destruct I'.
    - eauto.
    - destruct I' as [->|I']; apply IH; [right|left; exact I']. rewrite A, V, Nat.eqb_refl. apply dict_add_new.
    - apply IH. right. destruct (aspect_of W g) as [b|]; [|eauto]. destruct (Nat.eqb _ _); [|eauto]. eapply dict_add_old; eassumption. }
  intros I2. apply G. left. exact I2.
Qed.
Lemma steps_add p l : forall h d r f, In d l -> In f (snd d) -> lookup (aspect_alias W (fst d)) (p_items p) = Some r -> r < length h -> ~ special f ->
  In f (read (fold_left (step p) l h) r).
Proof.
  induction l as [|d' l IH]; intros h d r f I1 I2 L B Ns; [destruct I1|]. cbn [fold_left]. destruct I1 as [->|I1].
  - apply steps_keep; [exact Ns|]. cbn beta. rewrite L, read_write, Nat.eqb_refl. apply Nat.ltb_lt in B. rewrite B. cbn [andb]. apply adds_in. right. exact I2.
  - apply (IH _ d); auto. pose proof (step_length p h d') as E. cbn beta in E. rewrite E. exact B.
Qed.
Lemma adds m : forall fs h n p f a r, In f fs -> ~ special f -> aspect_of W f = Some a -> In (n, p) m -> inventory_of W a = p_inventory p ->
  lookup (aspect_alias W a) (p_items p) = Some r -> r < length h -> In f (read (add_features W m fs h) r).
Proof.
  induction m as [|q m IH]; intros fs h n p f a r If Ns A Ip V L B; [destruct Ip|]. unfold add_features. cbn [fold_left]. destruct Ip as [->|Ip].
  - apply keeps; [exact Ns|]. cbn [snd]. destruct (aspect_dict_has _ fs f a If A V) as (s & H1 & H2).
    apply (steps_add p _ h (a, s) r f); auto.
  - apply (IH fs _ n p f a r); auto. rewrite steps_length. exact B.
Qed.
Lemma only m : forall fs h r f, In f (read (add_features W m fs h) r) -> In f (read h r) \/ In f fs.
Proof.
  assert (D : forall inv fs a s f, In (a, s) (aspect_dict W inv fs) -> In f s -> In f fs).
  { intros inv fs a s f H1 H2. unfold aspect_dict in H1. assert (G : forall l d, (forall b t g, In (b, t) d -> In g t -> In g fs) -> (forall g, In g l -> In g fs) ->
      forall b t g, In (b, t) (fold_left (fun d f =>
      match aspect_of W f with
      | Some a => if Nat.eqb (inventory_of W a) inv then dict_add a f d else d
      | None => d
      end) l d) -> In g t -> In g fs).
    { induction l as [|x l IH]; intros d Hd Hl b t g; cbn [fold_left]; [apply Hd|]. apply IH; [|intros y Iy; apply Hl; right; exact Iy].
      destruct (aspect_of W x) as [c|]; [|exact Hd]. destruct (Nat.eqb _ _); [|exact Hd]. intros b' t' g' I1 I2.
      destruct (dict_add_in _ _ _ _ _ _ I1 I2) as [[_ Eg]|(s' & J1 & J2)]; [subst; apply Hl; left; reflexivity|exact (Hd _ _ _ J1 J2)]. }
    refine (G _ [] _ _ a s f H1 H2); [intros b t g []|]. intros g Ig. unfold to_set in Ig. apply adds_in in Ig as [[]|Ig]. exact Ig. }
  induction m as [|p m IH]; intros fs h r f I'; [auto|]. unfold add_features in I'. cbn [fold_left] in I'. apply IH in I' as [I'|I']; [|auto].
  assert (G : forall l h, (forall d, In d l -> In d (aspect_dict W (p_inventory (snd p)) fs)) -> In f (read (fold_left (step (snd p)) l h) r) -> In f (read h r) \/ In f fs).
  { clear I' IH. induction l as [|d l IHl]; intros h' Hl I'; [auto|]. cbn [fold_left] in I'. apply IHl in I' as [I'|I']; [|auto|intros y Iy; apply Hl; right; exact Iy].
    destruct (lookup _ _) as [q|]; [|auto]. rewrite read_write in I'. destruct (Nat.eqb r q && _) eqn:E; [|auto].
    apply andb_true_iff in E as [E _]. apply Nat.eqb_eq in E. subst q. apply adds_in in I' as [I'|I'].
    - apply filter_In in I' as [I' _]. auto.
    - right. destruct d as [a s]. apply (D (p_inventory (snd p)) fs a s f); [apply Hl; left; reflexivity|exact I']. }
  apply (G _ _ (fun d I0 => I0) I').
Qed.
End Add.
