(** Proofs about the phonemes of x_uni and the Latin letters. *)
From Verif Require Import Base FeatureModel FeatureSpec ProfileModel ProfileSpec FeatureProofs ProfileProofs HistoryProofs CompareProofs SoundTables SoundModel SoundDocs SoundSpec.
From Coq Require Import String Lia.
Local Open Scope string_scope.
Local Open Scope list_scope.

(** ** Checking that a world is built and well named *)
Fixpoint nodup_b {A} (e : A -> A -> bool) (l : list A) : bool :=
  match l with [] => true | x :: r => if existsb (e x) r then false else nodup_b e r end.
Lemma nodup_b_spec {A} (e : A -> A -> bool) l : (forall x y, e x y = true <-> x = y) -> nodup_b e l = true -> NoDup l.
Proof.
  intros E. induction l as [|x r IH]; cbn; intros H; [constructor|]. destruct (existsb (e x) r) eqn:X; [discriminate|].
  constructor; auto. intros I'. assert (existsb (e x) r = true) by (apply existsb_exists; exists x; split; auto; apply E; auto). congruence.
Qed.
Lemma nat_eqb_iff x y : Nat.eqb x y = true <-> x = y.
Proof. apply Nat.eqb_eq. Qed.
Lemma str_eqb_iff (x y : str) : str_eqb x y = true <-> x = y.
Proof. apply str_eqb_eq. Qed.
Fixpoint nonneg_b (v : value) : bool :=
  match v with
  | Leaf _ => true
  | VList _ _ s items => if (0 <=? s)%Z then (fix all (l : list value) : bool := match l with [] => true | x :: l' => if nonneg_b x then all l' else false end) items else false
  end.
Lemma nonneg_b_spec : forall v, nonneg_b v = true -> nonneg_steps v.
Proof.
  fix IH 1. intros [f|l t s items]; cbn; [auto|]. destruct (0 <=? s)%Z eqn:E; [|discriminate]. intros H. split; [lia|].
  revert H. induction items as [|x r IHr]; cbn; [auto|]. destruct (nonneg_b x) eqn:X; [|discriminate]. intros H. split; [apply IH; auto|]. apply IHr; auto.
Qed.
Definition no_name (s : str) (l : list str) : bool := negb (existsb (str_eqb s) l).
Lemma no_name_spec s l : no_name s l = true -> ~ In s l.
Proof.
  unfold no_name. intros H I'. apply Bool.negb_true_iff in H. assert (existsb (str_eqb s) l = true) by (apply existsb_exists; exists s; split; auto; apply str_eqb_iff; auto). congruence.
Qed.
Definition alias_of (f : nat) : str := chars (feature_alias f).
Definition list_alias_of (l : nat) : str := chars (value_list_alias l).
Definition aliases_b (v : value) : bool :=
  let ls := leaves v in let las := map list_alias_of (lists v) in
  if nodup_b str_eqb (map alias_of ls) then forallb (fun f => let s := alias_of f in if no_name s aspect_attributes then no_name s las else false) ls else false.
Lemma aliases_b_spec v : aliases_b v = true -> good_aliases alias_of list_alias_of aspect_attributes v.
Proof.
  unfold aliases_b. destruct (nodup_b _ _) eqn:E; [|discriminate]. intros H. split; [apply (nodup_b_spec _ _ str_eqb_iff); auto|].
  intros f F. rewrite forallb_forall in H. specialize (H f F). cbv zeta in H. destruct (no_name (alias_of f) aspect_attributes) eqn:E1; [|discriminate]. split; apply no_name_spec; auto.
Qed.
Definition entry_b (e : entry) : bool :=
  let v := e_root e in
  if nodup_b Nat.eqb (leaves v) then if nodup_b Nat.eqb (lists v) then if nonneg_b v then aliases_b v else false else false else false.
Definition of_features (es : list entry) : list (option nat) :=
  flat_map (fun p => repeat (Some (fst p)) (e_any (snd p) + 2 - e_first (snd p))) (combine (seq 0 (List.length es)) es).
Definition belongs (es : list entry) (f : nat) : bool :=
  match nth f (of_features es) None with
  | Some a => match nth_error es a with Some e => existsb (Nat.eqb f) (e_any e :: e_any e + 1 :: leaves (e_root e)) | None => false end
  | None => true
  end.
Lemma all_aspects_nth : forall es table a e, all_aspects es = Some table -> nth_error es a = Some e ->
  populated alias_of list_alias_of aspect_attributes (e_root e) = Some (nth a table no_aspect).
Proof.
  induction es as [|x r IH]; intros table a e H E; [destruct a; discriminate|]. cbn in H.
  destruct (populated _ _ _ (e_root x)) as [p|] eqn:P; [|discriminate]. destruct (all_aspects r) as [l|] eqn:L; [|discriminate]. injection H as <-.
  destruct a as [|a]; cbn in E |- *; [injection E as <-; exact P|]. eauto.
Qed.
Lemma built_world es table : all_aspects es = Some table -> forallb entry_b es = true -> forallb (belongs es) (seq 0 (List.length (of_features es))) = true ->
  built (make_world es table).
Proof.
  intros T H B f a. cbn [make_world aspect_of data any_of na_of]. fold (of_features es). intros E.
  assert (f < List.length (of_features es)) as L. { destruct (le_lt_dec (List.length (of_features es)) f); auto. rewrite nth_overflow in E; [discriminate|auto]. }
  rewrite forallb_forall in B. specialize (B f (proj2 (in_seq _ _ _) (conj (Nat.le_0_l f) L))). unfold belongs in B. rewrite E in B.
  destruct (nth_error es a) as [e|] eqn:Ea; [|discriminate]. exists alias_of, list_alias_of, aspect_attributes, (e_root e).
  rewrite forallb_forall in H. specialize (H e (nth_error_In _ _ Ea)). unfold entry_b in H. cbv zeta in H.
  destruct (nodup_b Nat.eqb (leaves (e_root e))) eqn:H1; [|discriminate]. destruct (nodup_b Nat.eqb (lists (e_root e))) eqn:H2; [|discriminate].
  destruct (nonneg_b (e_root e)) eqn:H3; [|discriminate]. split; [split; apply (nodup_b_spec _ _ nat_eqb_iff); auto|]. split; [apply aliases_b_spec; auto|].
  split; [apply nonneg_b_spec; auto|]. split; [apply all_aspects_nth with es; auto|].
  apply existsb_exists in B. destruct B as (g & G & Q). apply Nat.eqb_eq in Q. subst g. destruct G as [G|[G|G]]; auto.
Qed.

Section Named.
  Variables (W : world) (es : list entry) (attributes : list str) (invs : nat).
  Definition named_inv (i : nat) : bool :=
    if nodup_b str_eqb (map (aspect_alias W) (aspects W i)) then
      forallb (fun a => if Nat.eqb (inventory_of W a) i then if no_name (aspect_alias W a) attributes then
        if same_aspect (aspect_of W (any_of W a)) (Some a) then same_aspect (aspect_of W (na_of W a)) (Some a) else false else false else false) (aspects W i)
    else false.
  Definition listed_b (f : nat) : bool :=
    match aspect_of W f with Some a => existsb (Nat.eqb a) (aspects W (inventory_of W a)) | None => true end.
  Lemma named_world fs : (forall f a, aspect_of W f = Some a -> In f fs) -> (forall i, invs <= i -> aspects W i = []) ->
    forallb listed_b fs = true -> forallb named_inv (seq 0 invs) = true -> well_named W attributes.
  Proof.
    intros Fs Big H N. split.
    - intros f a E. rewrite forallb_forall in H. specialize (H f (Fs f a E)). unfold listed_b in H. rewrite E in H. apply existsb_exists in H. destruct H as (b & Hb & Q).
      apply Nat.eqb_eq in Q. subst b. exact Hb.
    - intros i. destruct (le_lt_dec invs i) as [L|L].
      + rewrite (Big i L). split; [constructor|intros a []].
      + rewrite forallb_forall in N. specialize (N i (proj2 (in_seq _ _ _) (conj (Nat.le_0_l i) L))). unfold named_inv in N.
        destruct (nodup_b _ _) eqn:E; [|discriminate]. split; [apply (nodup_b_spec _ _ str_eqb_iff); auto|]. intros a Ia. rewrite forallb_forall in N. specialize (N a Ia).
        destruct (Nat.eqb (inventory_of W a) i) eqn:E1; [|discriminate]. destruct (no_name (aspect_alias W a) attributes) eqn:E2; [|discriminate].
        destruct (same_aspect (aspect_of W (any_of W a)) (Some a)) eqn:E3; [|discriminate].
        split; [apply Nat.eqb_eq; auto|]. split; [apply no_name_spec; auto|]. split; apply same_aspect_eq; auto.
  Qed.
End Named.

(** ** Distances from value sets *)
Section Distances.
  Variables (W : world) (st : symbols).
  Definition value_sets (x : features) : option (list (list nat)) :=
    match descriptives x with
    | Some p =>
      if Nat.eqb (p_inventory p) DESCRIPTIVE then
        if forallb (fun i => Nat.ltb (snd i) (List.length (snd x))) (p_items p)
        then Some (map (fun a => profile_get W p a (snd x)) (aspects W DESCRIPTIVE)) else None
      else None
    | None => None
    end.
  Fixpoint total (as_ : list nat) (us vs : list (list nat)) : option Z :=
    match as_, us, vs with
    | a :: as', u :: us', v :: vs' =>
      match sets_distance W u v, total as' us' vs' with Some d, Some t => Some (d + t)%Z | _, _ => None end
    | _, _, _ => Some 0%Z
    end.
  Lemma compare_total p q h : forall as_ t m,
    compare_loop W p q h as_ t m =
    match total as_ (map (fun a => profile_get W p a h) as_) (map (fun a => profile_get W q a h) as_) with
    | Some d => if (m + total_max W as_ =? 0)%Z then None else Some ((m + total_max W as_ - (t + d))%Z, (m + total_max W as_)%Z)
    | None => None
    end.
  Proof.
    induction as_ as [|a as_ IH]; intros t m; cbn [compare_loop total total_max fold_right map].
    - replace (m + 0)%Z with m by lia. destruct (m =? 0)%Z; auto. f_equal. apply f_equal2; lia.
    - destruct (sets_distance W (profile_get W p a h) (profile_get W q a h)) as [d|]; [|auto]. rewrite IH. fold (total_max W as_).
      destruct (total as_ _ _) as [e|]; auto. replace (m + max_dist (data W a) + total_max W as_)%Z with (m + (max_dist (data W a) + total_max W as_))%Z by lia.
      destruct (_ =? 0)%Z; auto. f_equal. apply f_equal2; lia.
  Qed.
  Lemma lookup_moved k s items : lookup s (map (fun i : str * nat => (fst i, k + snd i)) items) = option_map (fun r => k + r) (lookup s items).
  Proof. induction items as [|[t r] items IH]; cbn; auto. destruct (str_eqb s t); auto. Qed.
  Lemma get_moved q a h h' : profile_get W (moved (List.length h) q) a (h ++ h') = profile_get W q a h'.
  Proof.
    unfold profile_get. cbn [moved p_items]. rewrite lookup_moved. destruct (lookup _ _) as [r|]; cbn; auto. unfold read. rewrite app_nth2 by lia. f_equal. lia.
  Qed.
  Lemma get_kept p a h h' : forallb (fun i : str * nat => Nat.ltb (snd i) (List.length h)) (p_items p) = true -> profile_get W p a (h ++ h') = profile_get W p a h.
  Proof.
    intros H. unfold profile_get. destruct (lookup _ _) as [r|] eqn:E; auto. apply lookup_some in E. rewrite forallb_forall in H. specialize (H _ E). cbn in H.
    apply Nat.ltb_lt in H. unfold read. apply app_nth1. auto.
  Qed.
  Definition largest : Z := total_max W (aspects W DESCRIPTIVE).
  Lemma distance_sets s t x y us vs : find_symbol s st = Some x -> find_symbol t st = Some y -> value_sets x = Some us -> value_sets y = Some vs -> largest <> 0%Z ->
    sound_distance W st s t = total (aspects W DESCRIPTIVE) us vs.
  Proof.
    intros Fs Ft U V L. unfold sound_distance. rewrite Fs, Ft. unfold value_sets in U, V. destruct (descriptives x) as [p|]; [|discriminate]. destruct (descriptives y) as [q|]; [|discriminate].
    destruct (Nat.eqb_spec (p_inventory p) DESCRIPTIVE) as [Ep|]; [|discriminate]. destruct (Nat.eqb_spec (p_inventory q) DESCRIPTIVE) as [Eq|]; [|discriminate].
    destruct (forallb _ (p_items p)) eqn:Hp; [|discriminate]. destruct (forallb _ (p_items q)) eqn:Hq; [|discriminate]. injection U as <-. injection V as <-.
    unfold ProfileModel.compare. cbn [moved p_inventory]. rewrite Eq, Ep, Nat.eqb_refl. rewrite compare_total.
    rewrite (map_ext _ _ (fun a => get_kept p a (snd x) (snd y) Hp)), (map_ext _ _ (fun a => get_moved q a (snd x) (snd y))).
    destruct (total _ _ _) as [d|]; auto. fold largest. destruct (Z.eqb_spec (0 + largest) 0); [lia|]. cbn. f_equal. lia.
  Qed.

  (** Value sets that hold features of their aspects *)
  Definition proper (as_ : list nat) (us : list (list nat)) : Prop := Forall2 (all_of W) as_ us.
  Fixpoint proper_b (as_ : list nat) (us : list (list nat)) : bool :=
    match as_, us with
    | [], [] => true
    | a :: as', u :: us' => if (match u with [] => false | _ => forallb (fun f => same_aspect (aspect_of W f) (Some a)) u end) then proper_b as' us' else false
    | _, _ => false
    end.
  Lemma proper_b_spec : forall as_ us, proper_b as_ us = true -> proper as_ us.
  Proof.
    induction as_ as [|a as_ IH]; intros [|u us] H; try discriminate; [constructor|]. cbn in H. destruct u as [|f u]; [discriminate|].
    destruct (forallb _ (f :: u)) eqn:E; [|discriminate]. constructor; [|apply IH; exact H]. split; [discriminate|]. intros g G. rewrite forallb_forall in E. apply same_aspect_eq. auto.
  Qed.
  Hypothesis B : built W.
  Lemma total_bounds as_ : forall us vs, proper as_ us -> proper as_ vs -> exists d, total as_ us vs = Some d /\ (0 <= d <= total_max W as_)%Z.
  Proof.
    induction as_ as [|a as_ IH]; intros us vs U V.
    - exists 0%Z. cbn. split; auto. lia.
    - inversion U; subst. inversion V; subst. destruct (sets_distance_aspect W B a y y0) as (d & E & R); auto. destruct (IH l' l'0) as (e & F & Q); auto.
      exists (d + e)%Z. cbn [total total_max fold_right]. rewrite E, F. split; auto. fold (total_max W as_). lia.
  Qed.
  Lemma total_sound_sym as_ : forall us vs, proper as_ us -> proper as_ vs -> total as_ us vs = total as_ vs us.
  Proof.
    induction as_ as [|a as_ IH]; intros us vs U V; [reflexivity|]. inversion U; subst. inversion V; subst. cbn [total].
    rewrite (sets_distance_sym W B y y0) by (eapply all_of_known; eauto). rewrite (IH l' l'0); auto.
  Qed.
  Lemma total_self as_ : forall us, proper as_ us -> total as_ us us = Some 0%Z.
  Proof.
    induction as_ as [|a as_ IH]; intros us U; [reflexivity|]. inversion U; subst. cbn [total]. destruct y as [|f y]; [destruct H1; congruence|].
    rewrite (sets_distance_common W B (f :: y) (f :: y) f) by (try (eapply all_of_known; eauto); left; auto). rewrite (IH l'); auto.
  Qed.
  (** Stops at the first aspect that differs *)
  Fixpoint zero_b (as_ : list nat) (us vs : list (list nat)) : bool :=
    match as_, us, vs with
    | a :: as', u :: us', v :: vs' => match sets_distance W u v with Some 0%Z => zero_b as' us' vs' | _ => false end
    | _, _, _ => true
    end.
  Lemma zero_b_spec as_ : forall us vs, proper as_ us -> proper as_ vs -> zero_b as_ us vs = true <-> total as_ us vs = Some 0%Z.
  Proof.
    induction as_ as [|a as_ IH]; intros us vs U V; [cbn; tauto|]. inversion U; subst. inversion V; subst. cbn [total zero_b].
    destruct (sets_distance_aspect W B a y y0) as (d & E & R); auto. destruct (total_bounds as_ l' l'0) as (e & F & Q); auto. rewrite E, F.
    specialize (IH l' l'0 ltac:(assumption) ltac:(assumption)). rewrite F in IH. destruct d as [|d|d].
    - rewrite IH. cbn. tauto.
    - split; [discriminate|]. intros X. apply (f_equal (fun o => match o with Some z => z | None => 0%Z end)) in X. lia.
    - lia.
  Qed.
End Distances.

(** ** Checks of the inventories, made once *)
Fixpoint all_eqb {A} (e : A -> A -> bool) (a b : list A) : bool :=
  match a, b with [], [] => true | x :: a, y :: b => if e x y then all_eqb e a b else false | _, _ => false end.
Lemma all_eqb_eq {A} (e : A -> A -> bool) : (forall x y, e x y = true -> x = y) -> forall a b, all_eqb e a b = true -> a = b.
Proof.
  intros E. induction a as [|x a IH]; intros [|y b] H; try discriminate; auto. cbn in H. destruct (e x y) eqn:X; [|discriminate]. apply E in X. subst. f_equal. auto.
Qed.
Definition row_eqb (a b : str * list string) : bool := if str_eqb (fst a) (fst b) then all_eqb String.eqb (snd a) (snd b) else false.
Lemma row_eqb_eq a b : row_eqb a b = true -> a = b.
Proof.
  destruct a as [a x], b as [b y]. unfold row_eqb. cbn. destruct (str_eqb a b) eqn:E; [|discriminate]. intros H. apply str_eqb_iff in E. apply all_eqb_eq in H; [congruence|].
  intros. apply String.eqb_eq. auto.
Qed.
Definition rows_b (st : symbols) (s : string) (rows : list (str * list string)) : bool :=
  match table_rows st s with Some t => all_eqb row_eqb t rows | None => false end.
Lemma rows_b_spec st s rows : rows_b st s rows = true -> table_rows st s = Some rows.
Proof. unfold rows_b. destruct (table_rows st s) as [t|]; [|discriminate]. intros H. f_equal. apply all_eqb_eq in H; auto. apply row_eqb_eq. Qed.

