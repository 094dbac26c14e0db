(** Consequences, and an inventory of two aspects: a door (open, ajar, closed or shut,
    locked) and a circle of six colours. *)
From Verif Require Import Base FeatureModel FeatureSpec FeatureProofs ProfileModel ProfileSpec ProfileProofs HistoryProofs CompareProofs ContainModel ContainSpec ContainProofs.

Lemma feature_tree alias list_alias attributes v : distinct v -> good_aliases alias list_alias attributes v ->
  exists a, populated alias list_alias attributes v = Some a /\
    NoDup (items_of a) /\ (forall f, In f (items_of a) <-> In f (leaves v)) /\ widest v (max_dist a) /\
    forall any n_a f g d, apart v f g d -> ~ In f [any; n_a] -> ~ In g [any; n_a] -> feature_distance a any n_a f g = Some d.
Proof.
  intros D A. destruct (populated_spec alias list_alias attributes v D A) as (a & E & N & I & H & _ & _ & _ & W). exists a. split; auto. split; auto. split; auto. split; auto.
  intros any n_a f g d. apply (distance_apart alias list_alias attributes v a D A E).
Qed.
Lemma feature_pairs v f g : distinct v -> In f (leaves v) -> In g (leaves v) -> f <> g ->
  exists d, apart v f g d /\ forall e, apart v f g e -> e = d.
Proof. intros D If Ig N. destruct (apart_exists v f g If Ig N) as [d H]. exists d. split; auto. intros e He. eapply apart_unique; eauto. Qed.
Lemma feature_metric alias list_alias attributes v a any n_a f g : distinct v -> good_aliases alias list_alias attributes v ->
  populated alias list_alias attributes v = Some a -> nonneg_steps v -> In f (any :: n_a :: leaves v) -> In g (any :: n_a :: leaves v) ->
  exists d, feature_distance a any n_a f g = Some d /\ feature_distance a any n_a g f = Some d /\ (0 <= d <= max_dist a)%Z.
Proof.
  intros D A P Ns If Ig. destruct (distance_total alias list_alias attributes v a D A P any n_a f g) as (d & E1 & E2 & E3 & E4).
  - destruct If as [<-|[<-|If]]; unfold value_of_tree; auto.
  - destruct Ig as [<-|[<-|Ig]]; unfold value_of_tree; auto.
  - exists d. split; auto.
Qed.

(** ** Histories from the start *)
Lemma history W attributes os : well_named W attributes ->
  match run_ops W attributes (State [] []) os, plain_ops W [] os with
  | Some s, Some qs => Forall2 (represents W (store s)) (profiles s) qs
  | None, None => True
  | _, _ => False
  end.
Proof.
  intros N. pose proof (run_matches W attributes N os (State [] []) [] (matches_nil W)) as H.
  destruct (run_ops W attributes (State [] []) os), (plain_ops W [] os); auto. apply H.
Qed.
Lemma history_matches W attributes os s : well_named W attributes -> run_ops W attributes (State [] []) os = Some s ->
  exists qs, plain_ops W [] os = Some qs /\ matches W s qs.
Proof.
  intros N E. pose proof (run_matches W attributes N os (State [] []) [] (matches_nil W)) as H. rewrite E in H.
  destruct (plain_ops W [] os) as [qs|]; [eauto|contradiction].
Qed.
Lemma reached_profile W s qs p : matches W s qs -> In p (profiles s) -> exists q, represents W (store s) p q.
Proof. intros [_ R] I. induction R as [|x y l k H R IH]; [contradiction|]. destruct I as [->|I]; eauto. Qed.
Lemma compare_reached W attributes os s p q as_ : built W -> well_named W attributes -> run_ops W attributes (State [] []) os = Some s ->
  In p (profiles s) -> In q (profiles s) -> p_inventory p = p_inventory q -> incl as_ (aspects W (p_inventory p)) ->
  exists t, total_distance W (fun a => profile_get W p a (store s)) (fun a => profile_get W q a (store s)) as_ t /\ (0 <= t <= total_max W as_)%Z /\
    compare W p q (store s) (Some as_) = (if (total_max W as_ =? 0)%Z then None else Some (total_max W as_ - t, total_max W as_)%Z) /\
    compare W q p (store s) (Some as_) = compare W p q (store s) (Some as_).
Proof.
  intros B N E Ip Iq Ei Inc. destruct (history_matches W attributes os s N E) as (qs & _ & M). destruct (reached_profile W s qs p M Ip) as [P Rp]. destruct (reached_profile W s qs q M Iq) as [Q Rq].
  pose proof Rp as (E1 & _). pose proof Rq as (E2 & _). assert (fst P = fst Q) as EPQ by congruence. rewrite E1 in Inc.
  destruct (compare_spec W B (store s) p q P Q Rp Rq EPQ as_ Inc) as (t & Ht & Bt & Ec). exists t. split; auto. split; auto. split; auto.
  assert (incl as_ (aspects W (fst Q))) as Inc2 by (rewrite <- EPQ; auto).
  destruct (compare_spec W B (store s) q p Q P Rq Rp (eq_sym EPQ) as_ Inc2) as (u & Hu & _ & Ec2). rewrite Ec, Ec2.
  apply (total_sym W (store s) q p Q P as_ u B Rq Rp (eq_sym EPQ) Inc2) in Hu. rewrite (total_unique _ _ _ _ _ _ Ht Hu). auto.
Qed.
Lemma compare_same W attributes os s p q as_ : built W -> well_named W attributes -> run_ops W attributes (State [] []) os = Some s ->
  In p (profiles s) -> In q (profiles s) -> p_inventory p = p_inventory q -> incl as_ (aspects W (p_inventory p)) -> total_max W as_ <> 0%Z ->
  (forall a, In a as_ -> same_set (profile_get W p a (store s)) (profile_get W q a (store s))) ->
  compare W p q (store s) (Some as_) = Some (total_max W as_, total_max W as_).
Proof.
  intros B N E Ip Iq Ei Inc Nz Same. destruct (history_matches W attributes os s N E) as (qs & _ & M). destruct (reached_profile W s qs p M Ip) as [P Rp]. destruct (reached_profile W s qs q M Iq) as [Q Rq].
  pose proof Rp as (E1 & _ & V1). pose proof Rq as (E2 & _ & V2). assert (fst P = fst Q) as EPQ by congruence. rewrite E1 in Inc.
  destruct (compare_spec W B (store s) p q P Q Rp Rq EPQ as_ Inc) as (t & Ht & Bt & Ec). rewrite Ec. destruct (Z.eqb_spec (total_max W as_) 0); [contradiction|].
  assert (t = 0%Z) as ->; [|f_equal; f_equal; lia]. apply (compare_equal W B (store s) p q P Q Rp Rq EPQ as_ t Inc); auto. intros a Ha f.
  destruct (V1 a (Inc a Ha)) as (S1 & _). destruct (V2 a) as (S2 & _); [rewrite <- EPQ; auto|]. cbv zeta in *. rewrite <- (S1 f), <- (S2 f). apply (Same a Ha).
Qed.
Lemma multi_reached W attributes inventory_alias multi_attributes os s given ps : well_named W attributes ->
  (forall x y, inventory_alias x = inventory_alias y -> x = y) -> (forall x, ~ In (inventory_alias x) multi_attributes) ->
  run_ops W attributes (State [] []) os = Some s -> Forall2 (fun i p => nth_error (profiles s) i = Some p) given ps ->
  exists qs sq m h', plain_ops W [] os = Some qs /\ Forall2 (fun i q => nth_error qs i = Some q) given sq /\
    multi_run W attributes inventory_alias multi_attributes ps [] (store s) = Some (m, h') /\
    Forall2 (fun e r => fst e = inventory_alias (fst r) /\ represents W h' (snd e) r) m (fold_left (fun M q => plain_multi_add q M) sq []) /\
    NoDup (map fst m) /\ Forall2 (represents W h') (profiles s) qs.
Proof.
  intros N Ia Im E F. destruct (history_matches W attributes os s N E) as (qs & Eq & M). pose proof M as [_ R]. exists qs.
  assert (exists sq, Forall2 (fun i q => nth_error qs i = Some q) given sq) as [sq Fq].
  { clear - F R. induction F as [|i p given ps Ei F [sq IH]]; [exists []; constructor|]. pose proof (Forall2_nth _ _ _ i R) as X. rewrite Ei in X. destruct (nth_error qs i) as [q|] eqn:Eq; [|contradiction].
    exists (q :: sq). constructor; auto. }
  destruct s as [live h]. destruct (multi_run_spec W attributes N inventory_alias multi_attributes Ia Im given ps sq live qs h M F Fq) as (m & h' & H). exists sq, m, h'. split; auto.
Qed.

(** ** Example *)
Definition door : value := VList 0 LINEAR 1 [Leaf 0; Leaf 1; VList 1 EQUIDISTANT 0 [Leaf 2; Leaf 3]; Leaf 4].
Definition colour : value := VList 2 CYCLIC 1 [Leaf 10; Leaf 11; Leaf 12; Leaf 13; Leaf 14; Leaf 15].
Definition name_of (f : nat) : str := [N.of_nat (100 + f)].
Definition list_name (l : nat) : str := [N.of_nat (50 + l)].
Definition tree_of (a : nat) : value := if Nat.eqb a 0 then door else colour.
Definition data_of (a : nat) : aspect := match populated name_of list_name [[1%N]] (tree_of a) with Some d => d | None => Aspect [] [] [] 0 end.
Definition home : world := World
  (fun f => if has f [0; 1; 2; 3; 4; 90; 91] then Some 0 else if has f [10; 11; 12; 13; 14; 15; 92; 93] then Some 1 else None)
  data_of (fun a => if Nat.eqb a 0 then 90 else 92) (fun a => if Nat.eqb a 0 then 91 else 93) (fun a => [N.of_nat (200 + a)])
  (fun _ => 0) (fun inv => if Nat.eqb inv 0 then [0; 1] else []).
Definition home_attributes : list str := [[1]; [2]]%N.

Ltac nodup := repeat constructor; cbn; intuition discriminate.
Lemma tree_good a : distinct (tree_of a) /\ good_aliases name_of list_name [[1%N]] (tree_of a) /\ nonneg_steps (tree_of a).
Proof.
  unfold tree_of. destruct (Nat.eqb a 0).
  - split; [split; nodup|]. split; [split; [nodup|]|cbn; repeat split; lia]. cbn. intros f H. split; intuition (subst; discriminate).
  - split; [split; nodup|]. split; [split; [nodup|]|cbn; repeat split; lia]. cbn. intros f H. split; intuition (subst; discriminate).
Qed.
Lemma home_built : built home.
Proof.
  intros f a E. exists name_of, list_name, [[1%N]], (tree_of a). destruct (tree_good a) as (D & A & P). split; auto. split; auto. split; auto.
  cbn [home aspect_of data any_of na_of] in *. destruct (has f [0; 1; 2; 3; 4; 90; 91]) eqn:H0; [|destruct (has f [10; 11; 12; 13; 14; 15; 92; 93]) eqn:H1; [|discriminate]]; injection E as <-; (split; [vm_compute; reflexivity|]).
  - apply has_spec in H0. cbn in *. intuition.
  - apply has_spec in H1. cbn in *. intuition.
Qed.
Lemma home_named : well_named home home_attributes.
Proof.
  split.
  - intros f a E. cbn [home aspect_of aspects inventory_of] in *. destruct (has f [0; 1; 2; 3; 4; 90; 91]); [injection E as <-; cbn; auto|]. destruct (has f [10; 11; 12; 13; 14; 15; 92; 93]); [injection E as <-; cbn; auto|discriminate].
  - intros inv. cbn [home aspects aspect_alias inventory_of any_of na_of]. destruct (Nat.eqb_spec inv 0) as [->|]; cbn.
    + split; [nodup|]. intros a [<-|[<-|[]]]; (split; [auto|]; split; [intuition discriminate|split; vm_compute; reflexivity]).
    + split; [constructor|]. intros a [].
Qed.

(** ** Failures *)
(** A feature with the alias of its list: distances depend on the direction. *)
Lemma alias_clash : exists alias list_alias v a, distinct v /\ nonneg_steps v /\ populated alias list_alias [] v = Some a /\
  NoDup (map alias (leaves v)) /\ NoDup (map list_alias (lists v)) /\
  feature_distance a 8 9 0 1 = Some 1%Z /\ feature_distance a 8 9 1 0 = Some 2%Z.
Proof.
  exists (fun f => [N.of_nat f]), (fun l => [N.of_nat (l + 1)]), (VList 0 LINEAR 1 [Leaf 0; Leaf 1; Leaf 2]). eexists. split; [split; nodup|]. split; [cbn; repeat split; lia|]. split; [vm_compute; reflexivity|].
  split; [nodup|]. split; [nodup|]. split; vm_compute; reflexivity.
Qed.
Lemma reversed_distance : exists t step items v w, list_distance t step items v w = 2%Z /\ list_distance t step items w v = (-2)%Z.
Proof. exists LINEAR, 1%Z, [Leaf 0; Leaf 1; Leaf 2], (Leaf 0), (Leaf 2). split; vm_compute; reflexivity. Qed.
(** A profile whose set was emptied, against itself *)
Lemma emptied_set : exists p h, compare home p p h None = Some (-999994, 6)%Z.
Proof. exists (Profile 0 [([200%N], 0); ([201%N], 1)]), [[]; [10]]. vm_compute. reflexivity. Qed.
Lemma no_distances : exists W attributes os s p, built W /\ well_named W attributes /\ run_ops W attributes (State [] []) os = Some s /\ In p (profiles s) /\
  compare W p p (store s) None = None.
Proof.
  set (one := VList 0 EQUIDISTANT 1 [Leaf 0]).
  exists (World (fun f => if has f [0; 1; 2] then Some 0 else None) (fun _ => match populated name_of list_name [] one with Some d => d | None => Aspect [] [] [] 0 end)
            (fun _ => 1) (fun _ => 2) (fun _ => [7%N]) (fun _ => 0) (fun inv => if Nat.eqb inv 0 then [0] else [])), [], [New false 0 [0]].
  eexists. eexists. split; [|split; [|split; [vm_compute; reflexivity|split; [left; reflexivity|vm_compute; reflexivity]]]].
  - intros f a E. exists name_of, list_name, [], one. split; [split; nodup|]. split; [split; [nodup|]|].
    + cbn. intros g H. split; intuition (subst; discriminate).
    + split; [cbn; repeat split; lia|]. split; [reflexivity|]. cbn [aspect_of any_of na_of] in *. destruct (has f [0; 1; 2]) eqn:H; [|discriminate]. apply has_spec in H. cbn in *. intuition.
  - split.
    + intros f a E. cbn [aspect_of aspects inventory_of] in *. destruct (has f [0; 1; 2]); [injection E as <-; cbn; auto|discriminate].
    + intros inv. cbn [aspects aspect_alias inventory_of any_of na_of aspect_of]. destruct (Nat.eqb_spec inv 0) as [->|]; cbn; [|split; [constructor|intros a []]]. split; [nodup|]. intros a [<-|[]]. auto.
Qed.
(** An aspect with the alias of an attribute of profiles: updates of it are lost. *)
Lemma lost_update : exists s p, run_ops home [[200%N]] (State [] []) [New false 0 []; Update 0 [4]] = Some s /\ In p (profiles s) /\
  profile_get home p 0 (store s) = [91] /\ length (p_items p) = 1.
Proof. eexists. eexists. split; [vm_compute; reflexivity|]. split; [left; reflexivity|]. split; vm_compute; reflexivity. Qed.
(** Two aspects with one alias: an update of one overwrites the other. *)
Lemma wrong_aspect : exists W s p, (forall a, aspect_alias W a = [7%N]) /\ aspects W 0 = [0] /\ inventory_of W 1 = 0 /\
  run_ops W [] (State [] []) [New false 0 [4]; Update 0 [10]] = Some s /\ In p (profiles s) /\
  profile_get W p 0 (store s) = [10] /\ aspect_of W 10 = Some 1.
Proof.
  exists (World (aspect_of home) (data home) (any_of home) (na_of home) (fun _ => [7%N]) (fun _ => 0) (fun _ => [0])). eexists. eexists. split; [auto|]. split; [auto|]. split; [auto|].
  split; [vm_compute; reflexivity|]. split; [left; reflexivity|]. split; vm_compute; reflexivity.
Qed.
(** Two inventories with one alias: the second profile is not stored. *)
Lemma same_inventory_alias : exists m h, multi_run home home_attributes (fun _ => [9%N]) [] [Profile 0 [([200%N], 0); ([201%N], 1)]; Profile 1 []] [] [[0]; [10]] = Some (m, h) /\
  map (fun e => p_inventory (snd e)) m = [0].
Proof. eexists. eexists. split; vm_compute; reflexivity. Qed.
(** The profile returned for an inventory already there is not the stored one. *)
Lemma returned_profile : exists p m h h' new m' h2, multi_run home home_attributes (fun x => [N.of_nat x]) [] [p] [] h = Some (m, h') /\
  multi_new home home_attributes (fun x => [N.of_nat x]) [] p m h' = Some (new, m', h2) /\ length m' = 1 /\ ~ In new (map snd m').
Proof.
  exists (Profile 0 [([200%N], 0); ([201%N], 1)]). eexists. exists [[0]; [10]]. eexists. eexists. eexists. eexists. split; [vm_compute; reflexivity|]. split; [vm_compute; reflexivity|]. split; [reflexivity|].
  cbn. intros [H|[]]. discriminate.
Qed.
(** The range from a value to itself is the whole list. *)
Lemma range_to_itself : exists root l items v r, list_range root l items v v = Some r /\ In v items /\ leaves v = [10] /\ length r = 6.
Proof. exists colour, 2, [Leaf 10; Leaf 11; Leaf 12; Leaf 13; Leaf 14; Leaf 15], (Leaf 10). eexists. split; [vm_compute; reflexivity|]. split; [left; auto|]. split; reflexivity. Qed.
