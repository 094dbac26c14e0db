(** Features: distances, sets, profiles, containment. *)
From Verif Require Import Base FeatureModel FeatureSpec FeatureProofs ProfileModel ProfileSpec ProfileProofs HistoryProofs CompareProofs ContainModel ContainSpec ContainProofs
  FeatureExamples.

(** ** C17 *)
(** The distance of two features is that of their positions in the innermost list that
    has them in different items; the maximum distance is the largest of these. *)
Theorem C17_distances : forall alias list_alias attributes v, distinct v -> good_aliases alias list_alias attributes v ->
  exists a, populated alias list_alias attributes v = Some a /\
    NoDup (items_of a) /\ (forall f, In f (items_of a) <-> In f (leaves v)) /\ widest v (max_dist a) /\
    forall any n_a f g d, apart v f g d -> ~ In f [any; n_a] -> ~ In g [any; n_a] -> feature_distance a any n_a f g = Some d.
Proof. exact feature_tree. Qed.
Print Assumptions C17_distances.
(** Any two features have exactly one such distance. *)
Theorem C17_pairs : forall v f g, distinct v -> In f (leaves v) -> In g (leaves v) -> f <> g ->
  exists d, apart v f g d /\ forall e, apart v f g e -> e = d.
Proof. exact feature_pairs. Qed.
Print Assumptions C17_pairs.
Theorem C17_symmetric_bounded : forall alias list_alias attributes v a any n_a f g, distinct v -> good_aliases alias list_alias attributes v ->
  populated alias list_alias attributes v = Some a -> nonneg_steps v -> In f (any :: n_a :: leaves v) -> In g (any :: n_a :: leaves v) ->
  exists d, feature_distance a any n_a f g = Some d /\ feature_distance a any n_a g f = Some d /\ (0 <= d <= max_dist a)%Z.
Proof. exact feature_metric. Qed.
Print Assumptions C17_symmetric_bounded.
Theorem C17_self : forall a any n_a f, feature_distance a any n_a f f = Some 0%Z.
Proof. exact distance_self. Qed.
Print Assumptions C17_self.
Theorem C17_any : forall a any n_a f, feature_distance a any n_a f any = Some 0%Z /\ feature_distance a any n_a any f = Some 0%Z.
Proof. exact distance_any. Qed.
Print Assumptions C17_any.
Theorem C17_not_applicable : forall a any n_a f, f <> any -> f <> n_a -> n_a <> any ->
  feature_distance a any n_a f n_a = Some (max_dist a) /\ feature_distance a any n_a n_a f = Some (max_dist a).
Proof. exact distance_na. Qed.
Print Assumptions C17_not_applicable.
(** A feature with the alias of its list is never an item, and its distances are reset. *)
Theorem C17_alias_clash_refuted : exists alias list_alias v a, distinct v /\ nonneg_steps v /\ populated alias list_alias [] v = Some a /\
  NoDup (map alias (leaves v)) /\ NoDup (map list_alias (lists v)) /\
  feature_distance a 8 9 0 1 = Some 1%Z /\ feature_distance a 8 9 1 0 = Some 2%Z.
Proof. exact alias_clash. Qed.
Print Assumptions C17_alias_clash_refuted.
(** ValueList.distance by itself is negative in the other direction. *)
Theorem C17_list_distance_refuted : exists t step items v w, list_distance t step items v w = 2%Z /\ list_distance t step items w v = (-2)%Z.
Proof. exact reversed_distance. Qed.
Print Assumptions C17_list_distance_refuted.

(** The door (0 open, 1 ajar, 2 closed, 3 shut, 4 locked) with the halves as units, and the circle of
    colours 10 to 15 *)
Example C17_example : feature_distance (data_of 0) 90 91 0 4 = Some 3%Z /\ feature_distance (data_of 0) 90 91 4 2 = Some 1%Z /\
  feature_distance (data_of 0) 90 91 2 3 = Some 0%Z /\ feature_distance (data_of 0) 90 91 91 0 = Some 3%Z /\
  feature_distance (data_of 1) 92 93 10 15 = Some 1%Z /\ feature_distance (data_of 1) 92 93 10 13 = Some 3%Z.
Proof. repeat split; vm_compute; reflexivity. Qed.
Example C17_example_hypotheses : forall a, distinct (tree_of a) /\ good_aliases name_of list_name [[1%N]] (tree_of a) /\ nonneg_steps (tree_of a).
Proof. exact tree_good. Qed.

(** ** C18 *)
(** The least distance between their features. *)
Theorem C18_set_distance : forall W, built W -> forall A C, (forall f, In f A -> has_aspect W f) -> (forall f, In f C -> has_aspect W f) ->
  exists d, sets_distance W A C = Some d /\ nearest W A C d.
Proof. exact sets_distance_spec. Qed.
Print Assumptions C18_set_distance.
Theorem C18_nearest_unique : forall W A C d e, nearest W A C d -> nearest W A C e -> d = e.
Proof. exact nearest_unique. Qed.
Print Assumptions C18_nearest_unique.
Theorem C18_set_symmetric : forall W, built W -> forall A C, (forall f, In f A -> has_aspect W f) -> (forall f, In f C -> has_aspect W f) ->
  sets_distance W A C = sets_distance W C A.
Proof. exact sets_distance_sym. Qed.
Print Assumptions C18_set_symmetric.
Theorem C18_set_common : forall W, built W -> forall A C f, (forall f, In f A -> has_aspect W f) -> (forall f, In f C -> has_aspect W f) ->
  In f A -> In f C -> sets_distance W A C = Some 0%Z.
Proof. exact sets_distance_common. Qed.
Print Assumptions C18_set_common.
Theorem C18_set_bounded : forall W, built W -> forall a A C, (A <> [] /\ forall f, In f A -> aspect_of W f = Some a) -> (C <> [] /\ forall f, In f C -> aspect_of W f = Some a) ->
  exists d, sets_distance W A C = Some d /\ (0 <= d <= max_dist (data W a))%Z.
Proof. exact sets_distance_aspect. Qed.
Print Assumptions C18_set_bounded.
Theorem C18_set_other_aspects : forall W, built W -> forall A C, (forall f, In f A -> has_aspect W f) -> (forall f, In f C -> has_aspect W f) ->
  (forall f g, In f A -> In g C -> aspect_of W f <> aspect_of W g) -> sets_distance W A C = Some ERROR_DISTANCE.
Proof. exact sets_distance_apart. Qed.
Print Assumptions C18_set_other_aspects.
(** For profiles made by any history of operations: the similarity is (max - total) / max
    with 0 <= total <= max, the same in both directions. *)
Theorem C18_compare : forall W attributes os s p q as_, built W -> well_named W attributes -> run_ops W attributes (State [] []) os = Some s ->
  In p (profiles s) -> In q (profiles s) -> p_inventory p = p_inventory q -> incl as_ (aspects W (p_inventory p)) ->
  exists t, total_distance W (fun a => profile_get W p a (store s)) (fun a => profile_get W q a (store s)) as_ t /\ (0 <= t <= total_max W as_)%Z /\
    compare W p q (store s) (Some as_) = (if (total_max W as_ =? 0)%Z then None else Some (total_max W as_ - t, total_max W as_)%Z) /\
    compare W q p (store s) (Some as_) = compare W p q (store s) (Some as_).
Proof. exact compare_reached. Qed.
Print Assumptions C18_compare.
(** Profiles with the same values have similarity 1. *)
Theorem C18_compare_same : forall W attributes os s p q as_, built W -> well_named W attributes -> run_ops W attributes (State [] []) os = Some s ->
  In p (profiles s) -> In q (profiles s) -> p_inventory p = p_inventory q -> incl as_ (aspects W (p_inventory p)) -> total_max W as_ <> 0%Z ->
  (forall a, In a as_ -> same_set (profile_get W p a (store s)) (profile_get W q a (store s))) ->
  compare W p q (store s) (Some as_) = Some (total_max W as_, total_max W as_).
Proof. exact compare_same. Qed.
Print Assumptions C18_compare_same.
(** A profile with an emptied value set is not similar to itself. *)
Theorem C18_emptied_set_refuted : exists p h, compare home p p h None = Some (-999994, 6)%Z.
Proof. exact emptied_set. Qed.
Print Assumptions C18_emptied_set_refuted.
(** With one feature in each aspect, comparing divides by zero. *)
Theorem C18_no_distances_refuted : exists W attributes os s p, built W /\ well_named W attributes /\ run_ops W attributes (State [] []) os = Some s /\ In p (profiles s) /\
  compare W p p (store s) None = None.
Proof. exact no_distances. Qed.
Print Assumptions C18_no_distances_refuted.

(** A closed red door and a shut or open yellow one: 1 - (0 + 2) / 6 *)
Example C18_example : exists s p q, run_ops home home_attributes (State [] []) [New false 0 [2; 10]; New false 0 [3; 0; 12]] = Some s /\
  profiles s = [p; q] /\ compare home p q (store s) None = Some (4, 6)%Z.
Proof. eexists. eexists. eexists. split; [vm_compute; reflexivity|]. split; [reflexivity|]. vm_compute. reflexivity. Qed.
Example C18_example_hypotheses : built home /\ well_named home home_attributes.
Proof. split; [exact home_built|exact home_named]. Qed.

(** ** C19 *)
(** Profiles behave as functions from aspects to features: one value set per aspect, an
    update changes the named aspects of one profile only, a copy is independent. *)
Theorem C19_histories : forall W attributes os, well_named W attributes ->
  match run_ops W attributes (State [] []) os, plain_ops W [] os with
  | Some s, Some qs => Forall2 (represents W (store s)) (profiles s) qs
  | None, None => True
  | _, _ => False
  end.
Proof. exact history. Qed.
Print Assumptions C19_histories.
(** A multi-profile has one profile per inventory, with the values of the last one given;
    the profiles given are unchanged. *)
Theorem C19_multi_profiles : forall W attributes inventory_alias multi_attributes os s given ps, well_named W attributes ->
  (forall x y, inventory_alias x = inventory_alias y -> x = y) -> (forall x, ~ In (inventory_alias x) multi_attributes) ->
  run_ops W attributes (State [] []) os = Some s -> Forall2 (fun i p => nth_error (profiles s) i = Some p) given ps ->
  exists qs sq m h', plain_ops W [] os = Some qs /\ Forall2 (fun i q => nth_error qs i = Some q) given sq /\
    multi_run W attributes inventory_alias multi_attributes ps [] (store s) = Some (m, h') /\
    Forall2 (fun e r => fst e = inventory_alias (fst r) /\ represents W h' (snd e) r) m (fold_left (fun M q => plain_multi_add q M) sq []) /\
    NoDup (map fst m) /\ Forall2 (represents W h') (profiles s) qs.
Proof. exact multi_reached. Qed.
Print Assumptions C19_multi_profiles.
(** The aspect 0 of this inventory has the alias of an attribute of profiles: its set is
    missing, and the update to "locked" leaves "not applicable". *)
Theorem C19_lost_update_refuted : exists s p, run_ops home [[200%N]] (State [] []) [New false 0 []; Update 0 [4]] = Some s /\ In p (profiles s) /\
  profile_get home p 0 (store s) = [91] /\ length (p_items p) = 1.
Proof. exact lost_update. Qed.
Print Assumptions C19_lost_update_refuted.
(** Two aspects with one alias: updating the one that is not listed overwrites the other. *)
Theorem C19_same_alias_refuted : exists W s p, (forall a, aspect_alias W a = [7%N]) /\ aspects W 0 = [0] /\ inventory_of W 1 = 0 /\
  run_ops W [] (State [] []) [New false 0 [4]; Update 0 [10]] = Some s /\ In p (profiles s) /\
  profile_get W p 0 (store s) = [10] /\ aspect_of W 10 = Some 1.
Proof. exact wrong_aspect. Qed.
Print Assumptions C19_same_alias_refuted.
(** Two inventories with one alias: the second profile is not stored. *)
Theorem C19_inventory_alias_refuted : exists m h, multi_run home home_attributes (fun _ => [9%N]) [] [Profile 0 [([200%N], 0); ([201%N], 1)]; Profile 1 []] [] [[0]; [10]] = Some (m, h) /\
  map (fun e => p_inventory (snd e)) m = [0].
Proof. exact same_inventory_alias. Qed.
Print Assumptions C19_inventory_alias_refuted.
(** The profile returned the second time is not the one in the multi-profile. *)
Theorem C19_returned_profile_refuted : exists p m h h' new m' h2, multi_run home home_attributes (fun x => [N.of_nat x]) [] [p] [] h = Some (m, h') /\
  multi_new home home_attributes (fun x => [N.of_nat x]) [] p m h' = Some (new, m', h2) /\ length m' = 1 /\ ~ In new (map snd m').
Proof. exact returned_profile. Qed.
Print Assumptions C19_returned_profile_refuted.

(** A red profile, a copy, then the first one becomes yellow. *)
Example C19_example : exists s p q, run_ops home home_attributes (State [] []) [New false 0 [10]; Copy 0; Update 0 [12; 2]] = Some s /\
  profiles s = [p; q] /\ profile_get home p 1 (store s) = [12] /\ profile_get home q 1 (store s) = [10] /\
  profile_get home p 0 (store s) = [2] /\ profile_get home q 0 (store s) = [90].
Proof. eexists. eexists. eexists. split; [vm_compute; reflexivity|]. split; [reflexivity|]. repeat split; vm_compute; reflexivity. Qed.

(** ** C51 *)
(** The lists a value is in *)
Theorem C51_parents : forall root x l, distinct root -> In l (parent_list root x) <-> below root l x.
Proof. exact parents_below. Qed.
Print Assumptions C51_parents.
(** innermost first *)
Theorem C51_parent : forall root l x, distinct root -> item_of_list root l x -> exists rest, parent_list root x = l :: rest.
Proof. exact parents_head. Qed.
Print Assumptions C51_parent.
Theorem C51_has_feature : forall root s x, distinct root ->
  set_has_feature root s x = true <-> exists f, In f s /\ (x = F f \/ exists l, x = L l /\ below root l (F f)).
Proof. exact set_has_spec. Qed.
Print Assumptions C51_has_feature.
Theorem C51_value_in_set : forall root n x s, distinct root -> value_in root (S n) x (OSet s) = Some (set_has_feature root s x).
Proof. exact value_in_set. Qed.
Print Assumptions C51_value_in_set.
Theorem C51_value_in_profile : forall root n x sets, distinct root ->
  value_in root (S n) x (OProfile sets) = Some (existsb (fun s => set_has_feature root s x) sets).
Proof. exact value_in_profile. Qed.
Print Assumptions C51_value_in_profile.
(** Whether a value is in a list is never answered: the calls go round. *)
Theorem C51_value_in_list_refuted : forall root depth x l fs, value_in root depth x (OList l fs) = None.
Proof. exact value_in_list. Qed.
Print Assumptions C51_value_in_list_refuted.
Theorem C51_value_in_aspect_refuted : forall root depth x fs, value_in root depth x (OAspect fs) = None.
Proof. exact value_in_aspect. Qed.
Print Assumptions C51_value_in_aspect_refuted.
Theorem C51_range : forall root l t s items i j v w, distinct root -> In (VList l t s items) (subvalues root) ->
  nth_error items i = Some v -> nth_error items j = Some w -> i <> j ->
  exists r, list_range root l items v w = Some r /\ forall f, In f r <-> in_items items (round_trip i j (length items)) f.
Proof. exact range_spec. Qed.
Print Assumptions C51_range.
Theorem C51_range_other_list : forall root l items v w, distinct root -> In v (inside root) -> In w (inside root) ->
  ~ (item_of_list root l (ident_of v) /\ item_of_list root l (ident_of w)) -> list_range root l items v w = Some [].
Proof. exact range_other. Qed.
Print Assumptions C51_range_other_list.
Theorem C51_range_self : forall root l t s items i v, distinct root -> In (VList l t s items) (subvalues root) -> nth_error items i = Some v ->
  exists r, list_range root l items v v = Some r /\ forall f, In f r <-> In f (flat_map leaves items).
Proof. exact range_self. Qed.
Print Assumptions C51_range_self.
(** The range from a value to itself is the whole list. *)
Theorem C51_range_self_refuted : exists root l items v r, list_range root l items v v = Some r /\ In v items /\ leaves v = [10] /\ length r = 6.
Proof. exact range_to_itself. Qed.
Print Assumptions C51_range_self_refuted.
Theorem C51_aspect_sets : forall of_ all neg fs f, In f (make_set of_ all neg fs) <->
  if (neg : bool) then In f all /\ ~ (In f fs /\ of_ f = true) else In f fs /\ of_ f = true.
Proof. exact make_set_spec. Qed.
Print Assumptions C51_aspect_sets.

(** The list "closed or shut" (1) is in a set with "shut", not in one with "open"; from purple (15) to
    orange (11) *)
Example C51_example : set_has_feature door [3; 10] (L 1) = true /\ set_has_feature door [0; 10] (L 1) = false /\
  parent_list door (F 3) = [1; 0] /\
  list_range colour 2 [Leaf 10; Leaf 11; Leaf 12; Leaf 13; Leaf 14; Leaf 15] (Leaf 15) (Leaf 11) = Some [10; 11; 15] /\
  list_range colour 2 [Leaf 10; Leaf 11; Leaf 12; Leaf 13; Leaf 14; Leaf 15] (Leaf 11) (Leaf 13) = Some [12; 11; 13].
Proof. repeat split; vm_compute; reflexivity. Qed.
