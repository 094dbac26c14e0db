(** C84: what it means that a list of rewrites passes as a test of a grammar. *)
From Verif Require Import Base TextprotoModel TextprotoSpec TextprotoProofs.
Local Open Scope N_scope.

(** The test passes when everything can be read, the rules of every entry can
    be set, and every entry holds in the mode of the test. *)
Theorem C84_test : forall outs rewrites top one_top,
  cascade_of outs rewrites top one_top ->
  forall set_rules file token far mode,
  text_proto_test set_rules rewrites top one_top file token far mode = Passed <->
  token = true /\ far = true /\
  exists l, file = Some l /\
    forall e, In e l -> set_rules (e_rules e) = true /\ entry_holds outs top mode e.
Proof. exact test_passed. Qed.
Print Assumptions C84_test.

Example C84_test_example :
  text_proto_test (fun r => match r with [] => false | _ => true end)
    (fun r i => Some [i; i ++ i]) (fun r i => Some i) (fun r i => Some i)
    (Some [Entry [[82]] [97] [[97; 97]; [97]]; Entry [[82]] [98] [[98]; [98; 98]]])
    true true s_exact = Passed /\
  text_proto_test (fun r => match r with [] => false | _ => true end)
    (fun r i => Some [i; i ++ i]) (fun r i => Some i) (fun r i => Some i)
    (Some [Entry [[82]] [97] [[97; 97]]]) true true s_exact = Failed /\
  text_proto_test (fun r => match r with [] => false | _ => true end)
    (fun r i => Some [i; i ++ i]) (fun r i => Some i) (fun r i => Some i)
    (Some [Entry [[82]] [97] [[97; 97]]; Entry [] [97] [[97]]]) true true s_exact = Stopped.
Proof. repeat split. Qed.

(** One entry, in each of the modes. *)
Theorem C84_entry : forall outs rewrites top one_top,
  cascade_of outs rewrites top one_top ->
  forall mode e,
  expectations rewrites top one_top mode e = Some true <-> entry_holds outs top mode e.
Proof. exact expectations_spec. Qed.
Print Assumptions C84_entry.

(** The matchers: the same strings equally often; one string for each. *)
Theorem C84_exact : forall a e, unordered_elements_are a e = true <-> Permutation a e.
Proof. exact unordered_spec. Qed.
Print Assumptions C84_exact.

Theorem C84_superset : forall a e,
  superset_of a e = true <-> exists r, Permutation a (e ++ r).
Proof. exact superset_spec. Qed.
Print Assumptions C84_superset.

Example C84_superset_example :
  superset_of [[97]; [98]; [99]] [[99]; [97]] = true /\
  superset_of [[97]; [98]] [[97]; [97]] = false.
Proof. split; reflexivity. Qed.

(** An entry that lists an output twice fails in every mode. *)
Theorem C84_listed_twice : forall outs rewrites top one_top mode e,
  cascade_of outs rewrites top one_top ->
  ~ NoDup (e_outputs e) -> expectations rewrites top one_top mode e <> Some true.
Proof. exact listed_twice. Qed.
Print Assumptions C84_listed_twice.

(** The modes "one_top" and "exact" are at least as strict as "top" and
    "subset". *)
Theorem C84_one_top_top : forall outs rewrites top one_top e,
  cascade_of outs rewrites top one_top ->
  expectations rewrites top one_top s_one_top e = Some true ->
  expectations rewrites top one_top s_top e = Some true.
Proof. exact one_top_top. Qed.
Print Assumptions C84_one_top_top.

Theorem C84_exact_subset : forall outs rewrites top one_top e,
  cascade_of outs rewrites top one_top ->
  expectations rewrites top one_top s_exact e = Some true ->
  expectations rewrites top one_top s_subset e = Some true.
Proof. exact exact_subset. Qed.
Print Assumptions C84_exact_subset.

(** The process stops exactly when the rules of some entry cannot be set. *)
Theorem C84_stopped : forall rewrites top one_top set_rules mode l ok,
  mode = s_exact \/ mode = s_one_top \/ mode = s_subset \/ mode = s_top ->
  (entries set_rules rewrites top one_top mode ok l = Stopped <->
   exists e, In e l /\ set_rules (e_rules e) = false).
Proof. exact entries_stopped. Qed.
Print Assumptions C84_stopped.

(** A mode that does not exist is noticed only at an entry with outputs. *)
Theorem C84_unknown_mode : forall outs rewrites top one_top set_rules mode l,
  cascade_of outs rewrites top one_top ->
  ~ (mode = s_exact \/ mode = s_one_top \/ mode = s_subset \/ mode = s_top) ->
  (entries set_rules rewrites top one_top mode true l = Passed <->
   forall e, In e l -> set_rules (e_rules e) = true /\
     e_outputs e = [] /\ outs (e_rules e) (e_input e) = []).
Proof. exact unknown_mode. Qed.
Print Assumptions C84_unknown_mode.

Example C84_unknown_mode_example :
  entries (fun _ => true) (fun r i => None) (fun r i => None) (fun r i => None)
    [120] true [Entry [[82]] [97] []] = Passed /\
  entries (fun _ => true) (fun r i => None) (fun r i => None) (fun r i => None)
    [120] true [Entry [[82]] [97] []; Entry [[82]] [97] [[97]]] = Failed.
Proof. split; reflexivity. Qed.

(** The strings listed as extra or missing are right for sorted lists … *)
Theorem C84_set_difference : forall a b z,
  sorted a -> sorted b ->
  times z (set_difference a b) = (times z a - times z b)%nat.
Proof. exact set_difference_spec. Qed.
Print Assumptions C84_set_difference.

Example C84_set_difference_example :
  set_difference [[97]; [98]; [98]; [99]] [[98]; [100]] = [[97]; [98]; [99]].
Proof. reflexivity. Qed.

(** … but the lists are not sorted: an output that is expected is then reported
    as extra. *)
Theorem C84_set_difference_refuted :
  exists actual expected z,
    In z (set_difference actual expected) /\ In z expected /\
    times z actual = times z expected.
Proof.
  exists [[98]; [97]; [99]], [[97]; [98]], [97].
  split; [left; reflexivity|]. split; [left; reflexivity|]. reflexivity.
Qed.
Print Assumptions C84_set_difference_refuted.

(** The assumption about the cascade can be met. *)
Example C84_cascade_example :
  cascade_of (fun r i => [(1 :: i, 2%Z); (i, 1%Z)])
    (fun r i => Some [i; 1 :: i]) (fun r i => Some i) (fun r i => Some i).
Proof.
  assert (L : forall r i p,
    lightest (fun r i => [(1 :: i, 2%Z); (i, 1%Z)]) r i p <-> p = i).
  { intros r i p. split.
    - intros (w & [H|[H|[]]] & Hm); injection H as <- <-; [|reflexivity].
      exfalso. apply (Hm i 1%Z); [right; left|]; reflexivity.
    - intros ->. exists 1%Z. split; [right; left; reflexivity|].
      intros q v [H|[H|[]]]; injection H as <- <-; lia. }
  assert (D : forall i : str, 1 :: i <> i).
  { intros i H. apply (f_equal (@length N)) in H. simpl in H. lia. }
  split; [|split; [|split]].
  - intros r i. simpl. constructor.
    + intros [H|[]]. exact (D i (eq_sym H)).
    + constructor; [intros []|constructor].
  - intros r i. split; [discriminate|]. apply perm_swap.
  - intros r i. now apply L.
  - intros r i o. split.
    + intro H. injection H as <-. apply L.
    + intro H. f_equal. now apply H, L.
Qed.

(** What the modes are called *)
From Coq Require Import String Ascii.
Theorem C84_mode_names :
  [s_exact; s_one_top; s_subset; s_top] =
  map (fun s => map N_of_ascii (list_ascii_of_string s)) ["exact"; "one_top"; "subset"; "top"]%string.
Proof. exact mode_names. Qed.
Print Assumptions C84_mode_names.
