(** Operation inventories. *)
From Coq Require Import Ascii String Sorted.
From Verif Require Import Base ContainerModel InventoryModel InventorySpec OperationModel OperationSpec OperationProofs.
Local Open Scope list_scope.

(** ** C22 *)
(** After any history indices increase strictly, none is a multiple of ten, and each finds its operation. *)
Theorem C22_history : forall os p l s, (p mod 10 = 0)%N -> op_run (new_op_inv os p) l = Some s ->
  StronglySorted N.lt (map fst (index_dict s)) /\
  forall index id, index_lookup s index = Some id -> is_item s id /\ (p < index)%N /\ (index mod 10 <> 0)%N /\
    exists o, nth_error (ops s) id = Some o /\ o_index o = index.
Proof. exact op_history. Qed.
Print Assumptions C22_history.
Theorem C22_kept : forall os p l l' s s', (p mod 10 = 0)%N -> op_run (new_op_inv os p) l = Some s -> op_run s l' = Some s' ->
  forall index id, index_lookup s index = Some id -> index_lookup s' index = Some id.
Proof. exact op_kept. Qed.
Print Assumptions C22_kept.
(** The n-th operation gets the n-th number above the prefix that is not a multiple of ten. *)
Theorem C22_from_args : forall os p args, (p mod 10 = 0)%N -> Forall (fun x => usable (fst x)) (flat_map variants args) -> NoDup (map fst (flat_map variants args)) ->
  exists s, from_args os p args = Some s /\ length (index_dict s) = 4 * length args /\
    forall n x, nth_error (flat_map variants args) n = Some x ->
      exists o, nth_error (ops s) (length os + n) = Some o /\ o_alias o = fst x /\ o_cost o = snd x /\
        o_index o = nth_index p n /\ index_lookup s (o_index o) = Some (length os + n).
Proof. exact args_indices. Qed.
Print Assumptions C22_from_args.
Theorem C22_nth_index : forall p n, (p mod 10 = 0)%N -> (nth_index p n mod 10 <> 0)%N /\ (p < nth_index p n)%N /\ (n < 90 -> (nth_index p n < p + 100)%N).
Proof. exact nth_index_facts. Qed.
Print Assumptions C22_nth_index.
Theorem C22_nth_index_increasing : forall p n m, n < m -> (nth_index p n < nth_index p m)%N.
Proof. exact nth_index_lt. Qed.
Print Assumptions C22_nth_index_increasing.
Theorem C22_nth_index_all : forall p i, (p mod 10 = 0)%N -> (p < i)%N -> (i mod 10 <> 0)%N -> exists n, nth_index p n = i.
Proof. exact nth_index_all. Qed.
Print Assumptions C22_nth_index_all.
Theorem C22_next_index : forall s, next_index s = None <-> 2 <= length (items_of (base s)) /\ index_dict s = [].
Proof. exact next_index_total. Qed.
Print Assumptions C22_next_index.
(** With two operations from elsewhere, no operation can be made. *)
Theorem C22_no_index_refuted : exists s, op_run (new_op_inv [] 200) [MakeElsewhere (codes "a") 0 1; MakeElsewhere (codes "b") 0 2; AddOp 0; AddOp 1] = Some s /\
  make_operation s (codes "c") 0 = None.
Proof. exact no_index. Qed.
Print Assumptions C22_no_index_refuted.
(** An operation that is refused is returned with the index of the next one. *)
Theorem C22_refused_refuted : exists s id1 s1 id2 s2 o1 o2, make_operation s (codes "text") 0 = Some (id1, s1) /\ make_operation s1 (codes "voicing") 0 = Some (id2, s2) /\
  s = new_op_inv [] 200 /\ nth_error (ops s2) id1 = Some o1 /\ nth_error (ops s2) id2 = Some o2 /\ id1 <> id2 /\ o_index o1 = o_index o2.
Proof. exact refused_index. Qed.
Print Assumptions C22_refused_refuted.
(** The 91st operation has an index of the next range. *)
Theorem C22_range_refuted : exists args s o, length args = 23 /\ from_args [] 100 args = Some s /\ nth_error (ops s) 90 = Some o /\ o_index o = 201%N.
Proof. exact overflow. Qed.
Print Assumptions C22_range_refuted.

Example C22_example : exists s, from_args [] 100 COMMON = Some s /\ map o_index (firstn 12 (ops s)) = [101; 102; 103; 104; 105; 106; 107; 108; 109; 111; 112; 113]%N /\
  option_map (fun id => alias_at s id) (index_lookup s 111) = Some (Some (codes "partial_deletion")) /\ index_lookup s 110 = None.
Proof. eexists. split; [vm_compute; reflexivity|]. repeat split. Qed.
Example C22_example_hypotheses : Forall (fun x => usable (fst x)) (flat_map variants COMMON) /\ NoDup (map fst (flat_map variants COMMON)).
Proof. exact common_usable. Qed.

(** ** C52 *)
Theorem C52_links : forall os p args, (p mod 10 = 0)%N -> Forall (fun x => usable (fst x)) (flat_map variants args) -> NoDup (map fst (flat_map variants args)) ->
  exists s, from_args os p args = Some s /\
    forall j arg, nth_error args j = Some arg -> let id := length os + 4 * j in
      exists o0 o1 o2 o3, nth_error (ops s) id = Some o0 /\ nth_error (ops s) (id + 1) = Some o1 /\ nth_error (ops s) (id + 2) = Some o2 /\ nth_error (ops s) (id + 3) = Some o3 /\
        map o_match [o0; o1; o2; o3] = [id; id; id; id] /\ map o_partial [o0; o1; o2; o3] = [id + 1; id + 1; id + 3; id + 3] /\
        map o_unexpected [o0; o1; o2; o3] = [id + 2; id + 3; id + 2; id + 3].
Proof. exact args_links. Qed.
Print Assumptions C52_links.
(** Only the operations that were given are shown. *)
Theorem C52_shown : forall os p args, (p mod 10 = 0)%N -> Forall (fun x => usable (fst x)) (flat_map variants args) -> NoDup (map fst (flat_map variants args)) ->
  exists s, from_args os p args = Some s /\ shown s = map fst args.
Proof. exact args_shown. Qed.
Print Assumptions C52_shown.
(** The class comment says unexpected_voicing.partial is partial_voicing and unexpected_voicing.unexpected is
    unexpected_partial_voicing; neither is so. *)
Theorem C52_documented_refuted : exists s o, from_args [] 200 [(codes "voicing", 0%Z)] = Some s /\
  alias_at s 1 = Some (codes "partial_voicing") /\ alias_at s 2 = Some (codes "unexpected_voicing") /\ alias_at s 3 = Some (codes "unexpected_partial_voicing") /\
  nth_error (ops s) 2 = Some o /\ o_partial o <> 1 /\ o_unexpected o <> 3.
Proof. exact documented_links. Qed.
Print Assumptions C52_documented_refuted.

(** The inventory that is made when the module is loaded *)
Theorem C52_shipped : exists s, from_args [] 100 COMMON = Some s /\ shown s = map (fun x => codes (fst x)) shipped_operations /\
  map (fun o => (o_alias o, o_cost o)) (ops s) = flat_map (fun x => variants (codes (fst x), snd x)) shipped_operations.
Proof. exact shipped. Qed.
Print Assumptions C52_shipped.

Example C52_example : exists s, from_args [] 100 COMMON = Some s /\ link o_partial s 0 (codes "partial_alignable") /\ link o_unexpected s 1 (codes "unexpected_partial_alignable") /\
  link o_match s 3 (codes "alignable") /\ shown s = map fst COMMON.
Proof. eexists. split; [vm_compute; reflexivity|]. split; [|split; [|split; [|reflexivity]]]; (eexists; eexists; split; [reflexivity|]; split; reflexivity). Qed.
