(** Inventories. *)
From Coq Require Import Ascii String.
From Verif Require Import Base ContainerModel ContainerSpec InventoryModel InventorySpec InventoryProofs.
Local Open Scope list_scope.

(** ** C24 *)
(** Every history of an inventory is a history of its list of entries: first alias wins, refusals change
    nothing and are reported, and items, aliases and fields stay in step. *)
Theorem C24_history : forall h cls typed reserved os, Forall safe_op os -> Forall (op_value_known h) os ->
  exists answers s es, inv_run h (new_inventory cls typed reserved) os = Some (answers, s) /\
    entry_steps h (Container cls typed []) reserved [] os answers es /\ holds s es.
Proof. exact inventory_history. Qed.
Print Assumptions C24_history.
(** No alias and no item twice; entries are never overwritten or removed. *)
Theorem C24_no_duplicates : forall h c reserved es os answers es', entry_steps h c reserved es os answers es' ->
  NoDup (map (fun e => alias_of e) es) -> NoDup (entry_items es) ->
  NoDup (map (fun e => alias_of e) es') /\ NoDup (entry_items es') /\ exists more, es' = es ++ more.
Proof. exact entry_steps_nodup. Qed.
Print Assumptions C24_no_duplicates.
Theorem C24_determined : forall h c reserved es o a es' a2 es2, NoDup (map (fun e => alias_of e) es) ->
  entry_step h c reserved es o a es' -> entry_step h c reserved es o a2 es2 -> a = a2 /\ es' = es2.
Proof. exact entry_step_unique. Qed.
Print Assumptions C24_determined.
Theorem C24_from_list : forall h cls typed reserved items attr suppls s, from_list h cls typed reserved items attr suppls = Some s ->
  exists answers, inv_run h (new_inventory cls typed reserved) (map (fun t => AddItem t attr) items ++ map AddSuppl suppls) = Some (answers, s).
Proof. exact from_list_history. Qed.
Print Assumptions C24_from_list.
(** An item called "get" is taken, and nothing can be looked up any more. *)
Theorem C24_method_name_refuted : exists s, inv_run [] (new_inventory 9 None base_attributes) [AddItem (Thing (Plain 5 1) (codes "get") (Plain 5 1) []) []] = Some ([Added true], s) /\
  forall a d, get s a d = None.
Proof. exact shadowed. Qed.
Print Assumptions C24_method_name_refuted.
Theorem C24_method_name_add_refuted : exists s, inv_run [] (new_inventory 9 None base_attributes) [MakeSuppl (codes "_add_field") (Plain 5 1)] = Some ([Added true], s) /\
  forall t, valid_item [] (i_container s) (t_self t) = Some true -> add_item [] s t [] = None.
Proof. exact shadowed_add. Qed.
Print Assumptions C24_method_name_add_refuted.

(** a, then another thing called a, b, a again under another alias, a supplement, one called text *)
Example C24_example : exists s,
  inv_run [] (new_inventory 9 None base_attributes)
    [AddItem (Thing (Plain 5 1) (codes "a") (Plain 5 1) []) []; AddItem (Thing (Plain 5 2) (codes "a") (Plain 5 2) []) [];
     AddItem (Thing (Plain 5 3) (codes "b") (Plain 5 3) []) []; AddItem (Thing (Plain 5 1) (codes "c") (Plain 5 1) []) [];
     MakeSuppl (codes "vowels") (Group 6 [Plain 5 1]); MakeSuppl (codes "text") (Plain 5 4);
     Get (codes "a") MISSING; Get (codes "vowels") MISSING; Get (codes "c") MISSING]
  = Some ([Added true; Added false; Added true; Added false; Added true; Added false;
           Found (Plain 5 1); Found (Group 6 [Plain 5 1]); Found MISSING], s) /\
  items_of s = [Plain 5 1; Plain 5 3] /\ item_aliases s = [codes "a"; codes "b"] /\ suppl_aliases s = [codes "vowels"].
Proof. eexists. split; [vm_compute; reflexivity|]. repeat split. Qed.
