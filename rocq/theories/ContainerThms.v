(** Iterable things and equality of things. *)
From Verif Require Import Base ContainerModel ContainerSpec ContainerProofs.

(** ** C37 *)
(** Adding any nesting appends exactly the valid items, in order. *)
Theorem C37_flattened : forall h a c rank xs, nth_error h a = Some c -> acyclic h rank ->
  (forall d, In d (flat_map refs xs) -> d < length h /\ ~ reaches h d a) ->
  exists ys h' d0, takes_all h a c xs ys /\ grown h h' a ys /\ forall d, d0 <= d -> add d h a xs = Some h' .
Proof. exact add_acyclic. Qed.
Print Assumptions C37_flattened.
Theorem C37_takes : forall h a c xs ys, nth_error h a = Some c -> takes_all h a c xs ys ->
  exists h' d0, grown h h' a ys /\ forall d, d0 <= d -> add d h a xs = Some h' .
Proof. exact add_takes. Qed.
Print Assumptions C37_takes.
Theorem C37_takes_unique : forall h a c,
  (forall x ys, takes h a c x ys -> forall zs, takes h a c x zs -> ys = zs) /\
  (forall xs ys, takes_all h a c xs ys -> forall zs, takes_all h a c xs zs -> ys = zs).
Proof. exact takes_unique. Qed.
Print Assumptions C37_takes_unique.
(** After any history every item is valid for its container. *)
Theorem C37_typed : forall depth os h, steps depth os = Some h -> well_typed h.
Proof. exact steps_typed. Qed.
Print Assumptions C37_typed.
(** A container added to itself has its items twice. *)
Theorem C37_itself : forall d h a c, well_typed h -> nth_error h a = Some c -> ~ accepted c (c_class c) ->
  exists h', add (S (S d)) h a [Ref a] = Some h' /\ grown h h' a (c_items c).
Proof. exact add_self. Qed.
Print Assumptions C37_itself.
(** Two containers that hold each other: adding one to a third never ends. *)
Theorem C37_cyclic_refuted : exists d0 os h, steps d0 os = Some h /\ forall d, add d h 2 [Ref 0] = None.
Proof. exact cyclic_never. Qed.
Print Assumptions C37_cyclic_refuted.
Theorem C37_item_forward : forall l i d, i < length l -> item l (Z.of_nat i) d = nth_error l i.
Proof. exact item_forward. Qed.
Print Assumptions C37_item_forward.
Theorem C37_item_backward : forall l i d, i < length l -> item l (- Z.of_nat (S i)) d = nth_error (rev l) i.
Proof. exact item_backward. Qed.
Print Assumptions C37_item_backward.
Theorem C37_item_outside : forall l i d, (i < - Z.of_nat (length l) \/ Z.of_nat (length l) <= i)%Z -> item l i d = Some d.
Proof. exact item_outside. Qed.
Print Assumptions C37_item_outside.
Theorem C37_nothing_never_equal : forall fst (fst_string : fst -> option str) pyn_equal eq x y, nothing_like x ->
  is_equal fst_string pyn_equal eq x y = false /\ is_equal fst_string pyn_equal eq y x = false.
Proof. exact nothing_never. Qed.
Print Assumptions C37_nothing_never_equal.
Theorem C37_equal_values : forall fst (fst_string : fst -> option str) pyn_equal eq x y, is_fst x = false -> is_fst y = false -> ~ nothing_like x -> ~ nothing_like y ->
  is_equal fst_string pyn_equal eq x y = eq (value_of x) (value_of y).
Proof. exact equal_values. Qed.
Print Assumptions C37_equal_values.
Theorem C37_equal_strings : forall fst (fst_string : fst -> option str) pyn_equal eq f s g, fst_string f = Some s -> fstlike g <> None ->
  forall t, (match fstlike g with Some u => string_of fst_string u | None => None end) = Some t ->
  is_equal fst_string pyn_equal eq (VFst f) g = str_eqb s t /\ is_equal fst_string pyn_equal eq g (VFst f) = str_eqb t s.
Proof. exact equal_strings. Qed.
Print Assumptions C37_equal_strings.
Theorem C37_equal_symmetric : forall fst (fst_string : fst -> option str) pyn_equal eq, (forall x y, eq x y = eq y x) -> (forall f g, pyn_equal f g = pyn_equal g f) ->
  forall x y, is_equal fst_string pyn_equal eq x y = is_equal fst_string pyn_equal eq y x.
Proof. exact equal_sym. Qed.
Print Assumptions C37_equal_symmetric.
Theorem C37_fst_not_like_other : forall fst (fst_string : fst -> option str) pyn_equal eq f y, fstlike y = None ->
  is_equal fst_string pyn_equal eq (VFst f) y = false /\ is_equal fst_string pyn_equal eq y (VFst f) = false.
Proof. exact equal_other_fst. Qed.
Print Assumptions C37_fst_not_like_other.
(** A Thing whose value is an Fst is not equal to that Fst. *)
Theorem C37_fst_value_refuted : forall fst (fst_string : fst -> option str) pyn_equal eq (f : fst) t, is_equal fst_string pyn_equal eq (VThing t (Some (VFst f))) (VFst f) = false.
Proof. exact fst_value. Qed.
Print Assumptions C37_fst_value_refuted.

(** The example of the class: IterableThing(0, 1), then IterableThing(it, 2, [3, 4], '567', MISSING),
    untyped and for numbers only (class 10: IterableThing, 5: int, 6: list) *)
Example C37_example : exists h,
  steps 5 [Make 10 None [Plain 5 0; Plain 5 1];
           Make 10 None [Ref 0; Plain 5 2; Group 6 [Plain 5 3; Plain 5 4]; Text [53; 54; 55]%N; Nought 2];
           Make 10 (Some [5%N]) [Ref 0; Plain 5 2; Group 6 [Plain 5 3; Plain 5 4]; Text [53; 54; 55]%N; Nought 2]] = Some h /\
  map c_items h = [[Plain 5 0; Plain 5 1];
                   [Plain 5 0; Plain 5 1; Plain 5 2; Group 6 [Plain 5 3; Plain 5 4]; Text [53; 54; 55]%N];
                   [Plain 5 0; Plain 5 1; Plain 5 2; Plain 5 3; Plain 5 4]].
Proof. eexists. split; vm_compute; reflexivity. Qed.
Example C37_example_item : let l := [Plain 5 0; Plain 5 1; Plain 5 2] in
  map (fun i => item l i (Nought 2)) [0; 2; -1; -3; 3; -4]%Z =
  [Some (Plain 5 0); Some (Plain 5 2); Some (Plain 5 2); Some (Plain 5 0); Some (Nought 2); Some (Nought 2)].
Proof. vm_compute. reflexivity. Qed.
