(** States of aligner lattices. *)
From Verif Require Import Base GridModel GridSpec GridProofs.

(** ** C25 *)
(** Every request on an existing lattice gives a state. *)
Theorem C25_total : forall w l, reached w -> (forall i x y, In (i, x, y) l -> i < length (lats w)) -> exists ss w', requests w l = Some (ss, w') /\ length ss = length l.
Proof. exact all_requests. Qed.
Print Assumptions C25_total.
(** The state is one of the FST of the lattice. *)
Theorem C25_exists : forall w i x y s w', reached w -> state w i x y = Some (s, w') ->
  exists L n, nth_error (lats w') i = Some L /\ nth_error (fsts w') (l_fst L) = Some n /\ s < n.
Proof. exact state_exists. Qed.
Print Assumptions C25_exists.
(** Whatever happens in between, the same request gives the same state, and adds none. *)
Theorem C25_same : forall w i x y s w1 w2, reached w -> state w i x y = Some (s, w1) -> later w1 w2 -> state w2 i x y = Some (s, w2).
Proof. exact same_again. Qed.
Print Assumptions C25_same.
(** Among any requests, on one lattice or on lattices with one FST, states are equal exactly for equal coordinates or
    for two places out of range with one error node. *)
Theorem C25_equal : forall w l ss w' a b i x y j u v s t L M, reached w -> requests w l = Some (ss, w') ->
  nth_error l a = Some (i, x, y) -> nth_error l b = Some (j, u, v) -> nth_error ss a = Some s -> nth_error ss b = Some t ->
  nth_error (lats w) i = Some L -> nth_error (lats w) j = Some M -> l_fst L = l_fst M ->
  (s = t <-> match in_range L x y, in_range M u v with
             | true, true => i = j /\ x = u /\ y = v
             | false, false => l_err L = l_err M
             | _, _ => False
             end).
Proof. exact requests_equal. Qed.
Print Assumptions C25_equal.
(** The order of the requests only renames the states. *)
Theorem C25_order : forall w l ss w1 l' ss' w2 a b a' b' q r s t s' t' L M, reached w ->
  requests w l = Some (ss, w1) -> requests w l' = Some (ss', w2) ->
  nth_error l a = Some q -> nth_error l b = Some r -> nth_error l' a' = Some q -> nth_error l' b' = Some r ->
  nth_error ss a = Some s -> nth_error ss b = Some t -> nth_error ss' a' = Some s' -> nth_error ss' b' = Some t' ->
  nth_error (lats w) (fst (fst q)) = Some L -> nth_error (lats w) (fst (fst r)) = Some M -> l_fst L = l_fst M ->
  (s = t <-> s' = t').
Proof. exact requests_order. Qed.
Print Assumptions C25_order.
Theorem C25_error : forall w i x y L s w', reached w -> nth_error (lats w) i = Some L -> in_range L x y = false -> state w i x y = Some (s, w') ->
  w' = w /\ nth_error (errs w) (l_err L) = Some (l_fst L, Some s).
Proof. exact out_of_range. Qed.
Print Assumptions C25_error.
(** A request adds one state, the next one, for a new place, and none for a known place. *)
Theorem C25_new : forall w i x y L s w', reached w -> nth_error (lats w) i = Some L -> state w i x y = Some (s, w') ->
  match slot w (key_of L i x y) with
  | Some (f, t) => s = t /\ f = l_fst L /\ w' = w
  | None => nth_error (fsts w) (l_fst L) = Some s /\ fsts w' = set_nth (l_fst L) (S s) (fsts w)
  end.
Proof. exact request_effect. Qed.
Print Assumptions C25_new.
(** A populated lattice is numbered by rows. *)
Theorem C25_populated : forall w width height f e w' n, reached w -> legal w (NewLattice width height f e true) -> nth_error (fsts w) f = Some n ->
  new_lattice w width height f e true = Some w' ->
  exists n', (n' = n \/ n' = S n) /\ nth_error (fsts w') f = Some (n' + width * height) /\
  forall x y, x < width -> y < height -> state w' (length (lats w)) (Z.of_nat x) (Z.of_nat y) = Some (n' + y * width + x, w').
Proof. exact populated. Qed.
Print Assumptions C25_populated.
(** Without the restriction on error nodes: after a lattice on one FST, a lattice on another one with the same default
    error node has one state for a place in range and for the error. *)
Theorem C25_shared_error_refuted : exists w s w1 t w2, reached_any w /\ length (fsts w) = 3 /\
  state w 1 0 0 = Some (s, w1) /\ state w1 1 (-1) 0 = Some (t, w2) /\ s = t.
Proof. exact shared_error. Qed.
Print Assumptions C25_shared_error_refuted.

(** Two lattices on FST 0 with the default error node; requests on both *)
Example C25_example_reached : reached two_lattices.
Proof.
  apply (R_step (World [1; 0] [(0, Some 0)] [Lat 0 2 1 [[None; None]] 0]) (NewLattice 1 1 0 0 false)); [|reflexivity|reflexivity].
  apply (R_step initial (NewLattice 2 1 0 0 false)); [exact R_init|exact I|reflexivity].
Qed.
Example C25_example :
  option_map fst (requests two_lattices [(0, 1%Z, 0%Z); (1, 0%Z, 0%Z); (0, 0%Z, 0%Z); (1, 5%Z, 0%Z); (0, 1%Z, 0%Z); (0, (-1)%Z, 0%Z)]) = Some [1; 2; 3; 0; 1; 0] /\
  option_map fst (requests two_lattices [(0, (-1)%Z, 0%Z); (0, 0%Z, 0%Z); (1, 5%Z, 0%Z); (0, 1%Z, 0%Z); (1, 0%Z, 0%Z); (0, 1%Z, 0%Z)]) = Some [0; 1; 0; 2; 3; 2].
Proof. split; vm_compute; reflexivity. Qed.
Example C25_example_populated :
  new_lattice initial 3 2 0 0 true = Some (World [7; 0] [(0, Some 0)] [Lat 0 3 2 [[Some 1; Some 2; Some 3]; [Some 4; Some 5; Some 6]] 0]).
Proof. reflexivity. Qed.
