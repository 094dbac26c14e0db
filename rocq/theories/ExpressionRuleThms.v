(** Alignment rules. *)
From Verif Require Import Base ExpressionModel ExpressionSpec ExpressionProofs ExpressionBuild ExpressionOr ExpressionLaws ExpressionContain ExpressionFindings ExpressionRule.

(** ** C54 *)
(** A copy of a rule is the same rule. *)
Theorem C54_copy : forall alias al pre fol bos eos op prio cost,
  built (fst al) -> built (snd al) -> built (fst pre) -> built (snd pre) -> built (fst fol) -> built (snd fol) ->
  let r := mk_rule alias al pre fol bos eos op prio cost in copy_rule r = r.
Proof. exact copy_rule_same. Qed.
Print Assumptions C54_copy.
(** Sides and contexts of a rule have the words given. *)
Theorem C54_fields : forall alias al pre fol bos eos op prio cost,
  let r := mk_rule alias al pre fol bos eos op prio cost in
  (forall w, lang (r_left r) w <-> lang (fst al) w) /\ (forall w, lang (r_right r) w <-> lang (snd al) w) /\
  (forall w, lang (fst (r_pre r)) w <-> lang (fst pre) w) /\ (forall w, lang (snd (r_pre r)) w <-> lang (snd pre) w) /\
  (forall w, lang (fst (r_fol r)) w <-> lang (fst fol) w) /\ (forall w, lang (snd (r_fol r)) w <-> lang (snd fol) w) /\
  (from_bos r, to_eos r, r_op r, r_priority r, r_cost r) = (bos, eos, op, prio, cost).
Proof. exact rule_fields. Qed.
Print Assumptions C54_fields.
Theorem C54_deletion : forall alias left pre fol bos eos op prio cost w, lang (r_right (deletion alias left pre fol bos eos op prio cost)) w <-> w = [].
Proof. exact deletion_words. Qed.
Print Assumptions C54_deletion.
Theorem C54_insertion : forall alias right pre fol bos eos op prio cost w, lang (r_left (insertion alias right pre fol bos eos op prio cost)) w <-> w = [].
Proof. exact insertion_words. Qed.
Print Assumptions C54_insertion.
(** The two rules mirror each other. *)
Theorem C54_interchangeable : forall alias al pre fol bos eos op prio cost,
  let p := interchangeable alias al pre fol bos eos op prio cost in
  sides (fst p) = (set_side (fst al), set_side (snd al)) /\ sides (snd p) = (set_side (snd al), set_side (fst al)) /\
  r_pre (fst p) = r_pre (snd p) /\ r_fol (fst p) = r_fol (snd p) /\ r_alias (fst p) <> r_alias (snd p).
Proof. exact interchangeable_mirror. Qed.
Print Assumptions C54_interchangeable.
Theorem C54_context : forall r p f,
  context_matches r p f =
  ((if from_bos r then matches (fst (r_pre r)) (fst p) && matches (snd (r_pre r)) (snd p)
    else is_suffix (fst (r_pre r)) (fst p) && is_suffix (snd (r_pre r)) (snd p))
   && (if to_eos r then matches (fst (r_fol r)) (fst f) && matches (snd (r_fol r)) (snd f)
       else is_prefix (fst (r_fol r)) (fst f) && is_prefix (snd (r_fol r)) (snd f))).
Proof. exact context_sides. Qed.
Print Assumptions C54_context.
(** A rule without context applies everywhere, except next to the bare symbol nor. *)
Theorem C54_any_context : forall r p f,
  r_pre r = (IAny, IAny) -> r_fol r = (IAny, IAny) -> from_bos r = false -> to_eos r = false ->
  is_alg (fst p) = false -> is_alg (snd p) = false -> is_alg (fst f) = false -> is_alg (snd f) = false ->
  fst p <> ISym Nor -> snd p <> ISym Nor -> fst f <> ISym Nor -> snd f <> ISym Nor ->
  context_matches r p f = true.
Proof. exact any_context_applies. Qed.
Print Assumptions C54_any_context.
(** Some word of the left context ends what precedes, *)
Theorem C54_left_context : forall r p f,
  from_bos r = false -> to_eos r = false -> snd (r_pre r) = IAny -> r_fol r = (IAny, IAny) ->
  is_alg (fst (r_pre r)) = false -> is_any (fst (r_pre r)) = false -> truth (fst (r_pre r)) = true ->
  is_alg (fst p) = false -> is_any (fst p) = false -> no_fresh (fst p) -> snd p = IAny -> f = (IAny, IAny) ->
  (context_matches r p f = true <->
   exists u, lang (fst (r_pre r)) u /\ (u = [] \/ (u <> [Nor] /\ exists v, lang (fst p) v /\ exists a, v = a ++ u))).
Proof. exact left_context. Qed.
Print Assumptions C54_left_context.
(** and some word of the right context begins what follows. *)
Theorem C54_right_context : forall r p f,
  from_bos r = false -> to_eos r = false -> snd (r_fol r) = IAny -> r_pre r = (IAny, IAny) ->
  is_alg (fst (r_fol r)) = false -> is_any (fst (r_fol r)) = false -> truth (fst (r_fol r)) = true ->
  is_alg (fst f) = false -> is_any (fst f) = false -> no_fresh (fst f) -> snd f = IAny -> p = (IAny, IAny) ->
  (context_matches r p f = true <->
   exists u, lang (fst (r_fol r)) u /\ (u = [] \/ (u <> [Nor] /\ exists v, lang (fst f) v /\ exists b, v = u ++ b))).
Proof. exact right_context. Qed.
Print Assumptions C54_right_context.

(** A deletion of 0 after 1 or 2, and before the end after 3 *)
Example C54_example :
  let any := (IAny, IAny) in
  let r := deletion [] (atm 0) (mk_or [atm 1; atm 2], IAny) any false false 1 0 1 in
  let r' := deletion [] (atm 0) any (atm 3, IAny) false true 1 0 1 in
  context_matches r (mk_cat [atm 4; atm 2], IAny) any = true /\ context_matches r (mk_cat [atm 2; atm 4], IAny) any = false /\
  context_matches r (mk_cat [], IAny) any = false /\ context_matches r' any (atm 3, IAny) = true /\
  context_matches r' any (mk_cat [atm 3; atm 4], IAny) = false /\ copy_rule r = r.
Proof. repeat split; vm_compute; reflexivity. Qed.
