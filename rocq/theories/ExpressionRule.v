From Verif Require Import Base ExpressionModel ExpressionSpec ExpressionProofs ExpressionBuild ExpressionOr ExpressionLaws ExpressionContain.

Definition not_symbol (x : item) : bool := match x with ISym _ => false | _ => true end.
Lemma set_side_built x : built x -> built (set_side x).
Proof. intros B. destruct x; cbn; try exact B. inversion B; subst. apply B_atm. assumption. Qed.
Lemma set_side_twice x : set_side (set_side x) = set_side x.
Proof. destruct x; reflexivity. Qed.
Lemma set_side_any x : is_any (set_side x) = is_any x.
Proof. destruct x; reflexivity. Qed.
Lemma set_side_words x w : lang (set_side x) w <-> lang x w.
Proof. rewrite !lang_symbols. destruct x; reflexivity. Qed.
Lemma any_context_twice c : set_side (fst c) = fst c -> set_side (snd c) = snd c ->
  any_context (base (fst (any_context c)) (snd (any_context c))) = any_context c.
Proof.
  intros H1 H2. unfold any_context at 2 3. destruct (is_any (fst c) && is_any (snd c)) eqn:E; [unfold any_context at 2; rewrite E; reflexivity|].
  unfold base. rewrite H1, H2. destruct c as [a b]; reflexivity.
Qed.
Lemma any_context_fix c : set_side (fst c) = fst c -> set_side (snd c) = snd c ->
  set_side (fst (any_context c)) = fst (any_context c) /\ set_side (snd (any_context c)) = snd (any_context c).
Proof. intros H1 H2. unfold any_context. destruct (is_any (fst c) && is_any (snd c)); [split; reflexivity|split; assumption]. Qed.
Lemma any_context_copy c : built (fst c) -> built (snd c) -> copy (fst (any_context c)) = fst (any_context c) /\ copy (snd (any_context c)) = snd (any_context c).
Proof. intros H1 H2. unfold any_context. destruct (is_any (fst c) && is_any (snd c)); [split; reflexivity|split; apply built_copy; assumption]. Qed.
Lemma context_again l r : built l -> built r ->
  let c := any_context (base l r) in
  any_context (base (fst (sides (simple (copy (fst c)) (copy (snd c))))) (snd (sides (simple (copy (fst c)) (copy (snd c)))))) = c.
Proof.
  intros L R c. unfold sides, simple. cbn [r_left r_right fst snd].
  pose proof (any_context_copy (base l r) (set_side_built l L) (set_side_built r R)) as [C1 C2]. fold c in C1, C2. rewrite C1, C2.
  pose proof (any_context_fix (base l r) (set_side_twice l) (set_side_twice r)) as [F1 F2]. fold c in F1, F2. rewrite F1, F2.
  apply (any_context_twice (base l r)); apply set_side_twice.
Qed.
Lemma copy_rule_same alias al pre fol bos eos op prio cost :
  built (fst al) -> built (snd al) -> built (fst pre) -> built (snd pre) -> built (fst fol) -> built (snd fol) ->
  let r := mk_rule alias al pre fol bos eos op prio cost in copy_rule r = r.
Proof.
  intros B1 B2 B3 B4 B5 B6 r. unfold copy_rule. subst r. cbn [mk_rule constant r_alias r_left r_right r_pre r_fol from_bos to_eos r_op r_priority r_cost].
  unfold mk_rule at 1. rewrite (context_again _ _ B3 B4), (context_again _ _ B5 B6).
  unfold sides, simple. cbn [r_left r_right fst snd].
  rewrite (built_copy _ (set_side_built _ B1)), (built_copy _ (set_side_built _ B2)), !set_side_twice. reflexivity.
Qed.
Lemma rule_fields alias al pre fol bos eos op prio cost :
  let r := mk_rule alias al pre fol bos eos op prio cost in
  (forall w, lang (r_left r) w <-> lang (fst al) w) /\ (forall w, lang (r_right r) w <-> lang (snd al) w) /\
  (forall w, lang (fst (r_pre r)) w <-> lang (fst pre) w) /\ (forall w, lang (snd (r_pre r)) w <-> lang (snd pre) w) /\
  (forall w, lang (fst (r_fol r)) w <-> lang (fst fol) w) /\ (forall w, lang (snd (r_fol r)) w <-> lang (snd fol) w) /\
  (from_bos r, to_eos r, r_op r, r_priority r, r_cost r) = (bos, eos, op, prio, cost).
Proof.
  assert (C : forall l r w, (lang (fst (any_context (base l r))) w <-> lang l w) /\ (lang (snd (any_context (base l r))) w <-> lang r w)).
  { intros l r w. unfold any_context, base. cbn [fst snd]. destruct (is_any (set_side l) && is_any (set_side r)) eqn:E; cbn [fst snd].
    - apply andb_true_iff in E as [E1 E2]. rewrite set_side_any in E1, E2.
      split; (split; intros H; [inversion H|exfalso]); [exact (any_lang l w E1 H)|exact (any_lang r w E2 H)].
    - split; apply set_side_words. }
  cbn [mk_rule r_left r_right r_pre r_fol from_bos to_eos r_op r_priority r_cost].
  split; [intros w; apply set_side_words|]. split; [intros w; apply set_side_words|].
  split; [intros w; apply C|]. split; [intros w; apply C|]. split; [intros w; apply C|]. split; [intros w; apply C|reflexivity].
Qed.
Lemma deletion_words alias left pre fol bos eos op prio cost w :
  lang (r_right (deletion alias left pre fol bos eos op prio cost)) w <-> w = [].
Proof.
  cbn. split; [intros H; inversion H; subst; [reflexivity|congruence]|intros ->; apply L_atm_eps].
Qed.
Lemma insertion_words alias right pre fol bos eos op prio cost w :
  lang (r_left (insertion alias right pre fol bos eos op prio cost)) w <-> w = [].
Proof.
  cbn. split; [intros H; inversion H; subst; [reflexivity|congruence]|intros ->; apply L_atm_eps].
Qed.
Lemma interchangeable_mirror alias al pre fol bos eos op prio cost :
  let p := interchangeable alias al pre fol bos eos op prio cost in
  sides (fst p) = (set_side (fst al), set_side (snd al)) /\ sides (snd p) = (set_side (snd al), set_side (fst al)) /\
  r_pre (fst p) = r_pre (snd p) /\ r_fol (fst p) = r_fol (snd p) /\ r_alias (fst p) <> r_alias (snd p).
Proof.
  intros p. subst p. unfold interchangeable, mk_rule, sides, simple. cbn [fst snd r_left r_right r_pre r_fol r_alias].
  rewrite !set_side_twice. split; [reflexivity|]. split; [reflexivity|]. split; [reflexivity|]. split; [reflexivity|].
  intros H. apply app_inj_tail in H as [_ H]. discriminate H.
Qed.
(** A rule without context applies everywhere but next to the symbol nor *)
Lemma any_context_applies r p f :
  r_pre r = (IAny, IAny) -> r_fol r = (IAny, IAny) -> from_bos r = false -> to_eos r = false ->
  is_alg (fst p) = false -> is_alg (snd p) = false -> is_alg (fst f) = false -> is_alg (snd f) = false ->
  fst p <> ISym Nor -> snd p <> ISym Nor -> fst f <> ISym Nor -> snd f <> ISym Nor ->
  context_matches r p f = true.
Proof.
  intros H1 H2 H3 H4 A1 A2 A3 A4 N1 N2 N3 N4. rewrite context_sides, H1, H2, H3, H4. cbn [fst snd]. unfold is_suffix, is_prefix.
  rewrite !any_end by assumption.
  assert (K : forall y, is_alg y = false -> y <> ISym Nor -> truth y || negb (is_nor y) = true).
  { intros y A N. destruct y; try discriminate A; try reflexivity; cbn.
    - destruct (sy_eqb s Nor) eqn:E; [|reflexivity]. apply sy_eqb_spec in E as [-> _]. congruence.
    - apply orb_true_r.
    - apply orb_true_r. }
  rewrite !K by assumption. reflexivity.
Qed.
(** Where a rule with a left context applies, on words: the context is a suffix of what
    precedes *)
Lemma left_context r p f :
  from_bos r = false -> to_eos r = false -> snd (r_pre r) = IAny -> r_fol r = (IAny, IAny) ->
  is_alg (fst (r_pre r)) = false -> is_any (fst (r_pre r)) = false -> truth (fst (r_pre r)) = true ->
  is_alg (fst p) = false -> is_any (fst p) = false -> no_fresh (fst p) ->
  snd p = IAny -> f = (IAny, IAny) ->
  (context_matches r p f = true <->
   exists u, lang (fst (r_pre r)) u /\ (u = [] \/ (u <> [Nor] /\ exists v, lang (fst p) v /\ exists a, v = a ++ u))).
Proof.
  intros H1 H2 H3 H4 A1 A2 A3 B1 B2 B3 B4 ->. rewrite context_sides, H1, H2, H3, H4, B4. cbn [fst snd].
  change (is_suffix IAny IAny) with true. change (is_prefix IAny IAny) with true. rewrite !andb_true_r.
  exact (is_end_words true _ _ A1 B1 A2 B2 B3 A3).
Qed.
Lemma right_context r p f :
  from_bos r = false -> to_eos r = false -> snd (r_fol r) = IAny -> r_pre r = (IAny, IAny) ->
  is_alg (fst (r_fol r)) = false -> is_any (fst (r_fol r)) = false -> truth (fst (r_fol r)) = true ->
  is_alg (fst f) = false -> is_any (fst f) = false -> no_fresh (fst f) ->
  snd f = IAny -> p = (IAny, IAny) ->
  (context_matches r p f = true <->
   exists u, lang (fst (r_fol r)) u /\ (u = [] \/ (u <> [Nor] /\ exists v, lang (fst f) v /\ exists b, v = u ++ b))).
Proof.
  intros H1 H2 H3 H4 A1 A2 A3 B1 B2 B3 B4 ->. rewrite context_sides, H1, H2, H3, H4, B4. cbn [fst snd].
  change (is_suffix IAny IAny) with true. change (is_prefix IAny IAny) with true. rewrite !andb_true_r. cbn [andb].
  exact (is_end_words false _ _ A1 B1 A2 B2 B3 A3).
Qed.
