(** Expressions and their words. *)
From Verif Require Import Base ExpressionModel ExpressionSpec ExpressionProofs ExpressionBuild ExpressionOr ExpressionLaws ExpressionContain ExpressionFindings.

(** ** C20 *)
(** The symbol lists of an expression are its words; lists with the symbol of an empty alternation are none. *)
Theorem C20_symbols : forall x w, lang x w <-> exists l, In l (symbols x) /\ ~ In Fresh l /\ word_of l = w.
Proof. exact symbols_words. Qed.
Print Assumptions C20_symbols.
(** Eps stands alone. *)
Theorem C20_shape : forall x l, In l (symbols x) -> l = [Eps] \/ (l <> [] /\ ~ In Eps l).
Proof. exact symbols_shape. Qed.
Print Assumptions C20_shape.
(** The words of a concatenation are the concatenations of words of the parts, controls being skipped. *)
Theorem C20_cat : forall l w, Forall built l -> (lang (mk_cat l) w <-> words_of in_cat l w).
Proof. exact mk_cat_words. Qed.
Print Assumptions C20_cat.
Theorem C20_cat_add : forall acc l w, built (ICat acc) -> Forall built l ->
  (lang (ICat (cat_list l acc)) w <-> exists u v, w = u ++ v /\ lang (ICat acc) u /\ words_of in_cat l v).
Proof. exact cat_add_words. Qed.
Print Assumptions C20_cat_add.
(** The words of an alternation are those of its parts, although parts are dropped and replaced. *)
Theorem C20_or : forall l w, Forall built l -> Forall (fun x => is_any x = false) l -> (lang (mk_or l) w <-> exists x, In x l /\ in_or x w).
Proof. exact mk_or_words. Qed.
Print Assumptions C20_or.
Theorem C20_or_add : forall acc l w, built (IOr acc) -> is_any (IOr acc) = false -> Forall built l -> Forall (fun x => is_any x = false) l ->
  (lang (IOr (or_list l acc)) w <-> lang (IOr acc) w \/ exists x, In x l /\ in_or x w).
Proof. exact or_add_words. Qed.
Print Assumptions C20_or_add.
Theorem C20_flatten : forall a b c w, Forall built a -> Forall built b -> Forall built c -> (lang (mk_cat (a ++ mk_cat b :: c)) w <-> lang (mk_cat (a ++ b ++ c)) w).
Proof. exact flatten_words. Qed.
Print Assumptions C20_flatten.
(** Nested concatenations are the same expression as the flat one. *)
Theorem C20_flatten_same : forall a b c, Forall built b -> is_any (mk_cat b) = false -> mk_cat (a ++ mk_cat b :: c) = mk_cat (a ++ b ++ c).
Proof. exact flatten_same. Qed.
Print Assumptions C20_flatten_same.
Theorem C20_unit_left : forall x w, built x -> (lang (plus (mk_cat []) x) w <-> in_cat x w).
Proof. exact unit_left. Qed.
Print Assumptions C20_unit_left.
Theorem C20_unit_right : forall x w, built x -> (lang (plus x (mk_cat [])) w <-> in_cat x w).
Proof. exact unit_right. Qed.
Print Assumptions C20_unit_right.
Theorem C20_repeat : forall x n w, built x -> (lang (repeated x n) w <-> power (in_cat x) n w).
Proof. exact repeated_words. Qed.
Print Assumptions C20_repeat.
Theorem C20_ques : forall x p w, built x -> is_any x = false -> (lang (ques x p) w <-> w = [] \/ in_or x w).
Proof. exact ques_words. Qed.
Print Assumptions C20_ques.
Theorem C20_or_any : forall l, Forall built l -> Exists (fun x => is_any x = true) l -> is_any (mk_or l) = true.
Proof. exact or_any. Qed.
Print Assumptions C20_or_any.
Theorem C20_or_any_stays : forall acc l, built (IOr acc) -> Forall built l -> is_any (IOr acc) = true -> is_any (IOr (or_list l acc)) = true.
Proof. exact or_any_stays. Qed.
Print Assumptions C20_or_any_stays.
(** A copy is the same tree. *)
Theorem C20_copy : forall x, built x -> copy x = x.
Proof. exact built_copy. Qed.
Print Assumptions C20_copy.
(** The model of Or.add satisfies the equation of the code, in which an update empties the alternation and adds the
    item again. *)
Theorem C20_or_step : forall x acc, is_any x = false ->
  or_step x acc =
  if accepts (IOr acc) x false then
    if accepts x (IOr acc) false && Nat.ltb (state_count x) (state_count (IOr acc)) then or_list [x] [] else acc
  else if accepts x (IOr acc) false then or_list [x] []
  else add_item_code x acc.
Proof. exact or_step_code. Qed.
Print Assumptions C20_or_step.
(** "Or shouldn't have recurring symbol lists." *)
Theorem C20_recurring_refuted : exists l, Forall built l /\ ~ NoDup (symbols (mk_or l)).
Proof. exact recurring. Qed.
Print Assumptions C20_recurring_refuted.
(** "The order of the items in an Or expression reflects the precedence": the first alternative comes last. *)
Theorem C20_precedence_refuted : exists x y, built x /\ built y /\ symbols (mk_or [x; mk_or [y; x]]) = symbols y ++ symbols x /\ symbols x <> symbols y.
Proof. exact precedence. Qed.
Print Assumptions C20_precedence_refuted.
(** Controls are skipped, so that a concatenation with nor accepts the empty word. *)
Theorem C20_control_refuted : exists x, built x /\ ~ lang x [] /\ lang (mk_cat [x]) [] /\ (exists w, lang x w /\ ~ lang (mk_or [x]) w).
Proof. exact control_dropped. Qed.
Print Assumptions C20_control_refuted.
(** Equivalent parts give alternations with different words. *)
Theorem C20_equivalent_refuted : exists x y w, built x /\ built y /\ is_equivalent x y = true /\ lang (mk_or [x]) w /\ ~ lang (mk_or [y]) w.
Proof. exact eps_dropped. Qed.
Print Assumptions C20_equivalent_refuted.
(** An alternation of alignments is empty. *)
Theorem C20_alignments_refuted : exists x y, built x /\ built y /\ is_alg x = true /\ is_alg y = true /\ mk_or [x; y] = mk_or [].
Proof. exact alignments_dropped. Qed.
Print Assumptions C20_alignments_refuted.
(** A concatenation with ANY has no words. *)
Theorem C20_any_refuted : exists x, built x /\ is_any (plus x IAny) = false /\ symbols (plus x IAny) = [] /\ contains (plus x IAny) x true false = false.
Proof. exact any_in_cat. Qed.
Print Assumptions C20_any_refuted.

(** a (b | c)? and (a | b c | a) *)
Example C20_example :
  symbols (plus (atm 0) (ques (mk_or [atm 1; atm 2]) false)) = [[Let 0]; [Let 0; Let 1]; [Let 0; Let 2]] /\
  mk_or [atm 0; mk_cat [atm 1; atm 2]; atm 0] = IOr [atm 0; ICat [atm 1; atm 2]] /\
  mk_or [mk_cat [atm 0; mk_or [atm 1; atm 2]]; mk_cat [atm 0; mk_or [atm 1; atm 2; atm 3]]] = IOr [ICat [atm 0; IOr [atm 1; atm 2; atm 3]]] /\
  symbols (repeated (mk_cat [atm 0; atm 1]) 2) = [[Let 0; Let 1; Let 0; Let 1]].
Proof. repeat split; vm_compute; reflexivity. Qed.
Example C20_example_merge :
  state_count (mk_or [mk_cat [atm 0; atm 1; atm 2]; mk_cat [atm 0; atm 1; atm 3]]) = 6 /\
  state_count (mk_or [mk_cat [atm 0; atm 1; atm 2]; mk_cat [atm 0; atm 1; atm 3]; mk_cat [atm 0; atm 1; mk_or [atm 2; atm 3]]]) = 4.
Proof. split; vm_compute; reflexivity. Qed.
