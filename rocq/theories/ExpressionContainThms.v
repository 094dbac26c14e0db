(** Containment and matching of expressions. *)
From Verif Require Import Base ExpressionModel ExpressionSpec ExpressionProofs ExpressionBuild ExpressionOr ExpressionLaws ExpressionContain ExpressionFindings ExpressionAnySpec ExpressionAny.

(** ** C21 *)
(** The search loops find prefixes, suffixes, equal lists and sublists. *)
Theorem C21_list : forall x s head tail, is_any x = false -> s <> [Eps] -> s <> [Nor] ->
  (contains_symbol_list x s head tail = true <-> s <> [] /\ ~ In Fresh s /\ exists l, In l (symbols x) /\ occurs head tail s l).
Proof. exact contains_list_spec. Qed.
Print Assumptions C21_list.
Theorem C21_eps : forall x head tail, contains_symbol_list x [Eps] head tail = true.
Proof. exact contains_list_eps. Qed.
Print Assumptions C21_eps.
Theorem C21_nor : forall x head tail, contains_symbol_list x [Nor] head tail = false.
Proof. exact contains_list_nor. Qed.
Print Assumptions C21_nor.
(** Some word of the argument is empty or occurs in a word of the expression. *)
Theorem C21_contains : forall x y h t, is_alg x = false -> is_any x = false -> is_any y = false -> no_fresh x ->
  (contains x y h t = true <-> exists u, lang y u /\ (u = [] \/ (u <> [Nor] /\ exists v, lang x v /\ occurs h t u v))).
Proof. exact contains_words. Qed.
Print Assumptions C21_contains.
Theorem C21_contains_lists : forall x y h t, is_alg x = false -> is_any x = false -> is_any y = false ->
  (contains x y h t = true <->
   exists u, In u (symbols y) /\ (u = [Eps] \/ (u <> [Nor] /\ ~ In Fresh u /\ exists l, In l (symbols x) /\ occurs h t u l))).
Proof. exact contains_spec. Qed.
Print Assumptions C21_contains_lists.
Theorem C21_any : forall x y h t, is_alg x = false -> is_any x = true \/ is_any y = true -> contains x y h t = negb (is_nor x) && negb (is_nor y).
Proof. exact contains_any. Qed.
Print Assumptions C21_any.
(** What stands for anything and for nothing; an alignment only if both sides do *)
Theorem C21_anything : forall x, is_any x = true <-> anything x.
Proof. exact any_iff. Qed.
Print Assumptions C21_anything.
Theorem C21_nothing : forall x, is_nor x = true <-> nothing x.
Proof. exact nor_iff. Qed.
Print Assumptions C21_nothing.
Example C21_anything_example : is_any (IAlg (ICat [IAny]) IAny) = true /\ is_any (IAlg (ISym (Let 1)) IAny) = false /\ is_nor (IAlg (IAtm Nor) (ISym Nor)) = true /\ is_nor (IAlg (IAtm Nor) IAny) = false.
Proof. repeat split. Qed.
(** Without duplicates, accepting is inclusion and equivalence is equality of the sets of words. *)
Theorem C21_accepts : forall x y, is_alg x = false -> is_any x = false -> is_any y = false -> no_fresh x -> no_fresh y -> symbols x <> [] -> NoDup (symbols y) ->
  (accepts x y false = true <-> forall w, lang y w -> lang x w).
Proof. exact accepts_sets. Qed.
Print Assumptions C21_accepts.
Theorem C21_equivalent : forall x y, is_alg x = false -> is_any x = false -> is_any y = false -> no_fresh x -> no_fresh y -> symbols x <> [] ->
  NoDup (symbols x) -> NoDup (symbols y) -> (is_equivalent x y = true <-> forall w, lang x w <-> lang y w).
Proof. exact equivalent_sets. Qed.
Print Assumptions C21_equivalent.
Theorem C21_accepts_sound : forall x y w, is_alg x = false -> is_any x = false -> is_any y = false -> accepts x y false = true -> lang y w -> lang x w.
Proof. exact accepts_lang. Qed.
Print Assumptions C21_accepts_sound.
Theorem C21_accepts_refl : forall x e, is_alg x = false -> is_any x = false -> symbols x <> [] -> no_fresh x -> accepts x x e = true.
Proof. exact accepts_refl. Qed.
Print Assumptions C21_accepts_refl.
Theorem C21_accepts_trans : forall x y z, is_alg x = false -> is_alg y = false -> is_any x = false -> is_any y = false -> is_any z = false ->
  accepts x y false = true -> accepts y z false = true -> accepts x z false = true.
Proof. exact accepts_trans. Qed.
Print Assumptions C21_accepts_trans.
Theorem C21_accepts_any : forall x y e, is_alg x = false -> is_any x = true \/ is_any y = true -> accepts x y e = negb e || (is_any x && is_any y).
Proof. exact accepts_any. Qed.
Print Assumptions C21_accepts_any.
(** Prefixes and suffixes of expressions with items. *)
Theorem C21_ends : forall tail x y, is_alg x = false -> is_alg y = false -> is_any x = false -> is_any y = false -> no_fresh y -> truth x = true ->
  (is_end tail x y = true <->
   exists u, lang x u /\ (u = [] \/ (u <> [Nor] /\ exists v, lang y v /\ if tail then exists a, v = a ++ u else exists b, v = u ++ b))).
Proof. exact is_end_words. Qed.
Print Assumptions C21_ends.
(** An expression without items is at the end of no expression with items. *)
Theorem C21_ends_empty : forall tail x y, is_alg x = false -> truth x = true -> truth y = false -> end_matches tail x y = is_any y.
Proof. exact end_matches_empty. Qed.
Print Assumptions C21_ends_empty.
(** With duplicates, equivalence does not go both ways and does not mean the same words, *)
Theorem C21_equivalent_refuted : exists x y w, built x /\ built y /\ is_equivalent x y = true /\ is_equivalent y x = false /\ lang x w /\ ~ lang y w.
Proof. exact equivalent_different. Qed.
Print Assumptions C21_equivalent_refuted.
(** and the same words do not mean equivalence. *)
Theorem C21_same_words_refuted : exists x y, built x /\ built y /\ (forall w, lang x w <-> lang y w) /\ is_equivalent x y = false /\ accepts y x false = false.
Proof. exact same_words_not_equivalent. Qed.
Print Assumptions C21_same_words_refuted.
(** An expression without words contains something. *)
Theorem C21_ghost_refuted : exists x y, built x /\ built y /\ (forall w, ~ lang x w) /\ contains x y true false = true.
Proof. exact ghost. Qed.
Print Assumptions C21_ghost_refuted.
(** A symbol is no prefix of its own atomic expression, as its length is 0. *)
Theorem C21_symbol_prefix_refuted : exists x y, built x /\ built y /\ symbols x = symbols y /\ is_prefix x y = true /\ is_prefix y x = false.
Proof. exact symbol_prefix. Qed.
Print Assumptions C21_symbol_prefix_refuted.
(** "Require at least one symbol match": eps is a prefix, the equivalent empty concatenation is not. *)
Theorem C21_eps_prefix_refuted : exists x y z, built x /\ built y /\ built z /\ is_equivalent x y = true /\ is_prefix x z = true /\ is_prefix y z = false.
Proof. exact eps_prefix. Qed.
Print Assumptions C21_eps_prefix_refuted.
(** "The rule should never apply": an empty alternation matches ANY. *)
Theorem C21_empty_or_refuted : matches IAny (mk_or []) = true /\ is_suffix (mk_or []) IAny = true /\ matches IAny (IAtm Nor) = false.
Proof. exact empty_or_any. Qed.
Print Assumptions C21_empty_or_refuted.
Theorem C21_nor_refuted : head_matches (IAtm Nor) IAny = true /\ contains (IAtm Nor) IAny true false = false /\ head_matches (ISym Nor) IAny = false.
Proof. exact nor_any. Qed.
Print Assumptions C21_nor_refuted.
Theorem C21_matches_refuted : exists x y, built x /\ built y /\ matches x y = true /\ matches y x = false.
Proof. exact matches_one_way. Qed.
Print Assumptions C21_matches_refuted.

(** The example of the documentation: a b c d | e f g | h *)
Example C21_example :
  let x := mk_or [mk_cat [atm 0; atm 1; atm 2; atm 3]; mk_cat [atm 4; atm 5; atm 6]; atm 7] in
  let find l h t := contains_symbol_list x (map Let l) h t in
  find [1; 2] false false = true /\ find [0; 2] false false = false /\ find [2; 1] false false = false /\
  find [0; 1] true false = true /\ find [1; 2; 3] true false = false /\ find [7] true false = true /\
  find [2; 3] false true = true /\ find [0; 1; 2] false true = false /\
  find [4; 5; 6] true true = true /\ find [4; 5] true true = false.
Proof. repeat split; vm_compute; reflexivity. Qed.
Example C21_example_equivalent :
  is_equivalent (mk_cat [atm 0; atm 1; mk_or [atm 2; atm 3]]) (mk_or [mk_cat [atm 0; atm 1; atm 2]; mk_cat [atm 0; atm 1; atm 3]]) = true /\
  is_equivalent (mk_or []) (mk_or []) = false /\ is_equivalent (mk_cat []) (IAtm Eps) = true /\ is_equivalent (mk_cat [atm 0]) (ISym (Let 0)) = true.
Proof. repeat split; vm_compute; reflexivity. Qed.
