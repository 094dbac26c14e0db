From Verif Require Import Base ExpressionModel ExpressionSpec ExpressionProofs ExpressionBuild ExpressionOr ExpressionLaws ExpressionContain.

Lemma built_letter n : built (atm n).
Proof. apply B_atm. discriminate. Qed.
Ltac build := repeat (first [exact (built_letter _) | apply built_mk_cat | apply built_mk_or | apply B_alg | apply Forall_cons | apply Forall_nil
  | (apply B_atm; discriminate) | (apply B_sym; discriminate) | apply B_any | apply B_exp | apply B_cat | apply B_or]).
Lemma recurring : exists l, Forall built l /\ ~ NoDup (symbols (mk_or l)).
Proof.
  exists [mk_cat [atm 0; mk_or [atm 1; atm 2]]; mk_cat [atm 0; mk_or [atm 2; atm 3]]]. split; [build|].
  vm_compute. intros H. inversion H as [|? ? _ H1]; subst. inversion H1 as [|? ? N _]; subst. apply N. left; reflexivity.
Qed.
Lemma precedence : exists x y, built x /\ built y /\ symbols (mk_or [x; mk_or [y; x]]) = symbols y ++ symbols x /\ symbols x <> symbols y.
Proof. exists (atm 1), (atm 0). split; [build|]. split; [build|]. split; [reflexivity|discriminate]. Qed.
Lemma control_dropped : exists x, built x /\ ~ lang x [] /\ lang (mk_cat [x]) [] /\ (exists w, lang x w /\ ~ lang (mk_or [x]) w).
Proof.
  exists (IAtm Nor). split; [build|]. split; [intros H; inversion H|]. split; [apply L_cat_nil|].
  exists [Nor]. split; [apply L_atm; discriminate|]. intros H. apply lang_or_inv in H as (y & [] & _).
Qed.
Lemma eps_dropped : exists x y w, built x /\ built y /\ is_equivalent x y = true /\ lang (mk_or [x]) w /\ ~ lang (mk_or [y]) w.
Proof.
  exists (mk_cat []), (IAtm Eps), []. split; [build|]. split; [build|]. split; [reflexivity|]. split.
  - apply (L_or (mk_cat [])); [left; reflexivity|apply L_cat_nil].
  - intros H. apply lang_or_inv in H as (y & [] & _).
Qed.
Lemma alignments_dropped : exists x y, built x /\ built y /\ is_alg x = true /\ is_alg y = true /\ mk_or [x; y] = mk_or [].
Proof. exists (IAlg (atm 0) (atm 1)), (IAlg (atm 2) (atm 3)). split; [exact (B_alg (atm 0) (atm 1) (built_letter 0) (built_letter 1))|]. split; [exact (B_alg (atm 2) (atm 3) (built_letter 2) (built_letter 3))|]. split; [reflexivity|]. split; reflexivity. Qed.
Lemma any_in_cat : exists x, built x /\ is_any (plus x IAny) = false /\ symbols (plus x IAny) = [] /\ contains (plus x IAny) x true false = false.
Proof. exists (atm 0). split; [build|]. split; [reflexivity|]. split; reflexivity. Qed.

(** Equivalence *)
Definition twice_optional : item := plus (ques (atm 0) false) (ques (atm 0) false).
Definition four_words : item := mk_or [mk_cat []; atm 0; mk_cat [atm 0; atm 0]; atm 1].
Definition three_words : item := mk_or [mk_cat []; atm 0; mk_cat [atm 0; atm 0]].
Lemma equivalent_different : exists x y w, built x /\ built y /\ is_equivalent x y = true /\ is_equivalent y x = false /\ lang x w /\ ~ lang y w.
Proof.
  exists four_words, twice_optional, [Let 1]. split; [unfold four_words; build|]. split; [unfold twice_optional, plus, ques; build|].
  split; [vm_compute; reflexivity|]. split; [vm_compute; reflexivity|]. split.
  - apply lang_symbols. exists [Let 1]. split; [vm_compute; tauto|]. split; [intros [H|[]]; discriminate H|reflexivity].
  - intros H. apply lang_symbols in H as (l & Hl & _ & W). vm_compute in Hl.
    destruct Hl as [<-|[<-|[<-|[<-|[]]]]]; discriminate W.
Qed.
Lemma same_words_not_equivalent : exists x y, built x /\ built y /\ (forall w, lang x w <-> lang y w) /\ is_equivalent x y = false /\ accepts y x false = false.
Proof.
  exists twice_optional, three_words. split; [unfold twice_optional, plus, ques; build|]. split; [unfold three_words; build|].
  split; [|split; vm_compute; reflexivity]. intros w. rewrite !lang_symbols.
  assert (S1 : symbols twice_optional = [[Eps]; [Let 0]; [Let 0]; [Let 0; Let 0]]) by (vm_compute; reflexivity).
  assert (S2 : symbols three_words = [[Eps]; [Let 0]; [Let 0; Let 0]]) by (vm_compute; reflexivity).
  unfold spells. rewrite S1, S2. split; intros (l & Hl & R); exists l; (split; [|exact R]); cbn [In] in *; tauto.
Qed.
Lemma ghost : exists x y, built x /\ built y /\ (forall w, ~ lang x w) /\ contains x y true false = true.
Proof.
  exists (plus (atm 0) (mk_or [])), (atm 0). split; [unfold plus; build|]. split; [build|]. split; [|reflexivity].
  intros w H. apply lang_symbols in H as (l & Hl & F & _). vm_compute in Hl. destruct Hl as [<-|[]]. apply F. right; left; reflexivity.
Qed.
Lemma symbol_prefix : exists x y, built x /\ built y /\ symbols x = symbols y /\ is_prefix x y = true /\ is_prefix y x = false.
Proof. exists (atm 0), (ISym (Let 0)). split; [build|]. split; [build|]. split; [reflexivity|]. split; reflexivity. Qed.
Lemma eps_prefix : exists x y z, built x /\ built y /\ built z /\ is_equivalent x y = true /\ is_prefix x z = true /\ is_prefix y z = false.
Proof. exists (IAtm Eps), (mk_cat []), (atm 0). split; [build|]. split; [build|]. split; [build|]. split; [reflexivity|]. split; reflexivity. Qed.
Lemma empty_or_any : matches IAny (mk_or []) = true /\ is_suffix (mk_or []) IAny = true /\ matches IAny (IAtm Nor) = false.
Proof. split; [reflexivity|]. split; reflexivity. Qed.
Lemma nor_any : head_matches (IAtm Nor) IAny = true /\ contains (IAtm Nor) IAny true false = false /\ head_matches (ISym Nor) IAny = false.
Proof. split; [reflexivity|]. split; reflexivity. Qed.
Lemma matches_one_way : exists x y, built x /\ built y /\ matches x y = true /\ matches y x = false.
Proof. exists (atm 0), (mk_cat []). split; [build|]. split; [build|]. split; reflexivity. Qed.
