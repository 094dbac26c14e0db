From Verif Require Import Base ExpressionModel ExpressionAnySpec.

Lemma is_any_anything : forall x : item, is_any x = true -> anything x.
Proof.
  fix is_any_anything 1. intros x. destruct x as [s|s| | |[|y [|z l]]|[|y [|z l]]|l r]; cbn [is_any]; intros H; try discriminate H.
  - constructor.
  - constructor. apply is_any_anything. exact H.
  - constructor. apply is_any_anything. exact H.
  - apply andb_true_iff in H as [A B]. constructor; apply is_any_anything; assumption.
Qed.
Lemma any_iff x : is_any x = true <-> anything x.
Proof.
  split; [apply is_any_anything|]. intros H. induction H; cbn [is_any]; try assumption; try reflexivity. rewrite IHanything1, IHanything2. reflexivity.
Qed.
Lemma sy_nor s : sy_eqb s Nor = true -> s = Nor.
Proof. destruct s; cbn; congruence. Qed.
Fixpoint is_nor_nothing (x : item) : is_nor x = true -> nothing x.
Proof.
  destruct x as [s|s| | |l|l|l r]; cbn [is_nor]; intros H; try discriminate H.
  - rewrite (sy_nor _ H). constructor.
  - rewrite (sy_nor _ H). constructor.
  - apply andb_true_iff in H as [A B]. constructor; apply is_nor_nothing; assumption.
Qed.
Lemma nor_iff x : is_nor x = true <-> nothing x.
Proof.
  split; [apply is_nor_nothing|]. intros H. induction H; cbn [is_nor]; try reflexivity. rewrite IHnothing1, IHnothing2. reflexivity.
Qed.
