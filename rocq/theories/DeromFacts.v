(** Words of the deromanizers. *)
From Coq Require Import String.
From Verif Require Import Base RuleModel RuleSpec NatModel NatSpec DeromModel DeromSpec DeromText DeromTamil DeromHindi.
Local Open Scope list_scope.

Lemma one_each w : Forall (fun c => 97 <= c <= 122)%N w -> (exists t, only t (HI_DEVA w)) /\ (exists t, only t (HI_ISO w)) /\ (exists t, only t (TA_TAML w)) /\ exists t, only t (TA_ISO w).
Proof.
  intros L. destruct (hi_texts w L) as (_ & b & i & _ & _ & _ & Hb & Hi). destruct (ta_texts w L) as (_ & b' & i' & _ & _ & _ & Hb' & Hi').
  repeat split; [exists (bytes b)|exists (bytes i)|exists (bytes b')|exists (bytes i')]; assumption.
Qed.
Lemma none_else w : ~ Forall (fun c => 97 <= c <= 122)%N w -> HI_DEVA w = [] /\ HI_ISO w = [] /\ TA_TAML w = [] /\ TA_ISO w = [].
Proof. intros N. destruct (hi_none w N), (ta_none w N). repeat split; assumption. Qed.
Lemma single_tr : exists w y, ~ is_infix (bytes "trtr") w /\ ~ is_infix (bytes "ttr") w /\ In y (TA_ISO w) /\ is_infix (bytes "ṟ") y.
Proof.
  exists (bytes "tra"), (bytes "ṟa"). split; [|split; [|split]].
  - intros (a & b & E). apply (f_equal (@length N)) in E. rewrite !app_length in E. cbn in E. lia.
  - intros (a & b & E). assert (a = [] /\ b = []) as [-> ->] by (apply (f_equal (@length N)) in E; rewrite !app_length in E; cbn in E; destruct a, b; cbn in E; try lia; split; reflexivity). cbn in E. discriminate E.
  - vm_compute. left. reflexivity.
  - exists [], (bytes "a"). reflexivity.
Qed.
