From Verif Require Import Base RuleModel RuleSpec RuleProofs RewriteProofs CanonModel.

Section CanonProofs.
  Variable decomp : list (N * str).
  Variable ccc : list (N * N).
  Notation canon := (canon decomp ccc).

  Lemma canon_ctx s t : canon s t -> forall a b, canon (a ++ s ++ b) (a ++ t ++ b).
  Proof.
    induction 1 as [s|s t _ IH|s t u _ IH1 _ IH2|p c d q H|p x y q H1 H2 H3]; intros a b.
    - apply ca_refl.
    - apply ca_sym; auto.
    - eapply ca_trans; eauto.
    - rewrite <- !app_assoc, !(app_assoc a p). apply ca_decomp; auto.
    - rewrite <- !app_assoc, !(app_assoc a p). apply ca_swap; auto.
  Qed.

  Lemma canon_app s t u v : canon s t -> canon u v -> canon (s ++ u) (t ++ v).
  Proof.
    intros H1 H2. apply ca_trans with (t ++ u).
    - apply (canon_ctx s t H1 [] u).
    - pose proof (canon_ctx u v H2 t []) as H. rewrite !app_nil_r in H. exact H.
  Qed.

  Lemma lookup_in c d : lookup decomp c = Some d -> In (c, d) decomp.
  Proof.
    induction decomp as [|[x e] l IH]; simpl; [discriminate|].
    destruct (N.eqb_spec c x) as [->|_]; auto. intros E; inversion E; auto.
  Qed.

  Lemma decompose_canon k s : canon s (decompose decomp k s).
  Proof.
    revert s; induction k as [|k IH]; intros s; [apply ca_refl|].
    simpl. eapply ca_trans; [|apply IH].
    clear IH. induction s as [|c s IH]; [apply ca_refl|]. simpl.
    apply (canon_app [c]); [|exact IH].
    destruct (lookup decomp c) as [d|] eqn:E; [|apply ca_refl].
    pose proof (ca_decomp decomp ccc [] c d [] (lookup_in c d E)) as H.
    simpl in H. rewrite app_nil_r in H. exact H.
  Qed.

  Lemma insert_canon c s : canon (c :: s) (insert_mark ccc c s).
  Proof.
    induction s as [|d s IH]; [apply ca_refl|]. simpl.
    destruct (_ && _ && _)%bool eqn:E; [|apply ca_refl].
    apply andb_true_iff in E as [E E3]. apply andb_true_iff in E as [E1 E2].
    apply negb_true_iff, N.eqb_neq in E1. apply negb_true_iff, N.eqb_neq in E2.
    apply N.ltb_lt in E3.
    apply ca_trans with (d :: c :: s).
    - apply (ca_swap decomp ccc [] c d s); auto. lia.
    - apply (canon_app [d] [d]); [apply ca_refl|exact IH].
  Qed.

  Lemma sort_canon s : canon s (sort_marks ccc s).
  Proof.
    induction s as [|c s IH]; [apply ca_refl|]. simpl.
    eapply ca_trans; [|apply insert_canon]. apply (canon_app [c] [c]); [apply ca_refl|exact IH].
  Qed.

  Lemma nfd_canon s : canon s (nfd decomp ccc s).
  Proof. eapply ca_trans; [apply decompose_canon|apply sort_canon]. Qed.

  Lemma nfd_eq_canon s t : nfd decomp ccc s = nfd decomp ccc t -> canon s t.
  Proof.
    intros E. eapply ca_trans; [apply nfd_canon|]. rewrite E. apply ca_sym, nfd_canon.
  Qed.

  Definition canon_rules (rs : list rule) : bool :=
    forallb (fun r => str_eqb (nfd decomp ccc (lhs r)) (nfd decomp ccc (rhs r))) rs.

  Lemma passes_canon ls s t :
    (forall l r, In l ls -> In r l -> canon (lhs r) (rhs r)) ->
    passes ls s t -> canon s t.
  Proof.
    revert s; induction ls as [|l ls IH]; intros s H Hp; simpl in *.
    - subst; apply ca_refl.
    - destruct Hp as (gs & Hgs & Hp). apply ca_trans with (outs gs).
      + assert (Hl : forall r, In r l -> canon (lhs r) (rhs r)) by (intros r; apply H; auto).
        clear - Hgs Hl. induction Hgs as [|c s gs _ _ IH|r s gs Hr _ IH].
        * apply ca_refl.
        * apply (canon_app [c] [c]); [apply ca_refl|exact IH].
        * apply (canon_app (lhs r) (rhs r)); [auto|exact IH].
      + apply IH; auto. intros l' r Hl' Hr. apply (H l' r); auto.
  Qed.

  Lemma rules_canon ns rs sigma f :
    canon_rules rs = true -> nonempty_lhs rs ->
    (forall r, In r rs -> over sigma (rhs r) = true) ->
    fst_from_rules ns rs sigma = Some f ->
    forall s t, In t (f s) -> canon s t.
  Proof.
    intros Hc Hne Hov Hf s t Ht.
    pose proof (fst_from_rules_spec ns rs sigma Hne Hov) as HS.
    destruct (partition_unordered rs) as [ls| |] eqn:EP; try congruence.
    destruct HS as (f' & Hf' & Hin & Hout). rewrite Hf in Hf'. inversion Hf'; subst f'.
    destruct (over sigma s) eqn:Hs; [|rewrite (Hout s Hs) in Ht; contradiction].
    destruct (Hin s Hs) as (t' & E & _ & Hp & _). rewrite E in Ht. destruct Ht as [->|[]].
    apply (passes_canon ls); auto. intros l r Hl Hr.
    apply nfd_eq_canon. apply str_eqb_eq.
    unfold canon_rules in Hc. rewrite forallb_forall in Hc. apply Hc.
    pose proof (partition_sound rs ls EP) as (_ & Hiff & _). apply Hiff, in_concat. eauto.
  Qed.
End CanonProofs.
