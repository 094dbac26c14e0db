(** A decision procedure, proved sound, for "no left-hand side survives in the
    output of a layered rewriter", hence for idempotence.  Proof tooling only:
    nothing here models code. *)
From Verif Require Import Base RuleModel RuleSpec RuleProofs RewriteProofs IdemProofs.

(** The ways in which [g] can be the start of the output of a cut (the last
    span may stick out). [skip] characters of [g] are already covered. *)
Fixpoint tails (rs : list rule) (skip : nat) (g : str) : list (list seg) :=
  match g with
  | [] => [[]]
  | c :: g' =>
    match skip with
    | S k => tails rs k g'
    | O =>
      map (cons (Copy c)) (tails rs 0 g') ++
      flat_map (fun r =>
        if prefixb (rhs r) g then map (cons (Sub r)) (tails rs (length (rhs r) - 1) g')
        else if prefixb g (rhs r) then [[Sub r]] else []) rs
    end
  end.


(** The ways in which [g] can lie inside the output of a cut: the first span
    may stick out to the left. *)
Definition covers (rs : list rule) (g : str) : list (list seg) :=
  tails rs 0 g ++
  flat_map (fun r =>
    flat_map (fun q =>
      if prefixb q g then map (cons (Sub r)) (tails rs 0 (skipn (length q) g))
      else if prefixb g q then [[Sub r]] else []) (suffixes (rhs r))) rs.

(** A cut that cannot occur: its input contains a string of [F], or a
    character is copied where a left-hand side matches. *)
Fixpoint copies_match (rs : list rule) (w : list seg) : bool :=
  match w with
  | [] => false
  | Copy c :: w' => existsb (fun r => prefixb (lhs r) (ins w)) rs || copies_match rs w'
  | Sub _ :: w' => copies_match rs w'
  end.
Definition impossible (F : list str) (rs : list rule) (w : list seg) : bool :=
  existsb (fun f => infixb f (ins w)) F || copies_match rs w.

Definition clean_after (F : list str) (rs : list rule) (g : str) : bool :=
  negb (str_eqb g []) && forallb (impossible F rs) (covers rs g).

(** Strings known to be absent after each pass. *)
Fixpoint absent (F : list str) (layers : list (list rule)) : list str :=
  match layers with
  | [] => F
  | rs :: layers' => absent (filter (clean_after F rs) (F ++ map lhs rs)) layers'
  end.

Definition stable (layers : list (list rule)) : bool :=
  forallb (forallb (fun r => negb (str_eqb (rhs r) []))) layers &&
  let F := absent [] layers in
  forallb (forallb (fun r => existsb (str_eqb (lhs r)) F)) layers.

(** ** Soundness *)

Lemma tails_skip rs k g : tails rs k g = tails rs 0 (skipn k g).
Proof.
  revert k; induction g as [|c g IH]; intros k; [destruct k; reflexivity|].
  destruct k as [|k]; [reflexivity|]. simpl skipn. rewrite <- IH. reflexivity.
Qed.

Lemma tails_cons rs c g :
  tails rs 0 (c :: g) =
  map (cons (Copy c)) (tails rs 0 g) ++
  flat_map (fun r =>
    if prefixb (rhs r) (c :: g)
    then map (cons (Sub r)) (tails rs 0 (skipn (length (rhs r) - 1) g))
    else if prefixb (c :: g) (rhs r) then [[Sub r]] else []) rs.
Proof.
  cbn [tails]. f_equal. apply flat_map_ext. intros r. rewrite tails_skip. reflexivity.
Qed.

(** If [gs] outputs [g ++ y] then a prefix of [gs] is listed. *)
Lemma tails_complete rs : (forall r, In r rs -> rhs r <> []) ->
  forall gs g y, (forall r, In (Sub r) gs -> In r rs) -> outs gs = g ++ y ->
  exists w g2, gs = w ++ g2 /\ In w (tails rs 0 g).
Proof.
  intros Hne gs; induction gs as [|s gs IH]; intros g y Hin E.
  - symmetry in E. apply app_eq_nil in E as [-> ->]. exists [], []. simpl. auto.
  - destruct g as [|c g].
    { exists [], (s :: gs). simpl. auto. }
    assert (Hin' : forall r, In (Sub r) gs -> In r rs) by (intros r Hr; apply Hin; right; auto).
    destruct s as [d|r].
    + simpl in E. inversion E; subst.
      destruct (IH g y Hin' H1) as (w & g2 & -> & Hw).
      exists (Copy c :: w), g2. split; auto. rewrite tails_cons.
      apply in_or_app; left. apply in_map; exact Hw.
    + assert (Hr : In r rs) by (apply Hin; left; auto). pose proof (Hne r Hr) as Hrne.
      change (outs (Sub r :: gs)) with (rhs r ++ outs gs) in E.
      destruct (prefix_comparable (rhs r) (c :: g) (rhs r ++ outs gs)) as [H|H].
      * exists (outs gs); auto.
      * exists y; auto.
      * destruct H as [g' Hg']. rewrite Hg' in E. rewrite <- app_assoc in E.
        apply app_inv_head in E.
        destruct (IH g' y Hin' E) as (w & g2 & -> & Hw).
        exists (Sub r :: w), g2. split; auto. rewrite tails_cons.
        apply in_or_app; right. apply in_flat_map. exists r. split; auto.
        assert (Hp : prefixb (rhs r) (c :: g) = true) by (apply prefixb_spec; exists g'; auto).
        rewrite Hp. apply in_map.
        destruct (rhs r) as [|d l]; [congruence|]. inversion Hg'; subst.
        simpl. rewrite Nat.sub_0_r, skipn_app, skipn_all, Nat.sub_diag. exact Hw.
      * destruct (prefixb (rhs r) (c :: g)) eqn:Hp.
        -- (* equal *)
           apply prefixb_spec in Hp. destruct Hp as [u Hu]. destruct H as [v Hv].
           assert (u = []).
           { pose proof (f_equal (@length N) Hu) as L1. pose proof (f_equal (@length N) Hv) as L2.
             rewrite app_length in L1, L2. destruct u; auto. simpl in *. lia. }
           subst u. rewrite app_nil_r in Hu.
           exists [Sub r], gs. split; auto. rewrite tails_cons.
           apply in_or_app; right. apply in_flat_map. exists r. split; auto.
           assert (Hp : prefixb (rhs r) (c :: g) = true)
             by (apply prefixb_spec; exists []; rewrite app_nil_r; auto).
           rewrite Hp. apply in_map.
           rewrite <- Hu. simpl. rewrite Nat.sub_0_r, skipn_all. simpl. auto.
        -- exists [Sub r], gs. split; auto. rewrite tails_cons.
           apply in_or_app; right. apply in_flat_map. exists r. split; auto.
           rewrite Hp. assert (Hq : prefixb (c :: g) (rhs r) = true) by (apply prefixb_spec; auto).
           rewrite Hq. left; auto.
Qed.

Lemma covers_complete rs : (forall r, In r rs -> rhs r <> []) ->
  forall gs x g y, g <> [] -> (forall r, In (Sub r) gs -> In r rs) -> outs gs = x ++ g ++ y ->
  exists g1 w g2, gs = g1 ++ w ++ g2 /\ In w (covers rs g).
Proof.
  intros Hne gs; induction gs as [|s gs IH]; intros x g y Hg Hin E.
  - symmetry in E. apply app_eq_nil in E as [_ E]. apply app_eq_nil in E as [E _]. contradiction.
  - assert (Hin' : forall r, In (Sub r) gs -> In r rs) by (intros r Hr; apply Hin; right; auto).
    destruct x as [|c x].
    { destruct (tails_complete rs Hne (s :: gs) g y Hin E) as (w & g2 & H & Hw).
      exists [], w, g2. split; auto. apply in_or_app; left; exact Hw. }
    destruct s as [d|r].
    + simpl in E. inversion E; subst.
      destruct (IH x g y Hg Hin' H1) as (g1 & w & g2 & -> & Hw).
      exists (Copy c :: g1), w, g2. auto.
    + assert (Hr : In r rs) by (apply Hin; left; auto).
      change (outs (Sub r :: gs)) with (rhs r ++ outs gs) in E.
      destruct (prefix_comparable (rhs r) (c :: x) (rhs r ++ outs gs)) as [H|H].
      * exists (outs gs); auto.
      * exists (g ++ y); auto.
      * destruct H as [x' Hx']. rewrite Hx', <- app_assoc in E. apply app_inv_head in E.
        destruct (IH x' g y Hg Hin' E) as (g1 & w & g2 & -> & Hw).
        exists (Sub r :: g1), w, g2. auto.
      * destruct H as [q Hq]. rewrite Hq, <- app_assoc in E. apply app_inv_head in E.
        destruct q as [|a q].
        { simpl in E. destruct (IH [] g y Hg Hin' E) as (g1 & w & g2 & -> & Hw).
          exists (Sub r :: g1), w, g2. auto. }
        assert (Hs : In (a :: q) (suffixes (rhs r))).
        { apply in_suffixes. split; [discriminate|]. exists (c :: x). exact Hq. }
        destruct (prefixb (a :: q) g) eqn:Hp.
        -- pose proof Hp as Hp'. apply prefixb_spec in Hp' as [g' Hg'].
           rewrite Hg', <- app_assoc in E. apply app_inv_head in E.
           destruct (tails_complete rs Hne gs g' y Hin' E) as (w & g2 & -> & Hw).
           exists [], (Sub r :: w), g2. split; auto. apply in_or_app; right.
           apply in_flat_map. exists r. split; auto.
           apply in_flat_map. exists (a :: q). split; auto. rewrite Hp.
           apply in_map. rewrite Hg', skipn_app, skipn_all, Nat.sub_diag. exact Hw.
        -- exists [], [Sub r], gs. split; auto. apply in_or_app; right.
           apply in_flat_map. exists r. split; auto.
           apply in_flat_map. exists (a :: q). split; auto. rewrite Hp.
           assert (Hq' : prefixb g (a :: q) = true).
           { apply prefixb_spec.
             destruct (prefix_comparable g (a :: q) ((a :: q) ++ outs gs)) as [H|H]; auto.
             - exists y; auto.
             - exists (outs gs); auto.
             - exfalso. apply prefixb_spec in H. congruence. }
           rewrite Hq'. left; auto.
Qed.

Lemma copies_match_sound rs s g1 w g2 :
  leftmost_cut rs s (g1 ++ w ++ g2) -> copies_match rs w = false.
Proof.
  intros H. apply leftmost_suffix in H. revert H. generalize (ins (w ++ g2)).
  induction w as [|x w IH]; intros u H; auto.
  destruct x as [c|r]; simpl.
  - apply orb_false_iff. split.
    + apply existsb_false. intros r Hr. apply prefixb_false. intros [v Hv].
      pose proof (leftmost_copy_no_prefix rs u [] c (w ++ g2) r H Hr) as Hn.
      apply Hn. exists (v ++ ins g2).
      change (ins (Copy c :: w ++ g2)) with (ins ((Copy c :: w) ++ g2)).
      unfold ins at 1. rewrite flat_map_app. fold (ins (Copy c :: w)). fold (ins g2).
      change (ins (Copy c :: w)) with (c :: ins w). change (c :: flat_map seg_in w) with (c :: ins w) in Hv.
      rewrite Hv, <- app_assoc. reflexivity.
    + inversion H; subst. eapply IH; eauto.
  - inversion H; subst. eapply IH; eauto.
Qed.

Lemma clean_after_sound F rs s gs g :
  (forall r, In r rs -> rhs r <> []) ->
  (forall f, In f F -> ~ is_infix f s) ->
  leftmost_cut rs s gs -> clean_after F rs g = true -> ~ is_infix g (outs gs).
Proof.
  intros Hne HF Hgs Hc (x & y & E).
  unfold clean_after in Hc. apply andb_true_iff in Hc as [Hg Hc].
  apply negb_true_iff, str_eqb_neq in Hg.
  destruct (covers_complete rs Hne gs x g y Hg) as (g1 & w & g2 & -> & Hw); auto.
  { intros r. apply (leftmost_sub_in rs s). exact Hgs. }
  rewrite forallb_forall in Hc. specialize (Hc w Hw).
  unfold impossible in Hc. apply orb_true_iff in Hc as [Hc|Hc].
  - apply existsb_exists in Hc as (f & Hf & Hi). apply infixb_spec in Hi.
    apply (HF f Hf). eapply is_infix_trans; [exact Hi|].
    rewrite <- (leftmost_cut_ins _ _ _ Hgs). unfold ins. rewrite !flat_map_app.
    exists (flat_map seg_in g1), (flat_map seg_in g2). reflexivity.
  - rewrite (copies_match_sound rs s g1 w g2 Hgs) in Hc. discriminate.
Qed.

Lemma absent_sound layers : forall F s t,
  (forall l r, In l layers -> In r l -> rhs r <> []) ->
  (forall f, In f F -> ~ is_infix f s) -> passes layers s t ->
  forall f, In f (absent F layers) -> ~ is_infix f t.
Proof.
  induction layers as [|rs layers IH]; intros F s t Hne HF Hp; simpl in *.
  - subst t. exact HF.
  - destruct Hp as (gs & Hgs & Hp).
    apply (IH _ (outs gs)); auto.
    + intros l r Hl Hr. apply (Hne l r); auto.
    + intros f Hf. apply filter_In in Hf as [_ Hf].
      eapply clean_after_sound; eauto.
Qed.

Lemma stable_sound layers s t : stable layers = true -> passes layers s t ->
  (forall l r, In l layers -> In r l -> ~ is_infix (lhs r) t) /\ passes layers t t.
Proof.
  intros Hst Hp. unfold stable in Hst. apply andb_true_iff in Hst as [H1 H2].
  assert (Hne : forall l r, In l layers -> In r l -> rhs r <> []).
  { intros l r Hl Hr. rewrite forallb_forall in H1. apply H1 in Hl.
    rewrite forallb_forall in Hl. apply Hl in Hr. apply negb_true_iff, str_eqb_neq in Hr. auto. }
  assert (Hno : forall l r, In l layers -> In r l -> ~ is_infix (lhs r) t).
  { intros l r Hl Hr. rewrite forallb_forall in H2. apply H2 in Hl.
    rewrite forallb_forall in Hl. apply Hl in Hr. apply existsb_exists in Hr as (f & Hf & E).
    apply str_eqb_eq in E. rewrite E.
    apply (absent_sound layers [] s t); auto. }
  split; auto.
  clear - Hno. revert Hno. induction layers as [|l layers IH]; intros Hno; simpl; auto.
  exists (map Copy t). rewrite outs_copy. split.
  - assert (H : forall r, In r l -> ~ is_infix (lhs r) t) by (intros r Hr; apply (Hno l); simpl; auto).
    clear - H. induction t as [|c t IHt]; simpl; constructor.
    + intros r Hr [u Hu]. apply (H r Hr). exists [], u. exact Hu.
    + apply IHt. intros r Hr (a & b & E). apply (H r Hr). exists (c :: a), b. rewrite E. reflexivity.
  - apply IH. intros l' r Hl' Hr. apply (Hno l' r); simpl; auto.
Qed.

(** Decides idempotence of a rule list from its layers. *)
Definition stable_rules (rs : list rule) : bool :=
  forallb (fun r => negb (str_eqb (lhs r) [])) rs &&
  match partition_unordered rs with Layers ls => stable ls | _ => false end.

Lemma stable_rules_sound ns rs sigma :
  stable_rules rs = true ->
  (forall r, In r rs -> over sigma (rhs r) = true) ->
  exists f, fst_from_rules ns rs sigma = Some f /\
    forall s, over sigma s = true ->
    exists t, f s = [t] /\ f t = [t] /\ forall r, In r rs -> ~ is_infix (lhs r) t.
Proof.
  intros H Hov. unfold stable_rules in H. apply andb_true_iff in H as [Hne H].
  assert (Hne' : nonempty_lhs rs).
  { intros r Hr. rewrite forallb_forall in Hne. apply Hne in Hr.
    apply negb_true_iff, str_eqb_neq in Hr. auto. }
  pose proof (fst_from_rules_spec ns rs sigma Hne' Hov) as HS.
  destruct (partition_unordered rs) as [ls| |] eqn:EP; try discriminate.
  destruct HS as (f & Hf & Hin & _). exists f. split; auto.
  intros s Hs. destruct (Hin s Hs) as (t & Et & Hot & Hp & _). exists t. split; auto.
  destruct (stable_sound ls s t H Hp) as [Hno Hp2].
  destruct (Hin t Hot) as (t' & Et' & _ & _ & Hu).
  split; [rewrite Et', (Hu t Hp2); reflexivity|].
  pose proof (partition_sound rs ls EP) as (_ & Hiff & _).
  intros r Hr. apply Hiff, in_concat in Hr as (l & Hl & Hr). eauto.
Qed.
