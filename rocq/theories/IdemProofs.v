(** Consequences of the cut specification: obligatoriness in terms of
    positions, cascades as successive replacements, idempotence criterion. *)
From Verif Require Import Base RuleModel RuleSpec RuleProofs RewriteProofs.

Lemma leftmost_copy_no_prefix rs s g1 c g2 r :
  leftmost_cut rs s (g1 ++ Copy c :: g2) -> In r rs ->
  ~ is_prefix (lhs r) (ins (Copy c :: g2)).
Proof.
  intros H Hr. apply leftmost_suffix in H.
  inversion H as [|c' s' gs' Hno _|]; subst. apply (Hno r Hr).
Qed.

Lemma leftmost_sub_in rs s gs r : leftmost_cut rs s gs -> In (Sub r) gs -> In r rs.
Proof.
  induction 1 as [|c s gs _ _ IH|r' s gs Hr _ IH]; simpl; intros H; try contradiction.
  - destruct H as [H|H]; [discriminate|auto].
  - destruct H as [H|H]; [inversion H; subst; auto|auto].
Qed.

(** ** Cascades *)

Lemma replace_from_skip l r k s : replace_from l r k s = replace_from l r 0 (skipn k s).
Proof.
  revert k; induction s as [|c s IH]; intros k; [destruct k; reflexivity|].
  destruct k as [|k]; [reflexivity|]. simpl skipn. rewrite <- IH. reflexivity.
Qed.

Lemma leftmost_replace r s gs : lhs r <> [] -> leftmost_cut [r] s gs ->
  outs gs = replace_all (lhs r) (rhs r) s.
Proof.
  intros Hne H. unfold replace_all.
  induction H as [|c s gs Hno _ IH|r' s gs Hr _ IH]; auto.
  - cbn [replace_from]. destruct (prefixb (lhs r) (c :: s)) eqn:E.
    + exfalso. apply prefixb_spec in E. apply (Hno r); [left; auto|exact E].
    + simpl. f_equal. exact IH.
  - destruct Hr as [->|[]].
    destruct (lhs r' ++ s) as [|c u] eqn:E.
    { exfalso. apply Hne. destruct (lhs r'); auto; discriminate. }
    cbn [replace_from].
    assert (Hp : prefixb (lhs r') (c :: u) = true) by (apply prefixb_spec; exists s; auto).
    rewrite Hp, replace_from_skip, (skipn_lhs c u r' s); auto.
    simpl. f_equal. exact IH.
Qed.

Lemma prefix_free_single r : prefix_free [r].
Proof.
  split; [repeat constructor; auto|]. intros a b [->|[]] [->|[]] H; congruence.
Qed.

Lemma replace_over sigma r s : lhs r <> [] -> over sigma (rhs r) = true ->
  over sigma s = true -> over sigma (replace_all (lhs r) (rhs r) s) = true.
Proof.
  intros Hne Hr Hs.
  assert (Hne1 : nonempty_lhs [r]) by (intros x [->|[]]; auto).
  destruct (leftmost_exists [r] s Hne1) as [gs Hgs].
  rewrite <- (leftmost_replace r s gs); auto.
  eapply outs_over; eauto. intros x [->|[]]; auto.
Qed.

Lemma rewrite_single sigma r s : lhs r <> [] -> over sigma s = true ->
  rewrite [r] sigma s = [replace_all (lhs r) (rhs r) s].
Proof.
  intros Hne Hs.
  destruct (rewrite_one [r] sigma s) as (gs & Hgs & E); auto.
  - intros x [->|[]]; auto.
  - apply prefix_free_single.
  - rewrite E. f_equal. apply leftmost_replace; auto.
Qed.

Lemma run_cascade rs sigma s :
  nonempty_lhs rs -> (forall r, In r rs -> over sigma (rhs r) = true) ->
  over sigma s = true ->
  run_chain (map (fun l => rewrite l sigma) (map (fun r => [r]) rs)) s = [cascade rs s].
Proof.
  revert s; induction rs as [|r rs IH]; intros s Hne Hov Hs; auto.
  cbn [map run_chain]. rewrite rewrite_single; auto.
  - cbn [flat_map]. rewrite IH; auto.
    + intros x Hx. apply Hne; right; auto.
    + intros x Hx. apply Hov; right; auto.
    + apply replace_over; auto.
      * apply Hne; left; auto.
      * apply Hov; left; auto.
  - apply Hne; left; auto.
Qed.

Lemma cascading_spec ns rs sigma :
  nonempty_lhs rs -> (forall r, In r rs -> over sigma (rhs r) = true) ->
  exists f, fst_from_cascading ns rs sigma = Some f /\
    forall s, f s = if over sigma s then [cascade rs s] else [].
Proof.
  intros Hne Hov. unfold fst_from_cascading.
  destruct (rewrite_and_compose_run ns (map (fun r => [r]) rs) sigma) as (f & Hf & Hrun).
  exists f. split; auto. intros s. rewrite Hrun.
  destruct rs as [|r rs]; [reflexivity|].
  destruct (over sigma s) eqn:Hs.
  - apply run_cascade; auto.
  - apply run_layers_outside; auto. discriminate.
Qed.

(** ** Idempotence *)

(** [overlapb u v]: copies of [u] and [v] can be placed in one text so that
    they share at least one position. *)
Fixpoint suffixes (s : str) : list str :=
  match s with [] => [] | _ :: s' => s :: suffixes s' end.

Definition overlapb (u v : str) : bool :=
  infixb u v || infixb v u ||
  existsb (fun x => prefixb x v) (suffixes u) ||
  existsb (fun x => prefixb x u) (suffixes v).

Lemma in_suffixes x s : In x (suffixes s) <-> x <> [] /\ is_suffix x s.
Proof.
  unfold is_suffix. induction s as [|c s IH]; simpl.
  - split; [contradiction|]. intros [H [t E]]. symmetry in E. apply app_eq_nil in E as [_ E]. auto.
  - rewrite IH. split.
    + intros [<-|[H [t E]]].
      * split; [discriminate|]. exists []; auto.
      * split; auto. exists (c :: t). rewrite E. reflexivity.
    + intros [H [t E]]. destruct t as [|d t]; simpl in E.
      * left; auto.
      * right. inversion E; subst. split; auto. exists t; auto.
Qed.

(** If an occurrence of [u] in [a ++ v ++ b] shares a position with [v], the
    two strings overlap in the above sense. *)
Lemma overlap_complete x u y a v b :
  x ++ u ++ y = a ++ v ++ b ->
  length x < length a + length v -> length a < length x + length u ->
  overlapb u v = true.
Proof.
  intros E H1 H2. unfold overlapb. rewrite !orb_true_iff, !existsb_exists.
  destruct (le_lt_dec (length a) (length x)) as [Hax|Hax].
  - (* u starts at or after the start of v *)
    assert (Hx : exists x', x = a ++ x').
    { exists (skipn (length a) x).
      assert (Ha : firstn (length a) x = a).
      { apply (f_equal (firstn (length a))) in E.
        rewrite !firstn_app in E.
        replace (length a - length x) with 0 in E by lia.
        rewrite Nat.sub_diag in E. simpl in E. rewrite !app_nil_r in E.
        rewrite firstn_all in E. exact E. }
      rewrite <- Ha at 1. rewrite firstn_skipn. reflexivity. }
    destruct Hx as [x' ->]. rewrite app_length in *.
    rewrite <- app_assoc in E. apply app_inv_head in E.
    (* x' ++ u ++ y = v ++ b, |x'| < |v| *)
    destruct (le_lt_dec (length x' + length u) (length v)) as [Hc|Hc].
    + (* u inside v *)
      left; left; left. apply infixb_spec.
      exists x'. apply (f_equal (firstn (length v))) in E.
      rewrite (firstn_app (length v) v), firstn_all, Nat.sub_diag in E. simpl in E.
      rewrite app_nil_r in E.
      exists (firstn (length v - length x' - length u) y).
      rewrite firstn_app, firstn_app in E.
      rewrite !firstn_all2 in E by lia. symmetry in E. exact E.
    + (* a suffix of v is a prefix of u *)
      right. exists (skipn (length x') v).
      assert (Hv : v = x' ++ skipn (length x') v).
      { assert (Hx' : firstn (length x') v = x').
        { apply (f_equal (firstn (length x'))) in E.
          rewrite !firstn_app in E.
          replace (length x' - length v) with 0 in E by lia.
          rewrite Nat.sub_diag in E. simpl in E. rewrite !app_nil_r in E.
          rewrite firstn_all in E. auto. }
        rewrite <- Hx' at 1. rewrite firstn_skipn. reflexivity. }
      split.
      * apply in_suffixes. split.
        -- intros Hn. apply (f_equal (@length N)) in Hn. rewrite skipn_length in Hn.
           simpl in Hn. lia.
        -- exists x'. exact Hv.
      * apply prefixb_spec. rewrite Hv in E. rewrite <- app_assoc in E.
        apply app_inv_head in E.
        remember (skipn (length x') v) as w.
        assert (Hw : length w <= length u).
        { subst w. rewrite skipn_length. lia. }
        exists (skipn (length w) u).
        apply (f_equal (firstn (length w))) in E.
        rewrite !firstn_app in E. replace (length w - length u) with 0 in E by lia.
        rewrite Nat.sub_diag in E. simpl in E. rewrite !app_nil_r, firstn_all in E.
        rewrite <- E at 1. rewrite firstn_skipn. reflexivity.
  - (* v starts strictly after the start of u *)
    assert (Ha : exists a', a = x ++ a').
    { exists (skipn (length x) a).
      assert (Hx : firstn (length x) a = x).
      { apply (f_equal (firstn (length x))) in E.
        rewrite !firstn_app in E.
        replace (length x - length a) with 0 in E by lia.
        rewrite Nat.sub_diag in E. simpl in E. rewrite !app_nil_r in E.
        rewrite firstn_all in E. auto. }
      rewrite <- Hx at 1. rewrite firstn_skipn. reflexivity. }
    destruct Ha as [a' ->]. rewrite app_length in *.
    rewrite <- app_assoc in E. apply app_inv_head in E.
    destruct (le_lt_dec (length a' + length v) (length u)) as [Hc|Hc].
    + left; left; right. apply infixb_spec.
      exists a'. apply (f_equal (firstn (length u))) in E.
      rewrite (firstn_app (length u) u), firstn_all, Nat.sub_diag in E. simpl in E.
      rewrite app_nil_r in E.
      exists (firstn (length u - length a' - length v) b).
      rewrite firstn_app, firstn_app in E.
      rewrite !firstn_all2 in E by lia. exact E.
    + left; right. exists (skipn (length a') u).
      assert (Hu : u = a' ++ skipn (length a') u).
      { assert (Hx' : firstn (length a') u = a').
        { apply (f_equal (firstn (length a'))) in E.
          rewrite !firstn_app in E.
          replace (length a' - length u) with 0 in E by lia.
          rewrite Nat.sub_diag in E. simpl in E. rewrite !app_nil_r in E.
          rewrite firstn_all in E. auto. }
        rewrite <- Hx' at 1. rewrite firstn_skipn. reflexivity. }
      split.
      * apply in_suffixes. split.
        -- intros Hn. apply (f_equal (@length N)) in Hn. rewrite skipn_length in Hn.
           simpl in Hn. lia.
        -- exists a'. exact Hu.
      * apply prefixb_spec. rewrite Hu in E. rewrite <- app_assoc in E.
        apply app_inv_head in E.
        remember (skipn (length a') u) as w.
        assert (Hw : length w <= length v).
        { subst w. rewrite skipn_length. lia. }
        exists (skipn (length w) v).
        apply (f_equal (firstn (length w))) in E.
        rewrite !firstn_app in E. replace (length w - length v) with 0 in E by lia.
        rewrite Nat.sub_diag in E. simpl in E. rewrite !app_nil_r, firstn_all in E.
        rewrite E at 1. rewrite firstn_skipn. reflexivity.
Qed.

(** A text inside the output either shares a position with an inserted
    right-hand side or is inside a stretch of copied characters. *)
Lemma outs_infix gs x u y : u <> [] -> (forall r, In (Sub r) gs -> rhs r <> []) ->
  outs gs = x ++ u ++ y ->
  (exists r, In (Sub r) gs /\ overlapb u (rhs r) = true) \/
  (exists g1 w g2, gs = g1 ++ map Copy w ++ g2 /\ is_infix u w).
Proof.
  intros Hu. revert x; induction gs as [|g gs IH]; intros x Hne E.
  - simpl in E. symmetry in E. apply app_eq_nil in E as [_ E]. apply app_eq_nil in E as [E _].
    contradiction.
  - destruct g as [c|r].
    + (* copied character *)
      simpl in E. destruct x as [|d x].
      * (* u starts here: walk over it *)
        simpl in E.
        (* find the longest run of copies at the head *)
        assert (Hrun : forall v g0, v <> [] \/ True ->
          (forall r, In (Sub r) g0 -> rhs r <> []) ->
          forall z, outs g0 = v ++ z ->
          (exists r p q, In (Sub r) g0 /\ overlapb u (rhs r) = true /\ p = q :> nat) \/
          (exists g2, g0 = map Copy v ++ g2) \/
          (exists v1 r g2, g0 = map Copy v1 ++ Sub r :: g2 /\ length v1 < length v)).
        { clear. intros v; induction v as [|a v IHv]; intros g0 _ Hne z E.
          - right; left. exists g0; reflexivity.
          - destruct g0 as [|[c|r] g0]; simpl in E; [discriminate| |].
            + inversion E; subst. destruct (IHv g0 (or_intror I)) with (z := z) as [H|[H|H]]; auto.
              * intros r Hr. apply Hne; right; auto.
              * destruct H as (r & p & q & Hr & Ho & Hpq). left. exists r, p, q. simpl; auto.
              * destruct H as [g2 ->]. right; left. exists g2; reflexivity.
              * destruct H as (v1 & r & g2 & -> & Hl). right; right.
                exists (a :: v1), r, g2. simpl. split; auto. lia.
            + right; right. exists [], r, g0. simpl. split; auto. lia. }
        destruct (Hrun u (Copy c :: gs) (or_intror I) Hne y E) as [H|[H|H]].
        -- destruct H as (r & _ & _ & Hr & Ho & _). left. eauto.
        -- destruct H as [g2 H]. right. exists [], u, g2. split; auto. apply is_infix_refl.
        -- destruct H as (v1 & r & g2 & H & Hl). left. exists r. split.
           ++ rewrite H. apply in_or_app. right; left; auto.
           ++ assert (Hr : rhs r <> []).
              { apply Hne. rewrite H. apply in_or_app; right; left; auto. }
              assert (E' : outs (Copy c :: gs) = v1 ++ rhs r ++ outs g2).
              { rewrite H. unfold outs. rewrite flat_map_app. simpl.
                f_equal. apply outs_copy. }
              apply overlap_complete with (x := []) (y := y) (a := v1) (b := outs g2).
              ** rewrite <- E'. symmetry. exact E.
              ** simpl. destruct (rhs r); [congruence|simpl; lia].
              ** simpl. exact Hl.
      * inversion E; subst.
        destruct (IH x) as [(r & Hr & Ho)|(g1 & w & g2 & -> & Hi)]; auto.
        -- intros r Hr. apply Hne; right; auto.
        -- left. exists r; split; auto; right; auto.
        -- right. exists (Copy d :: g1), w, g2. auto.
    + (* replaced span *)
      assert (Hr : rhs r <> []) by (apply Hne; left; auto).
      destruct (le_lt_dec (length (rhs r)) (length x)) as [Hl|Hl].
      * simpl in E.
        assert (Hx : exists x', x = rhs r ++ x').
        { exists (skipn (length (rhs r)) x).
          assert (Hf : firstn (length (rhs r)) x = rhs r).
          { apply (f_equal (firstn (length (rhs r)))) in E.
            rewrite !firstn_app in E.
            replace (length (rhs r) - length x) with 0 in E by lia.
            rewrite Nat.sub_diag in E. simpl in E. rewrite !app_nil_r in E.
            rewrite firstn_all in E. auto. }
          rewrite <- Hf at 1. rewrite firstn_skipn. reflexivity. }
        destruct Hx as [x' ->]. rewrite <- app_assoc in E. apply app_inv_head in E.
        destruct (IH x') as [(r' & Hr' & Ho)|(g1 & w & g2 & -> & Hi)]; auto.
        -- intros r' Hr'. apply Hne; right; auto.
        -- left. exists r'; split; auto; right; auto.
        -- right. exists (Sub r :: g1), w, g2. auto.
      * left. exists r. split; [left; auto|].
        apply overlap_complete with (x := x) (y := y) (a := []) (b := outs gs).
        -- simpl. symmetry. exact E.
        -- simpl. exact Hl.
        -- simpl. destruct u; [congruence|simpl; lia].
Qed.

(** The finite criterion on a rule list: right-hand sides are not empty and
    overlap no left-hand side. *)
Definition no_feedback (rs : list rule) : bool :=
  forallb (fun r => negb (str_eqb (rhs r) []) &&
                    forallb (fun r' => negb (overlapb (lhs r') (rhs r))) rs) rs.

Lemma no_feedback_spec rs : no_feedback rs = true ->
  (forall r, In r rs -> rhs r <> []) /\
  (forall r r', In r rs -> In r' rs -> overlapb (lhs r') (rhs r) = false).
Proof.
  unfold no_feedback. rewrite forallb_forall. intros H. split.
  - intros r Hr. apply H in Hr. apply andb_true_iff in Hr as [Hr _].
    apply negb_true_iff, str_eqb_neq in Hr. exact Hr.
  - intros r r' Hr Hr'. apply H in Hr. apply andb_true_iff in Hr as [_ Hr].
    rewrite forallb_forall in Hr. apply Hr in Hr'. apply negb_true_iff in Hr'. exact Hr'.
Qed.

Lemma copied_in_ins g1 w g2 : is_infix w (ins (g1 ++ map Copy w ++ g2)).
Proof.
  unfold ins. rewrite !flat_map_app.
  exists (flat_map seg_in g1), (flat_map seg_in g2). do 2 f_equal.
  apply ins_copy.
Qed.

Lemma passes_clean all layers done s t :
  no_feedback all = true -> nonempty_lhs all ->
  (forall l r, In l layers -> In r l -> In r all) ->
  (forall r, In r done -> In r all) ->
  (forall r, In r done -> ~ is_infix (lhs r) s) ->
  passes layers s t ->
  forall r, In r done \/ In r (concat layers) -> ~ is_infix (lhs r) t.
Proof.
  intros Hfb Hne. apply no_feedback_spec in Hfb as [Hrhs Hov].
  revert done s; induction layers as [|l layers IH]; intros done s Hall Hdone Hclean Hp; simpl in *.
  - subst t. intros r [H|[]]; auto.
  - destruct Hp as (gs & Hgs & Hp).
    assert (HS : forall r, In (Sub r) gs -> In r l) by (intros r; apply (leftmost_sub_in l s); auto).
    assert (Hclean' : forall r, In r (done ++ l) -> ~ is_infix (lhs r) (outs gs)).
    { intros r Hr (x & y & E).
      assert (Hra : In r all) by (apply in_app_or in Hr as [Hr|Hr]; eauto).
      destruct (outs_infix gs x (lhs r) y) as [(r' & Hr' & Ho)|(g1 & w & g2 & -> & Hi)]; auto.
      - intros r' Hr'. apply Hrhs. eauto.
      - rewrite (Hov r' r) in Ho; eauto. discriminate.
      - apply in_app_or in Hr as [Hr|Hr].
        + apply (Hclean r Hr). eapply is_infix_trans; [exact Hi|].
          rewrite <- (leftmost_cut_ins _ _ _ Hgs). apply copied_in_ins.
        + apply (copied_no_lhs l s g1 w g2 r); auto. }
    intros r Hr.
    apply (IH (done ++ l) (outs gs)); auto.
    + intros l' r' Hl' Hr'. apply (Hall l' r'); auto.
    + intros r' Hr'. apply in_app_or in Hr' as [Hr'|Hr']; eauto.
    + rewrite in_app_iff. destruct Hr as [Hr|Hr]; auto.
      apply in_app_or in Hr as [Hr|Hr]; auto.
Qed.

Lemma no_feedback_idempotent ns rs sigma :
  no_feedback rs = true -> nonempty_lhs rs ->
  (forall r, In r rs -> over sigma (rhs r) = true) ->
  forall f, fst_from_rules ns rs sigma = Some f ->
  forall s t, In t (f s) ->
  (forall r, In r rs -> ~ is_infix (lhs r) t) /\ f t = [t].
Proof.
  intros Hfb Hne Hov f Hf s t Ht.
  pose proof (fst_from_rules_spec ns rs sigma Hne Hov) as HS.
  destruct (partition_unordered rs) as [ls| |] eqn:EP; try congruence.
  destruct HS as (f' & Hf' & Hin & Hout). rewrite Hf in Hf'. inversion Hf'; subst f'.
  destruct (over sigma s) eqn:Hs; [|rewrite (Hout s Hs) in Ht; contradiction].
  destruct (Hin s Hs) as (t' & E & Hot & Hp & _). rewrite E in Ht. destruct Ht as [->|[]].
  pose proof (partition_sound rs ls EP) as (_ & Hiff & _).
  assert (Hclean : forall r, In r rs -> ~ is_infix (lhs r) t).
  { intros r Hr. apply (passes_clean rs ls [] s t Hfb Hne); try (simpl; tauto); auto.
    - intros l r' Hl Hr'. apply Hiff, in_concat. eauto.
    - right. apply Hiff; exact Hr. }
  split; auto.
  destruct (Hin t Hot) as (t2 & E2 & _ & Hp2 & _). rewrite E2. f_equal.
  eapply no_lhs_passes; [|exact Hp2].
  intros l r Hl Hr. apply Hclean. apply Hiff, in_concat. eauto.
Qed.

(** ** Obligatoriness in terms of occurrences *)

Lemma occurrence_touched rs s gs : leftmost_cut rs s gs ->
  forall r x y, In r rs -> lhs r <> [] -> s = x ++ lhs r ++ y ->
  exists g1 r' g2, gs = g1 ++ Sub r' :: g2 /\
    length (ins g1) < length x + length (lhs r) /\
    length x < length (ins g1) + length (lhs r').
Proof.
  induction 1 as [|c s gs Hno _ IH|r' s gs Hr' _ IH]; intros r x y Hr Hne E.
  - exfalso. symmetry in E. apply app_eq_nil in E as [_ E]. apply app_eq_nil in E as [E _]. auto.
  - destruct x as [|d x].
    + exfalso. apply (Hno r Hr). exists y. exact E.
    + inversion E; subst. destruct (IH r x y Hr Hne eq_refl) as (g1 & r' & g2 & -> & H1 & H2).
      exists (Copy d :: g1), r', g2. simpl. repeat split; auto; lia.
  - destruct (le_lt_dec (length (lhs r')) (length x)) as [Hl|Hl].
    + assert (Hx : exists x', x = lhs r' ++ x').
      { exists (skipn (length (lhs r')) x).
        assert (Hf : firstn (length (lhs r')) x = lhs r').
        { apply (f_equal (firstn (length (lhs r')))) in E.
          rewrite !firstn_app in E.
          replace (length (lhs r') - length x) with 0 in E by lia.
          rewrite Nat.sub_diag in E. simpl in E. rewrite !app_nil_r in E.
          rewrite firstn_all in E. auto. }
        rewrite <- Hf at 1. rewrite firstn_skipn. reflexivity. }
      destruct Hx as [x' ->]. rewrite <- app_assoc in E. apply app_inv_head in E.
      destruct (IH r x' y Hr Hne E) as (g1 & r2 & g2 & -> & H1 & H2).
      exists (Sub r' :: g1), r2, g2. simpl. rewrite !app_length. repeat split; auto; lia.
    + exists [], r', gs. simpl. split; [auto|]. split; [|lia].
      destruct (lhs r); [congruence|simpl; lia].
Qed.

Lemma rewrite_pass_spec layer sigma s :
  nonempty_lhs layer -> prefix_free layer -> over sigma s = true ->
  exists gs, rewrite layer sigma s = [outs gs] /\ ins gs = s /\
    (forall r, In (Sub r) gs -> In r layer) /\
    (forall r x y, In r layer -> s = x ++ lhs r ++ y ->
       exists g1 r' g2, gs = g1 ++ Sub r' :: g2 /\
         length (ins g1) < length x + length (lhs r) /\
         length x < length (ins g1) + length (lhs r')) /\
    (forall g1 c g2 r, gs = g1 ++ Copy c :: g2 -> In r layer ->
       ~ is_prefix (lhs r) (ins (Copy c :: g2))).
Proof.
  intros Hne Hpf Hs. destruct (rewrite_one layer sigma s Hne Hpf Hs) as (gs & Hgs & E).
  exists gs. split; auto. split; [eapply leftmost_cut_ins; eauto|].
  split; [intros r; apply (leftmost_sub_in layer s); auto|]. split.
  - intros r x y Hr Ex. eapply occurrence_touched; eauto.
  - intros g1 c g2 r -> Hr. eapply leftmost_copy_no_prefix; eauto.
Qed.

Lemma no_lhs_identity ns rs sigma f :
  nonempty_lhs rs -> (forall r, In r rs -> over sigma (rhs r) = true) ->
  fst_from_rules ns rs sigma = Some f ->
  forall s, over sigma s = true -> (forall r, In r rs -> ~ is_infix (lhs r) s) -> f s = [s].
Proof.
  intros Hne Hov Hf s Hs Hno.
  pose proof (fst_from_rules_spec ns rs sigma Hne Hov) as HS.
  destruct (partition_unordered rs) as [ls| |] eqn:EP; try congruence.
  destruct HS as (f' & Hf' & Hin & _). rewrite Hf in Hf'. inversion Hf'; subst f'.
  destruct (Hin s Hs) as (t & E & _ & Hp & _). rewrite E. f_equal.
  pose proof (partition_sound rs ls EP) as (_ & Hiff & _).
  eapply no_lhs_passes; [|exact Hp].
  intros l r Hl Hr. apply Hno. apply Hiff, in_concat. eauto.
Qed.

Lemma cascading_split ns rs1 rs2 sigma :
  nonempty_lhs (rs1 ++ rs2) -> (forall r, In r (rs1 ++ rs2) -> over sigma (rhs r) = true) ->
  exists f f1 f2,
    fst_from_cascading ns (rs1 ++ rs2) sigma = Some f /\
    fst_from_cascading ns rs1 sigma = Some f1 /\
    fst_from_cascading ns rs2 sigma = Some f2 /\
    forall s, f s = flat_map f2 (f1 s).
Proof.
  intros Hne Hov.
  assert (Hne1 : nonempty_lhs rs1) by (intros r Hr; apply Hne, in_or_app; auto).
  assert (Hne2 : nonempty_lhs rs2) by (intros r Hr; apply Hne, in_or_app; auto).
  assert (Hov1 : forall r, In r rs1 -> over sigma (rhs r) = true)
    by (intros r Hr; apply Hov, in_or_app; auto).
  assert (Hov2 : forall r, In r rs2 -> over sigma (rhs r) = true)
    by (intros r Hr; apply Hov, in_or_app; auto).
  destruct (cascading_spec ns (rs1 ++ rs2) sigma Hne Hov) as (f & Hf & Ef).
  destruct (cascading_spec ns rs1 sigma Hne1 Hov1) as (f1 & Hf1 & Ef1).
  destruct (cascading_spec ns rs2 sigma Hne2 Hov2) as (f2 & Hf2 & Ef2).
  exists f, f1, f2. repeat split; auto. intros s. rewrite Ef, Ef1.
  destruct (over sigma s) eqn:Hs; [|reflexivity].
  simpl. rewrite Ef2, app_nil_r.
  assert (Ho : over sigma (cascade rs1 s) = true).
  { clear - Hs Hne1 Hov1. revert s Hs. induction rs1 as [|r rs IH]; intros s Hs; auto.
    simpl. apply IH.
    - intros x Hx. apply Hne1; right; auto.
    - intros x Hx. apply Hov1; right; auto.
    - apply replace_over; auto; [apply Hne1|apply Hov1]; left; auto. }
  rewrite Ho. unfold cascade. rewrite fold_left_app. reflexivity.
Qed.

Lemma never_share_overlapb u v : u <> [] -> v <> [] -> never_share u v -> overlapb u v = false.
Proof.
  intros Hu Hv H. unfold overlapb.
  assert (Lu : 0 < length u) by (destruct u; [congruence|simpl; lia]).
  assert (Lv : 0 < length v) by (destruct v; [congruence|simpl; lia]).
  rewrite !orb_false_iff. repeat split.
  - apply infixb_false. intros (p & q & E).
    destruct (H p q [] []) as [H1|H1].
    + simpl. rewrite app_nil_r. symmetry. exact E.
    + simpl in H1. lia.
    + simpl in H1. apply (f_equal (@length N)) in E. rewrite !app_length in E. lia.
  - apply infixb_false. intros (p & q & E).
    destruct (H [] [] p q) as [H1|H1].
    + simpl. rewrite app_nil_r. exact E.
    + simpl in H1. apply (f_equal (@length N)) in E. rewrite !app_length in E. lia.
    + simpl in H1. lia.
  - apply existsb_false. intros x Hx. apply prefixb_false. intros [w Hw].
    apply in_suffixes in Hx as [Hx [p Hp]].
    assert (Lx : 0 < length x) by (destruct x; [congruence|simpl; lia]).
    destruct (H [] w p []) as [H1|H1].
    + simpl. rewrite app_nil_r, Hp, Hw, app_assoc. reflexivity.
    + simpl in H1. rewrite Hp, app_length in H1. lia.
    + simpl in H1. lia.
  - apply existsb_false. intros x Hx. apply prefixb_false. intros [w Hw].
    apply in_suffixes in Hx as [Hx [p Hp]].
    assert (Lx : 0 < length x) by (destruct x; [congruence|simpl; lia]).
    destruct (H p [] [] w) as [H1|H1].
    + simpl. rewrite app_nil_r, Hp, Hw, app_assoc. reflexivity.
    + simpl in H1. lia.
    + simpl in H1. rewrite Hp, app_length in H1. lia.
Qed.

Lemma no_feedback_intro rs : nonempty_lhs rs ->
  (forall r, In r rs -> rhs r <> []) ->
  (forall r r', In r rs -> In r' rs -> never_share (lhs r') (rhs r)) ->
  no_feedback rs = true.
Proof.
  intros Hne Hr H. unfold no_feedback. apply forallb_forall. intros r Hin.
  apply andb_true_iff. split.
  - apply negb_true_iff, str_eqb_neq. auto.
  - apply forallb_forall. intros r' Hin'. apply negb_true_iff.
    apply never_share_overlapb; auto.
Qed.

Lemma no_feedback_idempotent_spec ns rs sigma :
  nonempty_lhs rs -> (forall r, In r rs -> rhs r <> [] /\ over sigma (rhs r) = true) ->
  (forall r r', In r rs -> In r' rs -> never_share (lhs r') (rhs r)) ->
  forall f, fst_from_rules ns rs sigma = Some f ->
  forall s t, In t (f s) ->
  (forall r, In r rs -> ~ is_infix (lhs r) t) /\ f t = [t].
Proof.
  intros Hne Hr Hs. apply no_feedback_idempotent; auto.
  - apply no_feedback_intro; auto. intros r Hin. apply Hr; auto.
  - intros r Hin. apply Hr; auto.
Qed.
