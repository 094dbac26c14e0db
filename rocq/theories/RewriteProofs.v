(** Specification of left-to-right obligatory rewriting and proofs that the
    model of rewrite.py / rule.py meets it. *)
From Verif Require Import Base RuleModel RuleSpec RuleProofs.

Lemma applicable_spec rs_rc s r :
  applicable rs_rc s r = true <-> exists t, s = lhs r ++ t /\ rs_rc t = true.
Proof.
  unfold applicable. rewrite andb_true_iff, prefixb_spec. split.
  - intros [Hp H]. pose proof (is_prefix_skipn _ _ Hp) as E. eauto.
  - intros (t & -> & H). split; [exists t; reflexivity|].
    rewrite skipn_app, skipn_all, Nat.sub_diag. exact H.
Qed.

Lemma scan_skip rs lc rc o k s : scan rs lc rc o k s = scan rs lc rc o 0 (skipn k s).
Proof.
  revert o k; induction s as [|c s IH]; intros o k.
  - destruct k; reflexivity.
  - destruct k as [|k]; [reflexivity|]. simpl skipn. rewrite <- IH. reflexivity.
Qed.

Lemma scan_cons rs lc rc o c s :
  scan rs lc rc o 0 (c :: s) =
  match filter (applicable rc (c :: s)) rs with
  | [] => scan rs lc rc (c :: o) 0 s
  | ms => if lc o
          then flat_map (fun r => scan rs lc rc (rev (rhs r) ++ o) 0
                                       (skipn (length (lhs r) - 1) s)) ms
          else scan rs lc rc (c :: o) 0 s
  end.
Proof.
  cbn [scan]. destruct (filter (applicable rc (c :: s)) rs) as [|m ms]; [reflexivity|].
  destruct (lc o); [|reflexivity]. apply flat_map_ext. intros r. apply scan_skip.
Qed.

Lemma ctx_cut_ins rs lc rc o s gs : ctx_cut rs lc rc o s gs -> ins gs = s.
Proof.
  induction 1; simpl; auto; unfold ins in *; simpl; rewrite IHctx_cut; reflexivity.
Qed.

Lemma leftmost_cut_ins rs s gs : leftmost_cut rs s gs -> ins gs = s.
Proof.
  induction 1; simpl; auto; unfold ins in *; simpl; rewrite IHleftmost_cut; reflexivity.
Qed.

Lemma skipn_lhs c s r t : lhs r <> [] -> c :: s = lhs r ++ t ->
  skipn (length (lhs r) - 1) s = t.
Proof.
  destruct (lhs r) as [|x l]; [congruence|]. intros _ H. inversion H; subst. simpl.
  rewrite Nat.sub_0_r, skipn_app, skipn_all, Nat.sub_diag. reflexivity.
Qed.

Lemma scan_sound rs lc rc : nonempty_lhs rs -> forall n o s t, length s <= n ->
  In t (scan rs lc rc o 0 s) ->
  exists gs, ctx_cut rs lc rc o s gs /\ t = rev o ++ outs gs.
Proof.
  intros Hne n; induction n as [|n IH]; intros o s t Hlen Hin.
  - destruct s; simpl in *; [|lia]. destruct Hin as [<-|[]].
    exists []. split; [constructor|]. simpl. rewrite app_nil_r. reflexivity.
  - destruct s as [|c s].
    + simpl in Hin. destruct Hin as [<-|[]].
      exists []. split; [constructor|]. simpl. rewrite app_nil_r. reflexivity.
    + rewrite scan_cons in Hin. simpl in Hlen.
      destruct (filter (applicable rc (c :: s)) rs) as [|m ms] eqn:EF.
      * apply IH in Hin as (gs & Hgs & ->); [|lia].
        exists (Copy c :: gs). split.
        -- constructor; auto. right. intros r u Hr E.
           destruct (rc u) eqn:Eu; auto.
           assert (In r (filter (applicable rc (c :: s)) rs)).
           { apply filter_In; split; auto. apply applicable_spec. eauto. }
           rewrite EF in *; contradiction.
        -- simpl. rewrite <- app_assoc. reflexivity.
      * rewrite <- EF in Hin. clear EF m ms.
        destruct (lc o) eqn:El.
        -- apply in_flat_map in Hin as (r & Hr & Hin).
           apply filter_In in Hr as [Hr Happ]. apply applicable_spec in Happ as (u & E & Hu).
           rewrite (skipn_lhs c s r u) in Hin; auto.
           assert (Hl : length u <= n).
           { pose proof (Hne r Hr). destruct (lhs r) as [|x l]; [congruence|].
             inversion E; subst. rewrite app_length in Hlen. lia. }
           apply IH in Hin as (gs & Hgs & ->); auto.
           exists (Sub r :: gs). split.
           ++ rewrite E. constructor; auto.
           ++ simpl. rewrite rev_app_distr, rev_involutive, <- app_assoc. reflexivity.
        -- apply IH in Hin as (gs & Hgs & ->); [|lia].
           exists (Copy c :: gs). split.
           ++ constructor; auto.
           ++ simpl. rewrite <- app_assoc. reflexivity.
Qed.

Lemma scan_complete rs lc rc : nonempty_lhs rs -> forall o s gs,
  ctx_cut rs lc rc o s gs -> In (rev o ++ outs gs) (scan rs lc rc o 0 s).
Proof.
  intros Hne o s gs H; induction H as [o|o c s gs Hno _ IH|o r s gs Hr Hl Hrc _ IH].
  - simpl. rewrite app_nil_r. auto.
  - rewrite scan_cons. simpl in IH. rewrite <- app_assoc in IH. simpl in IH. simpl outs.
    destruct (filter (applicable rc (c :: s)) rs) as [|m ms] eqn:EF; [exact IH|].
    destruct Hno as [->|Hno]; [exact IH|].
    exfalso. assert (Hm : In m (filter (applicable rc (c :: s)) rs)) by (rewrite EF; left; auto).
    apply filter_In in Hm as [Hm Ha]. apply applicable_spec in Ha as (t & E & Ht).
    rewrite (Hno m t Hm E) in Ht. discriminate.
  - destruct (lhs r ++ s) as [|c s'] eqn:E.
    { exfalso. apply (Hne r Hr). destruct (lhs r); auto. discriminate. }
    rewrite scan_cons.
    assert (Hm : In r (filter (applicable rc (c :: s')) rs)).
    { apply filter_In; split; auto. apply applicable_spec. exists s; auto. }
    destruct (filter (applicable rc (c :: s')) rs) as [|m ms] eqn:EF; [contradiction|].
    rewrite <- EF in *. rewrite Hl. apply in_flat_map. exists r. split; auto.
    rewrite (skipn_lhs c s' r s); auto.
    rewrite rev_app_distr, rev_involutive, <- app_assoc in IH. exact IH.
Qed.

Lemma scan_spec rs lc rc o s t : nonempty_lhs rs ->
  (In t (scan rs lc rc o 0 s) <->
   exists gs, ctx_cut rs lc rc o s gs /\ t = rev o ++ outs gs).
Proof.
  intros Hne; split.
  - intros H. eapply scan_sound; eauto.
  - intros (gs & Hgs & ->). apply scan_complete; auto.
Qed.

Lemma ctx_cut_leftmost rs o s gs :
  ctx_cut rs always always o s gs <-> leftmost_cut rs s gs.
Proof.
  split.
  - induction 1 as [o|o c s gs Hno _ IH|o r s gs Hr _ _ _ IH]; constructor; auto.
    intros r Hr [t E]. destruct Hno as [Hno|Hno]; [discriminate|].
    specialize (Hno r t Hr E). discriminate.
  - intros H; revert o; induction H as [|c s gs Hno _ IH|r s gs Hr _ IH]; intros o;
      constructor; auto.
    right. intros r t Hr E. exfalso. apply (Hno r Hr). exists t; exact E.
Qed.

Lemma rewrite_spec rs sigma s t : nonempty_lhs rs -> over sigma s = true ->
  (In t (rewrite rs sigma s) <-> exists gs, leftmost_cut rs s gs /\ t = outs gs).
Proof.
  intros Hne Hs. unfold rewrite, rewrite_ctx. rewrite Hs.
  rewrite scan_spec by auto. split.
  - intros (gs & H & ->). exists gs. rewrite <- ctx_cut_leftmost. eauto.
  - intros (gs & H & ->). exists gs. split; auto. apply ctx_cut_leftmost; auto.
Qed.

(** ** Exactly one output for prefix-free rule sets *)

Lemma prefix_free_match rc rs s : prefix_free rs ->
  filter (applicable rc s) rs = [] \/ exists r, filter (applicable rc s) rs = [r].
Proof.
  intros [Hnd Hpf].
  destruct (filter (applicable rc s) rs) as [|a [|b l]] eqn:E; eauto.
  exfalso.
  assert (Hnd2 : NoDup (a :: b :: l)) by (rewrite <- E; apply NoDup_filter; exact Hnd).
  assert (Ha : In a (filter (applicable rc s) rs)) by (rewrite E; left; auto).
  assert (Hb : In b (filter (applicable rc s) rs)) by (rewrite E; right; left; auto).
  apply filter_In in Ha as [Ha Aa]. apply filter_In in Hb as [Hb Ab].
  apply applicable_spec in Aa as (ta & Ea & _). apply applicable_spec in Ab as (tb & Eb & _).
  assert (Hab : a <> b).
  { intros ->. inversion Hnd2 as [|? ? Hn _]; subst. apply Hn; left; auto. }
  destruct (prefix_comparable (lhs a) (lhs b) s) as [H|H].
  - exists ta; auto.
  - exists tb; auto.
  - apply (Hpf a b); auto.
  - apply (Hpf b a); auto.
Qed.

Lemma scan_functional rs lc rc : nonempty_lhs rs -> prefix_free rs ->
  forall n o s, length s <= n -> exists t, scan rs lc rc o 0 s = [t].
Proof.
  intros Hne Hpf n; induction n as [|n IH]; intros o s Hlen.
  - destruct s; simpl in *; [eauto|lia].
  - destruct s as [|c s]; [simpl; eauto|]. simpl in Hlen. rewrite scan_cons.
    destruct (prefix_free_match rc rs (c :: s) Hpf) as [E|[r E]]; rewrite E.
    + apply IH; lia.
    + destruct (lc o).
      * simpl. destruct (IH (rev (rhs r) ++ o) (skipn (length (lhs r) - 1) s)) as [t Ht].
        { rewrite skipn_length. lia. }
        exists t. rewrite Ht. reflexivity.
      * apply IH; lia.
Qed.

Lemma over_app sigma a b : over sigma (a ++ b) = over sigma a && over sigma b.
Proof. unfold over. apply forallb_app. Qed.

Lemma outs_over rs sigma s gs :
  (forall r, In r rs -> over sigma (rhs r) = true) ->
  over sigma s = true -> leftmost_cut rs s gs -> over sigma (outs gs) = true.
Proof.
  intros Hr Hs H. induction H as [|c s gs _ _ IH|r s gs Hin _ IH]; simpl; auto.
  - simpl in Hs. apply andb_true_iff in Hs as [H1 H2]. simpl. rewrite H1. apply IH; exact H2.
  - rewrite over_app in Hs. apply andb_true_iff in Hs as [H1 H2].
    rewrite over_app, (Hr r Hin). apply IH; exact H2.
Qed.

Lemma leftmost_functional rs s gs1 gs2 : nonempty_lhs rs -> prefix_free rs ->
  leftmost_cut rs s gs1 -> leftmost_cut rs s gs2 -> gs1 = gs2.
Proof.
  intros Hne [_ Hpf] H1; revert gs2; induction H1 as [|c s gs Hno _ IH|r s gs Hr _ IH];
    intros gs2 H2.
  - inversion H2 as [| |r t gs' Hr' _ E]; subst; auto.
    exfalso. apply (Hne r Hr'). destruct (lhs r); auto; discriminate.
  - inversion H2 as [|c' s' gs' Hno' H2' E|r t gs' Hr' _ E]; subst.
    + f_equal. apply IH; auto.
    + exfalso. apply (Hno r Hr'). exists t. auto.
  - inversion H2 as [E0 E1|c' s' gs' Hno' H2' E|r' t gs' Hr' H2' E]; subst.
    + exfalso. apply (Hne r Hr). destruct (lhs r); auto; discriminate.
    + exfalso. apply (Hno' r Hr). exists s. auto.
    + assert (r = r').
      { destruct (rule_eq_dec r r'); auto. exfalso.
        destruct (prefix_comparable (lhs r) (lhs r') (lhs r ++ s)) as [H|H].
        - exists s; auto.
        - exists t; auto.
        - apply (Hpf r r'); auto.
        - apply (Hpf r' r); auto. }
      subst r'. apply app_inv_head in E. subst t. f_equal. apply IH; auto.
Qed.

Lemma over_self s : over s s = true.
Proof. unfold over. apply forallb_forall. intros c Hc. apply memN_spec; exact Hc. Qed.

Lemma leftmost_exists rs s : nonempty_lhs rs -> exists gs, leftmost_cut rs s gs.
Proof.
  intros Hne.
  assert (exists t, In t (rewrite rs s s)) as [t Ht].
  { unfold rewrite, rewrite_ctx. rewrite over_self.
    cut (forall n o u, length u <= n -> exists t, In t (scan rs always always o 0 u)); [eauto|].
    intros n; induction n as [|n IH]; intros o u Hlen.
    - destruct u; simpl in *; [eauto|lia].
    - destruct u as [|c u]; [simpl; eauto|]. rewrite scan_cons. simpl in Hlen.
      destruct (filter _ _) as [|m ms].
      + apply IH; lia.
      + unfold always at 1. cbv iota.
        destruct (IH (rev (rhs m) ++ o) (skipn (length (lhs m) - 1) u)) as [t Ht].
        { rewrite skipn_length; lia. }
        exists t. simpl. apply in_or_app; left; exact Ht. }
  apply rewrite_spec in Ht as (gs & H & _); auto using over_self. eauto.
Qed.

(** One pass over a prefix-free layer has exactly one output. *)
Lemma rewrite_one rs sigma s : nonempty_lhs rs -> prefix_free rs -> over sigma s = true ->
  exists gs, leftmost_cut rs s gs /\ rewrite rs sigma s = [outs gs].
Proof.
  intros Hne Hpf Hs.
  destruct (scan_functional rs always always Hne Hpf (length s) [] s (le_n _)) as [t Ht].
  assert (Hin : In t (rewrite rs sigma s)).
  { unfold rewrite, rewrite_ctx. rewrite Hs, Ht. left; auto. }
  pose proof Hin as Hin2. apply rewrite_spec in Hin2 as (gs & Hgs & E); auto.
  exists gs. split; auto. unfold rewrite, rewrite_ctx. rewrite Hs, Ht, E. reflexivity.
Qed.

(** ** Composition *)

Section ComposeProofs.
  Context {F X : Type}.
  Variable comp : F -> F -> F.
  Variable num_states : F -> nat.
  Variable den : F -> X -> X -> Prop.
  Hypothesis den_comp : forall f g x z,
    den (comp f g) x z <-> exists y, den f x y /\ den g y z.

  Lemma state_prods_length l : length (state_prods num_states l) = length l - 1.
  Proof.
    induction l as [|a l IH]; auto. destruct l as [|b l]; auto.
    change (state_prods num_states (a :: b :: l)) with
      (num_states a * num_states b :: state_prods num_states (b :: l)).
    simpl length in *. rewrite IH. lia.
  Qed.

  Lemma list_min_in m l : In (list_min m l) (m :: l).
  Proof.
    revert m; induction l as [|x l IH]; intros m; simpl; auto.
    destruct (IH (Nat.min m x)) as [H|H]; auto.
    rewrite <- H. destruct (Nat.min_spec m x) as [[_ ->]|[_ ->]]; auto.
  Qed.

  Lemma index_of_lt x l : In x l -> index_of x l < length l.
  Proof.
    induction l as [|y l IH]; simpl; [contradiction|].
    intros H. destruct (Nat.eqb_spec x y); [lia|].
    destruct H as [->|H]; [congruence|]. apply IH in H; lia.
  Qed.

  Lemma argmin_lt l : l <> [] -> argmin l < length l.
  Proof.
    destruct l as [|x l]; [congruence|]. intros _. unfold argmin.
    apply index_of_lt. apply list_min_in.
  Qed.

  Lemma merge_at_chain i l : S i < length l -> forall x z,
    chain den (merge_at comp i l) x z <-> chain den l x z.
  Proof.
    revert l; induction i as [|i IH]; intros l Hlen x z.
    - destruct l as [|a [|b l]]; simpl in *; try lia. split.
      + intros (y & Hy & H). apply den_comp in Hy as (w & Hw & Hy). eauto.
      + intros (y & Hy & w & Hw & H). exists w. split; auto. apply den_comp; eauto.
    - destruct l as [|a l]; simpl in *; [lia|]. split.
      + intros (y & Hy & H). exists y. split; auto. apply IH; auto. lia.
      + intros (y & Hy & H). exists y. split; auto. apply IH; auto. lia.
  Qed.

  Lemma merge_at_length i l : S i < length l ->
    length (merge_at comp i l) = length l - 1.
  Proof.
    revert l; induction i as [|i IH]; intros l Hlen.
    - destruct l as [|a [|b l]]; simpl in *; lia.
    - destruct l as [|a l]; simpl in *; [lia|]. rewrite IH; lia.
  Qed.

  Lemma compose_fsts_fuel_chain fuel dflt l : length l <= fuel -> l <> [] ->
    exists f, compose_fsts_fuel comp num_states fuel dflt l = Some f /\
              forall x z, den f x z <-> chain den l x z.
  Proof.
    revert l; induction fuel as [|fuel IH]; intros l Hlen Hne.
    - destruct l; simpl in *; [congruence|lia].
    - destruct l as [|a [|b l]]; [congruence| |].
      + exists a. split; [reflexivity|]. intros x z; simpl. split.
        * intros H. exists z; auto.
        * intros (y & H & ->). exact H.
      + assert (Hi : S (argmin (state_prods num_states (a :: b :: l))) < length (a :: b :: l)).
        { pose proof (state_prods_length (a :: b :: l)) as E.
          assert (Hp : state_prods num_states (a :: b :: l) <> []).
          { intros H. rewrite H in E. simpl in E. lia. }
          apply argmin_lt in Hp. rewrite E in Hp. simpl in *. lia. }
        pose proof (merge_at_length _ _ Hi) as HL.
        destruct (IH (merge_at comp (argmin (state_prods num_states (a :: b :: l))) (a :: b :: l)))
          as (f & Hf & Hden).
        * rewrite HL. simpl in *. lia.
        * intros H. rewrite H in HL. simpl in *. lia.
        * exists f. split; [exact Hf|]. intros x z. rewrite Hden. apply merge_at_chain; auto.
  Qed.

  Lemma compose_fsts_chain dflt l : l <> [] ->
    exists f, compose_fsts comp num_states dflt l = Some f /\
              forall x z, den f x z <-> chain den l x z.
  Proof. intros H. apply compose_fsts_fuel_chain; auto. Qed.
End ComposeProofs.

(** For the list-of-outputs representation the outputs even come in the same
    order and multiplicity. *)
Fixpoint run_chain (l : list fst_t) (s : str) : list str :=
  match l with
  | [] => [s]
  | f :: l' => flat_map (run_chain l') (f s)
  end.

Lemma flat_map_flat_map {A B C} (f : A -> list B) (g : B -> list C) l :
  flat_map g (flat_map f l) = flat_map (fun x => flat_map g (f x)) l.
Proof.
  induction l as [|x l IH]; simpl; auto. rewrite flat_map_app, IH. reflexivity.
Qed.

Lemma run_merge_at i l : S i < length l -> forall s,
  run_chain (merge_at compose i l) s = run_chain l s.
Proof.
  revert l; induction i as [|i IH]; intros l Hlen s.
  - destruct l as [|a [|b l]]; simpl in *; try lia. unfold compose.
    apply flat_map_flat_map.
  - destruct l as [|a l]; simpl in *; [lia|]. apply flat_map_ext. intros u.
    apply IH; lia.
Qed.

Lemma compose_fsts_run_fuel ns fuel dflt l : length l <= fuel -> l <> [] ->
  exists f, compose_fsts_fuel compose ns fuel dflt l = Some f /\
            forall s, f s = run_chain l s.
Proof.
  revert l; induction fuel as [|fuel IH]; intros l Hlen Hne.
  - destruct l; simpl in *; [congruence|lia].
  - destruct l as [|a [|b l]]; [congruence| |].
    + exists a. split; [reflexivity|]. intros s; simpl.
      induction (a s) as [|u us IHu]; simpl; congruence.
    + assert (Hi : S (argmin (state_prods ns (a :: b :: l))) < length (a :: b :: l)).
      { pose proof (state_prods_length ns (a :: b :: l)) as E.
        assert (Hp : state_prods ns (a :: b :: l) <> []).
        { intros H. rewrite H in E. simpl in E. lia. }
        apply argmin_lt in Hp. rewrite E in Hp. simpl in *. lia. }
      pose proof (merge_at_length compose _ _ Hi) as HL.
      destruct (IH (merge_at compose (argmin (state_prods ns (a :: b :: l))) (a :: b :: l)))
        as (f & Hf & Hden).
      * rewrite HL. simpl in *. lia.
      * intros H. rewrite H in HL. simpl in *. lia.
      * exists f. split; [exact Hf|]. intros s. rewrite Hden. apply run_merge_at; auto.
Qed.

Lemma rewrite_and_compose_run ns layers sigma :
  exists f, rewrite_and_compose ns layers sigma = Some f /\
    forall s, f s = match layers with
                    | [] => sigma_star sigma s
                    | _ => run_chain (map (fun rs => rewrite rs sigma) layers) s
                    end.
Proof.
  unfold rewrite_and_compose, compose_fsts. destruct layers as [|l ls].
  - simpl. eauto.
  - apply compose_fsts_run_fuel; auto. discriminate.
Qed.

(** A pipeline of prefix-free layers is a function on sigma*. *)
Lemma run_layers layers sigma :
  Forall nonempty_lhs layers -> Forall prefix_free layers ->
  Forall (Forall (fun r => over sigma (rhs r) = true)) layers ->
  forall s, over sigma s = true ->
  exists t, run_chain (map (fun rs => rewrite rs sigma) layers) s = [t] /\
            over sigma t = true /\ passes layers s t /\
            (forall t', passes layers s t' -> t' = t).
Proof.
  induction layers as [|rs layers IH]; intros H1 H2 H3 s Hs; simpl.
  - exists s. auto.
  - inversion H1; subst. inversion H2; subst. inversion H3; subst.
    destruct (rewrite_one rs sigma s) as (gs & Hgs & E); auto.
    assert (Ho : over sigma (outs gs) = true).
    { eapply outs_over; eauto. apply Forall_forall. auto. }
    destruct (IH H5 H7 H9 (outs gs) Ho) as (t & Ht & Hot & Hp & Hu).
    exists t. rewrite E. simpl. rewrite Ht. repeat split; auto.
    + eauto.
    + intros t' (gs' & Hgs' & Hp'). apply Hu.
      rewrite (leftmost_functional rs s gs gs'); auto.
Qed.

Lemma run_layers_outside layers sigma s : layers <> [] -> over sigma s = false ->
  run_chain (map (fun rs => rewrite rs sigma) layers) s = [].
Proof.
  destruct layers as [|rs layers]; [congruence|]. intros _ H. simpl.
  unfold rewrite, rewrite_ctx. rewrite H. reflexivity.
Qed.

Lemma antichain_prefix_free l : NoDup l -> antichain l -> prefix_free l.
Proof.
  intros Hnd H. split; auto. intros a b Ha Hb Hab Hp.
  apply (H a b); auto. apply is_prefix_infix; exact Hp.
Qed.

Lemma NoDup_concat_in {A} (ls : list (list A)) l : NoDup (concat ls) -> In l ls -> NoDup l.
Proof.
  induction ls as [|x ls IH]; simpl; [contradiction|]. intros Hnd [->|H].
  - eapply NoDup_app_l; eauto.
  - apply IH; auto. eapply NoDup_app_r; eauto.
Qed.

Lemma layers_facts rs ls : partition_unordered rs = Layers ls -> nonempty_lhs rs ->
  Forall nonempty_lhs ls /\ Forall prefix_free ls.
Proof.
  intros H Hne. apply partition_sound in H as (Hnd & Hin & _ & Hac & _).
  rewrite !Forall_forall in *. split; intros l Hl.
  - intros r Hr. apply Hne. apply Hin. apply in_concat. eauto.
  - apply antichain_prefix_free; auto. eapply NoDup_concat_in; eauto.
Qed.

Lemma fst_from_rules_spec ns rs sigma :
  nonempty_lhs rs -> (forall r, In r rs -> over sigma (rhs r) = true) ->
  match partition_unordered rs with
  | Layers ls =>
    exists f, fst_from_rules ns rs sigma = Some f /\
      (forall s, over sigma s = true ->
         exists t, f s = [t] /\ over sigma t = true /\ passes ls s t /\
                   forall t', passes ls s t' -> t' = t) /\
      (forall s, over sigma s = false -> f s = [])
  | _ => fst_from_rules ns rs sigma = None
  end.
Proof.
  intros Hne Hov. unfold fst_from_rules.
  destruct (partition_unordered rs) as [ls| |] eqn:E; auto.
  destruct (rewrite_and_compose_run ns ls sigma) as (f & Hf & Hrun).
  exists f. split; auto.
  destruct (layers_facts rs ls E Hne) as [H1 H2].
  assert (H3 : Forall (Forall (fun r => over sigma (rhs r) = true)) ls).
  { apply partition_sound in E as (_ & Hin & _). rewrite Forall_forall. intros l Hl.
    rewrite Forall_forall. intros r Hr. apply Hov, Hin, in_concat. eauto. }
  split; intros s Hs; rewrite Hrun.
  - destruct ls as [|l ls].
    + unfold sigma_star. rewrite Hs. exists s. simpl. auto.
    + apply run_layers; auto.
  - destruct ls as [|l ls].
    + unfold sigma_star. rewrite Hs. reflexivity.
    + apply run_layers_outside; auto. discriminate.
Qed.

(** ** Obligatoriness *)

(** No left-hand side lies inside a stretch of copied characters. *)
Lemma leftmost_suffix rs s g1 g2 : leftmost_cut rs s (g1 ++ g2) ->
  leftmost_cut rs (ins g2) g2.
Proof.
  revert s; induction g1 as [|g g1 IH]; intros s H; simpl in *.
  - rewrite (leftmost_cut_ins _ _ _ H). exact H.
  - inversion H; subst; eauto.
Qed.

Lemma copied_no_lhs rs s g1 w g2 r : lhs r <> [] ->
  leftmost_cut rs s (g1 ++ map Copy w ++ g2) -> In r rs -> ~ is_infix (lhs r) w.
Proof.
  intros Hne H Hr (a & b & E). subst w.
  rewrite !map_app, <- !app_assoc in H.
  rewrite app_assoc in H. apply leftmost_suffix in H.
  destruct (lhs r) as [|c l] eqn:El; [congruence|]. simpl in H.
  inversion H as [|c' s' gs' Hno _ E1 E2|]; subst.
  apply (Hno r Hr). rewrite El.
  exists (ins (map Copy b ++ g2)). simpl. f_equal.
  unfold ins. rewrite flat_map_app. f_equal.
  clear. induction l; simpl; congruence.
Qed.

Lemma no_lhs_all_copy rs s gs : (forall r, In r rs -> ~ is_infix (lhs r) s) ->
  leftmost_cut rs s gs -> gs = map Copy s.
Proof.
  intros Hno H. induction H as [|c s gs _ _ IH|r s gs Hr _ _]; auto.
  - simpl. f_equal. apply IH. intros r Hr (a & b & E). apply (Hno r Hr).
    exists (c :: a), b. rewrite E. reflexivity.
  - exfalso. apply (Hno r Hr). exists [], s. reflexivity.
Qed.

Lemma outs_copy s : outs (map Copy s) = s.
Proof. unfold outs. induction s; simpl; congruence. Qed.

Lemma ins_copy s : ins (map Copy s) = s.
Proof. unfold ins. induction s; simpl; congruence. Qed.

Lemma no_lhs_passes layers s t :
  (forall l r, In l layers -> In r l -> ~ is_infix (lhs r) s) ->
  passes layers s t -> t = s.
Proof.
  induction layers as [|l layers IH]; simpl; auto.
  intros Hno (gs & Hgs & Hp).
  assert (E : gs = map Copy s).
  { apply no_lhs_all_copy with (rs := l); eauto. }
  subst gs. rewrite outs_copy in Hp. apply IH; eauto.
Qed.
