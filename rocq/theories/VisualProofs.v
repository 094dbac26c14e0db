From Verif Require Import Base RuleModel RuleSpec RuleProofs RewriteProofs VisualModel VisualSpec.

(** ** De-duplication *)

Fixpoint collapse (c : N) (last : bool) (s : str) : str :=
  match s with
  | [] => []
  | d :: s' => if N.eqb d c
               then if last then collapse c true s' else d :: collapse c true s'
               else d :: collapse c false s'
  end.

Lemma scan_dedup c o s :
  scan [Rule [c] []] (ends_with c) always o 0 s = [rev o ++ collapse c (ends_with c o) s].
Proof.
  revert o; induction s as [|d s IH]; intros o; [simpl; rewrite app_nil_r; reflexivity|].
  rewrite scan_cons. cbn [filter applicable lhs prefixb always andb collapse].
  unfold applicable; cbn [lhs prefixb always andb].
  rewrite N.eqb_sym. destruct (N.eqb_spec d c) as [->|Hn]; cbn [andb].
  - destruct (ends_with c o) eqn:E.
    + simpl. rewrite IH, E. reflexivity.
    + rewrite IH. cbn [ends_with rev]. rewrite N.eqb_refl, <- app_assoc. reflexivity.
  - rewrite IH. cbn [ends_with rev].
    destruct (N.eqb_spec d c); [contradiction|]. rewrite <- app_assoc. reflexivity.
Qed.

Lemma dedup_char_spec sigma c s : over sigma s = true ->
  dedup_char sigma c s = [collapse c false s].
Proof.
  intros H. unfold dedup_char, rewrite_ctx. rewrite H, scan_dedup. reflexivity.
Qed.

Lemma collapse_over sigma c b s : over sigma s = true -> over sigma (collapse c b s) = true.
Proof.
  revert b; induction s as [|d s IH]; intros b H; auto.
  simpl in H. apply andb_true_iff in H as [H1 H2]. simpl.
  destruct (N.eqb d c).
  - destruct b; auto. simpl. rewrite H1. apply IH; auto.
  - simpl. rewrite H1. apply IH; auto.
Qed.

Lemma collapse_repeat c d n s : d <> c -> forall b,
  collapse c b (repeat d (S n) ++ s) = repeat d (S n) ++ collapse c false s.
Proof.
  intros Hn. induction n as [|n IH]; intros b.
  - simpl. destruct (N.eqb_spec d c); [contradiction|reflexivity].
  - change (repeat d (S (S n))) with (d :: repeat d (S n)).
    cbn [app collapse]. destruct (N.eqb_spec d c); [contradiction|].
    rewrite IH. reflexivity.
Qed.

Lemma collapse_self c n s : collapse c true (repeat c n ++ s) = collapse c true s.
Proof.
  induction n as [|n IH]; auto. simpl. rewrite N.eqb_refl. exact IH.
Qed.

Definition shrink1 (c : N) (r : runs) : runs :=
  map (fun p => if N.eqb (fst p) c then (fst p, 0) else p) r.

Lemma maximal_tail p r : maximal (p :: r) -> maximal r.
Proof. destruct p, r as [|[d m] r]; simpl; tauto. Qed.

Lemma collapse_start c r : maximal r ->
  match r with (d, _) :: _ => d <> c | [] => True end ->
  forall b, collapse c b (expand r) = collapse c false (expand r).
Proof.
  intros _ H b. destruct r as [|[d n] r]; [destruct b; reflexivity|].
  change (expand ((d, n) :: r)) with (repeat d (S n) ++ expand r).
  rewrite !collapse_repeat by auto. reflexivity.
Qed.

Lemma collapse_runs c r : maximal r -> collapse c false (expand r) = expand (shrink1 c r).
Proof.
  induction r as [|[d n] r IH]; intros Hm; auto.
  change (expand ((d, n) :: r)) with (repeat d (S n) ++ expand r).
  cbn [shrink1 map fst]. destruct (N.eqb_spec d c) as [->|Hn].
  - change (expand ((c, 0) :: map (fun p => if N.eqb (fst p) c then (fst p, 0) else p) r))
      with (c :: expand (shrink1 c r)).
    cbn [repeat app collapse]. rewrite N.eqb_refl, collapse_self.
    f_equal. rewrite collapse_start.
    + apply IH. eapply maximal_tail; eauto.
    + eapply maximal_tail; eauto.
    + destruct r as [|[e m] r]; auto. simpl in Hm. destruct Hm as [Hm _]. congruence.
  - change (expand ((d, n) :: map (fun p => if N.eqb (fst p) c then (fst p, 0) else p) r))
      with (repeat d (S n) ++ expand (shrink1 c r)).
    rewrite collapse_repeat by auto. f_equal. apply IH. eapply maximal_tail; eauto.
Qed.

Lemma maximal_map (f : N * nat -> nat) r :
  maximal r -> maximal (map (fun p => (fst p, f p)) r).
Proof.
  induction r as [|[c n] r IH]; auto. intros H. destruct r as [|[d m] r]; [exact I|].
  destruct H as [H1 H2]. split; [exact H1|apply IH; exact H2].
Qed.

Lemma shrink1_maximal c r : maximal r -> maximal (shrink1 c r).
Proof.
  intros H. unfold shrink1.
  rewrite (map_ext _ (fun p => (fst p, if N.eqb (fst p) c then 0 else snd p))).
  - apply maximal_map; exact H.
  - intros [d n]; simpl. destruct (N.eqb d c); reflexivity.
Qed.

Lemma shrink_cons c l r : shrink l (shrink1 c r) = shrink (c :: l) r.
Proof.
  unfold shrink, shrink1. rewrite map_map. apply map_ext. intros [d n]. simpl.
  destruct (N.eqb_spec d c) as [->|H]; simpl.
  - destruct (memN c l); reflexivity.
  - reflexivity.
Qed.

Lemma run_dedup sigma l : forall r, maximal r -> over sigma (expand r) = true ->
  run_chain (map (dedup_char sigma) l) (expand r) = [expand (shrink l r)].
Proof.
  induction l as [|c l IH]; intros r Hm Ho.
  - simpl. unfold shrink. simpl. rewrite map_id. reflexivity.
  - cbn [map run_chain]. rewrite dedup_char_spec by auto. cbn [flat_map].
    rewrite collapse_runs by auto. rewrite IH.
    + rewrite app_nil_r, shrink_cons. reflexivity.
    + apply shrink1_maximal; auto.
    + rewrite <- collapse_runs by auto. apply collapse_over; auto.
Qed.

Lemma runs_exist s : exists r, maximal r /\ expand r = s.
Proof.
  induction s as [|c s [r [Hm <-]]]; [exists []; simpl; auto|].
  destruct r as [|[d n] r].
  - exists [(c, 0)]. simpl; auto.
  - destruct (N.eq_dec c d) as [->|Hn].
    + exists ((d, S n) :: r). split; [destruct r as [|[e m] r]; exact Hm|reflexivity].
    + exists ((c, 0) :: (d, n) :: r). split; [split; auto|reflexivity].
Qed.

Lemma dedup_chars_spec ns chars sigma : chars <> [] ->
  exists f, dedup_chars ns chars sigma = Some f /\
    (forall r, maximal r -> over sigma (expand r) = true ->
       f (expand r) = [expand (shrink chars r)]) /\
    (forall s, over sigma s = false -> f s = []).
Proof.
  intros Hne. unfold dedup_chars, compose_fsts.
  destruct (compose_fsts_run_fuel ns (length (map (dedup_char sigma) chars)) EMPTY
              (map (dedup_char sigma) chars)) as (f & Hf & Hrun); auto.
  { destruct chars; [congruence|discriminate]. }
  exists f. split; auto. split.
  - intros r Hm Ho. rewrite Hrun. apply run_dedup; auto.
  - intros s Hs. rewrite Hrun. destruct chars as [|c l]; [congruence|].
    cbn [map run_chain]. unfold dedup_char, rewrite_ctx. rewrite Hs. reflexivity.
Qed.

Lemma shrink_same_members l1 l2 r : (forall c, In c l1 <-> In c l2) -> shrink l1 r = shrink l2 r.
Proof.
  intros H. apply map_ext. intros [c n]. simpl.
  assert (E : memN c l1 = memN c l2).
  { destruct (memN c l1) eqn:E1; symmetry.
    - apply memN_spec. apply H. apply memN_spec; exact E1.
    - apply memN_false. apply memN_false in E1. rewrite <- H. exact E1. }
  rewrite E. reflexivity.
Qed.

Lemma dedup_order ns1 ns2 l1 l2 sigma : l1 <> [] -> (forall c, In c l1 <-> In c l2) ->
  exists f1 f2, dedup_chars ns1 l1 sigma = Some f1 /\ dedup_chars ns2 l2 sigma = Some f2 /\
    forall s, f1 s = f2 s.
Proof.
  intros Hne H.
  assert (Hne2 : l2 <> []).
  { intros ->. destruct l1 as [|c l1]; [congruence|]. apply (H c); left; auto. }
  destruct (dedup_chars_spec ns1 l1 sigma Hne) as (f1 & Hf1 & H1 & O1).
  destruct (dedup_chars_spec ns2 l2 sigma Hne2) as (f2 & Hf2 & H2 & O2).
  exists f1, f2. repeat split; auto. intros s. destruct (over sigma s) eqn:Hs.
  - destruct (runs_exist s) as (r & Hm & <-). rewrite H1, H2 by auto.
    rewrite (shrink_same_members l1 l2) by auto. reflexivity.
  - rewrite O1, O2; auto.
Qed.

Lemma shrink_maximal l r : maximal r -> maximal (shrink l r).
Proof.
  intros H. unfold shrink.
  rewrite (map_ext _ (fun p => (fst p, if memN (fst p) l then 0 else snd p))).
  - apply maximal_map; exact H.
  - intros [d n]; simpl. destruct (memN d l); reflexivity.
Qed.

Lemma shrink_idem l r : shrink l (shrink l r) = shrink l r.
Proof.
  unfold shrink. rewrite map_map. apply map_ext. intros [c n]; simpl.
  destruct (memN c l) eqn:E; simpl; rewrite E; reflexivity.
Qed.

Lemma expand_cons c n r : expand ((c, n) :: r) = c :: repeat c n ++ expand r.
Proof. reflexivity. Qed.

Lemma expand_head r d t : expand r = d :: t -> exists n r', r = (d, n) :: r'.
Proof.
  destruct r as [|[c n] r]; [discriminate|]. rewrite expand_cons. intros E. inversion E; eauto.
Qed.

Lemma shrunk_no_double l r c : maximal r -> In c l -> ~ is_infix [c; c] (expand (shrink l r)).
Proof.
  intros Hm Hc. induction r as [|[d n] r IH]; intros (a & b & E).
  - apply (f_equal (@length N)) in E. rewrite !app_length in E. simpl in E. lia.
  - specialize (IH (maximal_tail _ _ Hm)).
    cbn [shrink map fst] in E. fold (shrink l r) in E.
    destruct (memN d l) eqn:Ed.
    + rewrite expand_cons in E. cbn [repeat app] in E.
      destruct a as [|x a]; cbn [app] in E.
      * inversion E as [[E1 E2]]. subst d. apply expand_head in E2 as (m & r' & E2).
        destruct r as [|[e k] r]; [discriminate|]. simpl in Hm. destruct Hm as [Hm _].
        simpl in E2. destruct (memN e l); inversion E2; congruence.
      * inversion E as [[E1 E2]]. apply IH. exists a, b. exact E2.
    + assert (Hdc : d <> c).
      { intros ->. apply memN_spec in Hc. congruence. }
      revert a E. rewrite expand_cons. change (d :: repeat d n ++ expand (shrink l r))
        with (repeat d (S n) ++ expand (shrink l r)).
      generalize (S n). intros k; induction k as [|k IHk]; intros a E.
      * apply IH. exists a, b. exact E.
      * cbn [repeat app] in E. destruct a as [|x a]; cbn [app] in E.
        -- inversion E; congruence.
        -- injection E as E1 E2. apply (IHk a). exact E2.
Qed.

Lemma dedup_result ns chars sigma f : chars <> [] -> dedup_chars ns chars sigma = Some f ->
  forall s, over sigma s = true -> exists t, f s = [t] /\ f t = [t] /\
    forall c, In c chars -> ~ is_infix [c; c] t.
Proof.
  intros Hne Hf s Hs.
  destruct (dedup_chars_spec ns chars sigma Hne) as (f' & Hf' & H & _).
  rewrite Hf in Hf'. inversion Hf'; subst f'.
  destruct (runs_exist s) as (r & Hm & <-).
  exists (expand (shrink chars r)). split; [apply H; auto|]. split.
  - rewrite H.
    + rewrite shrink_idem. reflexivity.
    + apply shrink_maximal; auto.
    + clear - Hs. induction r as [|[c n] r IH]; auto. rewrite expand_cons in Hs.
      simpl in Hs. apply andb_true_iff in Hs as [H1 H2]. rewrite over_app in H2.
      apply andb_true_iff in H2 as [H2 H3]. cbn [shrink map fst].
      destruct (memN c chars); rewrite expand_cons; simpl; rewrite H1; simpl.
      * apply IH; auto.
      * rewrite over_app, H2. apply IH; auto.
  - intros c Hc. apply shrunk_no_double; auto.
Qed.

(** ** Rewriting single characters *)

Definition subst_char (rs : list rule) (c : N) : str :=
  match find (fun r => str_eqb (lhs r) [c]) rs with Some r => rhs r | None => [c] end.

Lemma filter_single rs c s : (forall r, In r rs -> exists d, lhs r = [d]) -> NoDup (map lhs rs) ->
  filter (applicable always (c :: s)) rs =
  match find (fun r => str_eqb (lhs r) [c]) rs with Some r => [r] | None => [] end.
Proof.
  intros Hone Hnd. induction rs as [|r rs IH]; auto.
  inversion Hnd as [|? ? Hni Hnd']; subst.
  destruct (Hone r (or_introl eq_refl)) as [d Hd].
  assert (Hone' : forall r', In r' rs -> exists d, lhs r' = [d]) by (intros; apply Hone; right; auto).
  simpl. unfold applicable at 1. rewrite Hd. cbn [prefixb str_eqb always]. rewrite !andb_true_r.
  destruct (N.eqb_spec d c) as [->|Hn]; cbn [andb].
  - f_equal. rewrite IH by auto.
    destruct (find _ rs) as [r'|] eqn:E; auto. exfalso.
    apply find_some in E as [E1 E2]. apply str_eqb_eq in E2. apply Hni. rewrite Hd, <- E2.
    apply in_map; auto.
  - apply IH; auto.
Qed.

Lemma scan_chars rs : (forall r, In r rs -> exists d, lhs r = [d]) -> NoDup (map lhs rs) ->
  forall s o, scan rs always always o 0 s = [rev o ++ flat_map (subst_char rs) s].
Proof.
  intros Hone Hnd s; induction s as [|c s IH]; intros o; [simpl; rewrite app_nil_r; reflexivity|].
  rewrite scan_cons, filter_single by auto. cbn [flat_map]. unfold subst_char at 1.
  destruct (find _ rs) as [r|] eqn:E.
  - unfold always at 1. cbv iota. cbn [flat_map].
    apply find_some in E as [E1 E2]. apply str_eqb_eq in E2. rewrite E2. cbn [length Nat.sub skipn].
    rewrite IH, app_nil_r, rev_app_distr, rev_involutive, <- app_assoc. reflexivity.
  - rewrite IH. cbn [rev]. rewrite <- app_assoc. reflexivity.
Qed.

Lemma rewrite_chars rs sigma s : (forall r, In r rs -> exists d, lhs r = [d]) ->
  NoDup (map lhs rs) -> over sigma s = true ->
  rewrite rs sigma s = [flat_map (subst_char rs) s].
Proof.
  intros H1 H2 H3. unfold rewrite, rewrite_ctx. rewrite H3, scan_chars by auto. reflexivity.
Qed.

(** ** Joiner cleaning *)

Lemma clean_joiner_spec P sigma s : over (intermediate_sigma P sigma) s = true ->
  clean_joiner P sigma s = [filter (fun c => negb (memN c joiners)) s].
Proof.
  intros H. unfold clean_joiner. rewrite rewrite_chars; auto.
  - f_equal. clear H. induction s as [|c s IH]; auto. cbn [flat_map filter].
    rewrite IH. unfold subst_char, joiners. cbn [map find lhs str_eqb rhs memN existsb].
    rewrite !andb_true_r, orb_false_r.
    rewrite !(N.eqb_sym c).
    destruct (N.eqb ZWNJ c); [reflexivity|].
    destruct (N.eqb ZWJ c); [reflexivity|].
    destruct (N.eqb ZWS c); reflexivity.
  - intros r Hr. apply in_map_iff in Hr as (j & <- & _). simpl; eauto.
  - vm_compute. repeat constructor; simpl; intuition discriminate.
Qed.

Lemma map_lhs_inv P : map lhs (map (fun p => Rule [psym p] (pseq p)) P) = map (fun c => [c]) (map psym P).
Proof. rewrite !map_map. reflexivity. Qed.

Lemma reinstate_spec P sigma s : NoDup (map psym P) ->
  over (intermediate_sigma P sigma) s = true ->
  reinstate P sigma s = [flat_map (subst_char (map (fun p => Rule [psym p] (pseq p)) P)) s].
Proof.
  intros Hnd H. unfold reinstate. apply rewrite_chars; auto.
  - intros r Hr. apply in_map_iff in Hr as (j & <- & _). simpl; eauto.
  - rewrite map_lhs_inv. apply FinFun.Injective_map_NoDup; auto.
    intros a b E. inversion E; auto.
Qed.

Lemma subst_sym P p : NoDup (map psym P) -> In p P ->
  subst_char (map (fun p => Rule [psym p] (pseq p)) P) (psym p) = pseq p.
Proof.
  unfold subst_char. induction P as [|q P IH]; intros Hnd Hin; [contradiction|].
  inversion Hnd as [|? ? Hni Hnd']; subst. cbn [map find lhs str_eqb]. rewrite andb_true_r.
  destruct Hin as [->|Hin].
  - rewrite N.eqb_refl. reflexivity.
  - destruct (N.eqb_spec (psym q) (psym p)) as [E|_].
    + exfalso. apply Hni. rewrite E. apply in_map; auto.
    + apply IH; auto.
Qed.

Lemma subst_other P c : ~ In c (map psym P) ->
  subst_char (map (fun p => Rule [psym p] (pseq p)) P) c = [c].
Proof.
  unfold subst_char. induction P as [|q P IH]; intros Hni; auto. cbn [map find lhs str_eqb].
  rewrite andb_true_r. destruct (N.eqb_spec (psym q) c) as [E|_].
  - exfalso. apply Hni. left; auto.
  - apply IH. intros H. apply Hni. right; auto.
Qed.

Lemma over_weaken sigma sigma' s : (forall c, In c sigma -> In c sigma') ->
  over sigma s = true -> over sigma' s = true.
Proof.
  unfold over. rewrite !forallb_forall. intros H1 H2 c Hc. apply memN_spec, H1, memN_spec. auto.
Qed.

(** The joiner steps without the preceding rewrite. *)
Definition joiner_steps (P : list preserve_item) (K : list str) (sigma : list N) : fst_t :=
  run_chain [mark_preserve P K sigma; clean_joiner P sigma; reinstate P sigma; sigma_star sigma].

Notation mark_rules := spans.

Lemma ctx_cut_facts rs lc rc o s gs : ctx_cut rs lc rc o s gs ->
  (forall r, In (Sub r) gs -> In r rs) /\ (forall c, In (Copy c) gs -> In c s).
Proof.
  induction 1 as [o|o c s gs _ _ [IH1 IH2]|o r s gs Hr _ _ _ [IH1 IH2]]; split.
  - intros r [].
  - intros c [].
  - intros r [H|H]; [discriminate|auto].
  - intros d [H|H]; [inversion H; left; auto|right; auto].
  - intros r' [H|H]; [inversion H; subst; auto|auto].
  - intros c [H|H]; [discriminate|]. apply in_or_app; right; auto.
Qed.

Lemma finish_segs P sigma gs : good_preserve P sigma ->
  (forall r, In (Sub r) gs -> In r (mark_rules P)) ->
  (forall c, In (Copy c) gs -> memN c sigma = true) ->
  run_chain [clean_joiner P sigma; reinstate P sigma; sigma_star sigma] (outs gs)
  = [flat_map kept gs].
Proof.
  intros (Hnd & HP & HJ) Hsub Hcopy.
  assert (Hj : forall c, In c joiners -> In c sigma).
  { intros c Hc. unfold over in HJ. rewrite forallb_forall in HJ. apply memN_spec. auto. }
  assert (Ho : over (intermediate_sigma P sigma) (outs gs) = true).
  { unfold over. apply forallb_forall. intros c Hc. apply memN_spec.
    apply in_flat_map in Hc as (g & Hg & Hc). unfold intermediate_sigma. apply in_or_app.
    destruct g as [d|r]; simpl in Hc.
    - destruct Hc as [<-|[]]. right. apply memN_spec. auto.
    - apply Hsub in Hg. apply in_map_iff in Hg as (p & <- & Hp). simpl in Hc.
      destruct Hc as [<-|[]]. left. apply in_map; auto. }
  cbn [run_chain]. rewrite clean_joiner_spec by exact Ho. cbn [flat_map].
  rewrite reinstate_spec; auto.
  2:{ unfold over in *. rewrite forallb_forall in *. intros c Hc. apply filter_In in Hc as [Hc _].
      auto. }
  cbn [flat_map].
  assert (E : flat_map (subst_char (map (fun p => Rule [psym p] (pseq p)) P))
                (filter (fun c => negb (memN c joiners)) (outs gs)) = flat_map kept gs).
  { clear Ho. induction gs as [|g gs IH]; auto.
    assert (Hg := IH ltac:(intros; apply Hsub; right; auto) ltac:(intros; apply Hcopy; right; auto)).
    clear IH. cbn [outs flat_map] in *. unfold outs in *. cbn [flat_map].
    rewrite filter_app, flat_map_app, Hg. f_equal.
    destruct g as [c|r]; cbn [seg_out kept filter].
    - destruct (memN c joiners); auto. cbn [negb flat_map]. rewrite app_nil_r.
      apply subst_other. intros Hin. apply in_map_iff in Hin as (p & <- & Hp).
      destruct (HP p Hp) as [H _]. rewrite (Hcopy (psym p)) in H by (left; auto). discriminate.
    - assert (Hr : In r (mark_rules P)) by (apply Hsub; left; auto).
      apply in_map_iff in Hr as (p & <- & Hp). cbn [rhs lhs filter].
      destruct (memN (psym p) joiners) eqn:Ej.
      + exfalso. apply memN_spec in Ej. apply Hj in Ej. apply memN_spec in Ej.
        destruct (HP p Hp) as [H _]. congruence.
      + cbn [negb flat_map]. rewrite app_nil_r. apply subst_sym; auto. }
  rewrite E. unfold sigma_star.
  assert (Ho2 : over sigma (flat_map kept gs) = true).
  { unfold over. apply forallb_forall. intros c Hc. apply in_flat_map in Hc as (g & Hg & Hc).
    destruct g as [d|r]; cbn [kept] in Hc.
    - destruct (memN d joiners); [contradiction|]. destruct Hc as [<-|[]]. auto.
    - apply Hsub in Hg. apply in_map_iff in Hg as (p & <- & Hp). simpl in Hc.
      destruct (HP p Hp) as (_ & H & _). unfold over in H. rewrite forallb_forall in H. auto. }
  rewrite Ho2. reflexivity.
Qed.

Lemma joiner_steps_spec P K sigma s t : good_preserve P sigma -> over sigma s = true ->
  (In t (joiner_steps P K sigma s) <->
   exists gs, ctx_cut (mark_rules P) (after_consonant K) (before_consonant K) [] s gs /\
              t = flat_map kept gs).
Proof.
  intros Hgood Hs. pose proof Hgood as (Hnd & HP & HJ).
  assert (Hne : nonempty_lhs (mark_rules P)).
  { intros r Hr. apply in_map_iff in Hr as (p & <- & Hp). simpl. apply HP; auto. }
  assert (Hi : over (intermediate_sigma P sigma) s = true).
  { apply (over_weaken sigma); auto. intros c Hc. apply in_or_app; auto. }
  assert (Hfin : forall gs, ctx_cut (mark_rules P) (after_consonant K) (before_consonant K) [] s gs ->
            run_chain [clean_joiner P sigma; reinstate P sigma; sigma_star sigma] (outs gs)
            = [flat_map kept gs]).
  { intros gs Hgs. apply ctx_cut_facts in Hgs as [H1 H2]. apply finish_segs; auto.
    intros c Hc. apply H2 in Hc. unfold over in Hs. rewrite forallb_forall in Hs. auto. }
  change (joiner_steps P K sigma s) with
    (flat_map (run_chain [clean_joiner P sigma; reinstate P sigma; sigma_star sigma])
              (mark_preserve P K sigma s)).
  unfold mark_preserve, rewrite_ctx. rewrite Hi. fold (mark_rules P).
  rewrite in_flat_map. split.
  - intros (u & Hu & Ht). apply scan_spec in Hu as (gs & Hgs & ->); auto. simpl rev in Ht.
    simpl app in Ht. rewrite Hfin in Ht by auto. destruct Ht as [<-|[]]. eauto.
  - intros (gs & Hgs & ->). exists (outs gs). split.
    + apply scan_spec; auto. exists gs. auto.
    + rewrite Hfin by auto. left; auto.
Qed.

Lemma flat_map_split {A B} (f : A -> list B) gs a x b : flat_map f gs = a ++ x :: b ->
  exists g1 g g2 p q, gs = g1 ++ g :: g2 /\ f g = p ++ x :: q /\
    a = flat_map f g1 ++ p /\ b = q ++ flat_map f g2.
Proof.
  revert a; induction gs as [|g gs IH]; intros a E.
  - destruct a; discriminate.
  - simpl in E. destruct (le_lt_dec (length (f g)) (length a)) as [Hl|Hl].
    + assert (Ha : exists a', a = f g ++ a').
      { exists (skipn (length (f g)) a).
        assert (Hf : firstn (length (f g)) a = f g).
        { apply (f_equal (firstn (length (f g)))) in E. rewrite !firstn_app in E.
          replace (length (f g) - length a) with 0 in E by lia.
          rewrite Nat.sub_diag in E. simpl in E. rewrite !app_nil_r, firstn_all in E. auto. }
        rewrite <- Hf at 1. rewrite firstn_skipn. reflexivity. }
      destruct Ha as [a' ->]. rewrite <- app_assoc in E. apply app_inv_head in E.
      destruct (IH a' E) as (g1 & h & g2 & p & q & -> & H1 & -> & ->).
      exists (g :: g1), h, g2, p, q. simpl. rewrite app_assoc. auto.
    + exists [], g, gs, a, (skipn (S (length a)) (f g)). simpl. split; auto.
      assert (Hg : f g = a ++ x :: skipn (S (length a)) (f g)).
      { assert (Hf : firstn (S (length a)) (f g) = a ++ [x]).
        { apply (f_equal (firstn (S (length a)))) in E. rewrite !firstn_app in E.
          replace (S (length a) - length (f g)) with 0 in E by lia.
          replace (S (length a) - length a) with 1 in E by lia.
          simpl firstn in E at 2. rewrite app_nil_r in E.
          rewrite (firstn_all2 (n:=S (length a)) a) in E by lia. exact E. }
        rewrite <- (firstn_skipn (S (length a)) (f g)) at 1. rewrite Hf, <- app_assoc. reflexivity. }
      split; auto. split; auto. rewrite Hg in E. rewrite <- app_assoc in E.
      apply app_inv_head in E. simpl in E. inversion E; auto.
Qed.

Lemma joiner_inside P K sigma s t a j b : good_preserve P sigma -> over sigma s = true ->
  In t (joiner_steps P K sigma s) -> t = a ++ j :: b -> In j joiners ->
  exists x y p q it, In it P /\ pseq it = p ++ j :: q /\ a = x ++ p /\ b = q ++ y.
Proof.
  intros Hg Hs Ht E Hj. apply joiner_steps_spec in Ht as (gs & Hgs & ->); auto.
  apply flat_map_split in E as (g1 & g & g2 & p & q & -> & H1 & -> & ->).
  destruct g as [c|r]; cbn [kept] in H1.
  - destruct (memN c joiners) eqn:Ec; [destruct p; discriminate|].
    destruct p as [|? [|]]; inversion H1; subst. apply memN_spec in Hj. congruence.
  - assert (Hr : In r (mark_rules P)).
    { apply ctx_cut_facts in Hgs as [H _]. apply H. apply in_or_app; right; left; auto. }
    apply in_map_iff in Hr as (it & <- & Hit). cbn [lhs] in H1.
    exists (flat_map kept g1), (flat_map kept g2), p, q, it. auto.
Qed.

Lemma non_joiners_kept P K sigma s t : good_preserve P sigma -> over sigma s = true ->
  In t (joiner_steps P K sigma s) ->
  filter (fun c => negb (memN c joiners)) t = filter (fun c => negb (memN c joiners)) s.
Proof.
  intros Hg Hs Ht. apply joiner_steps_spec in Ht as (gs & Hgs & ->); auto.
  rewrite <- (ctx_cut_ins _ _ _ _ _ _ Hgs). clear. unfold ins.
  induction gs as [|g gs IH]; auto. cbn [flat_map]. rewrite !filter_app, IH. f_equal.
  destruct g as [c|r]; cbn [kept seg_in]; auto.
  destruct (memN c joiners) eqn:E; auto. cbn [filter]. rewrite E. reflexivity.
Qed.

Lemma copy_all_cut rs lc rc s : (forall r, In r rs -> ~ is_infix (lhs r) s) -> forall o,
  ctx_cut rs lc rc o s (map Copy s).
Proof.
  induction s as [|c s IH]; intros H o; simpl; constructor.
  - right. intros r t Hr E. exfalso. apply (H r Hr). exists [], t. exact E.
  - apply IH. intros r Hr (a & b & E). apply (H r Hr). exists (c :: a), b. rewrite E. reflexivity.
Qed.

Lemma kept_copy s : (forall c, In c s -> ~ In c joiners) -> flat_map kept (map Copy s) = s.
Proof.
  induction s as [|c s IH]; auto. intros H. cbn [map flat_map kept].
  assert (E : memN c joiners = false) by (apply memN_false; apply H; left; auto).
  rewrite E. cbn [app]. f_equal. apply IH. intros d Hd. apply H; right; auto.
Qed.

Lemma no_joiner_identity P K sigma s : good_preserve P sigma -> over sigma s = true ->
  (forall it, In it P -> exists j, In j joiners /\ In j (pseq it)) ->
  (forall c, In c s -> ~ In c joiners) ->
  forall t, In t (joiner_steps P K sigma s) <-> t = s.
Proof.
  intros Hg Hs HP Hno t.
  assert (Hinf : forall r, In r (mark_rules P) -> ~ is_infix (lhs r) s).
  { intros r Hr (a & b & E). apply in_map_iff in Hr as (it & <- & Hit).
    destruct (HP it Hit) as (j & Hj & Hin). apply (Hno j); auto. rewrite E.
    apply in_or_app; right. apply in_or_app; left. exact Hin. }
  rewrite joiner_steps_spec by auto. split.
  - intros (gs & Hgs & ->).
    assert (E : gs = map Copy s).
    { clear Hs Hno. remember (@nil N) as o eqn:Eo. clear Eo.
      induction Hgs as [o|o c s gs _ _ IH|o r s gs Hr _ _ _ _]; auto.
      - simpl. f_equal. apply IH. intros r Hr (a & b & E). apply (Hinf r Hr).
        exists (c :: a), b. rewrite E. reflexivity.
      - exfalso. apply (Hinf r Hr). exists [], s. reflexivity. }
    subst gs. apply kept_copy; auto.
  - intros ->. exists (map Copy s). split; [apply copy_all_cut; auto|].
    symmetry. apply kept_copy; auto.
Qed.

Lemma preserved_survives P K sigma a it b t : good_preserve P sigma ->
  prefix_free (mark_rules P) -> In it P ->
  over sigma (a ++ pseq it ++ b) = true ->
  (forall c it', In c a -> In it' P -> ~ In c (pseq it')) ->
  after_consonant K (rev a) = true -> before_consonant K b = true ->
  In t (joiner_steps P K sigma (a ++ pseq it ++ b)) ->
  exists t', t = filter (fun c => negb (memN c joiners)) a ++ pseq it ++ t'.
Proof.
  intros Hg Hpf Hit Ho Ha Hl Hr Ht. apply joiner_steps_spec in Ht as (gs & Hgs & ->); auto.
  assert (Hne : forall p, In p P -> pseq p <> []) by (intros p Hp; apply Hg; auto).
  assert (Hrev : rev a = rev a ++ []) by (rewrite app_nil_r; reflexivity).
  rewrite Hrev in Hl. clear Hrev. clear Ho. revert Hl Hgs. generalize (@nil N) as o.
  revert gs. induction a as [|c a IH]; intros gs o Hl Hgs.
  - simpl in *. remember (pseq it ++ b) as u eqn:Eu.
    destruct Hgs as [o|o c s gs Hno _|o r s gs Hin _ _ _].
    + exfalso. apply (Hne it Hit). destruct (pseq it); auto; discriminate.
    + exfalso. destruct Hno as [Hno|Hno]; [congruence|].
      assert (In (Rule (pseq it) [psym it]) (mark_rules P)).
      { apply in_map_iff. exists it; auto. }
      rewrite (Hno _ b H) in Hr by (simpl; auto). discriminate.
    + apply in_map_iff in Hin as (p & <- & Hp). cbn [lhs] in Eu.
      assert (E : Rule (pseq p) [psym p] = Rule (pseq it) [psym it]).
      { destruct (rule_eq_dec (Rule (pseq p) [psym p]) (Rule (pseq it) [psym it])) as [|Hd]; auto.
        exfalso. destruct Hpf as [_ Hpf].
        assert (H1 : In (Rule (pseq p) [psym p]) (mark_rules P)) by (apply in_map_iff; eauto).
        assert (H2 : In (Rule (pseq it) [psym it]) (mark_rules P)) by (apply in_map_iff; eauto).
        destruct (prefix_comparable (pseq p) (pseq it) (pseq it ++ b)) as [H|H].
        - exists s; auto.
        - exists b; auto.
        - apply (Hpf _ _ H1 H2 Hd H).
        - apply (Hpf _ _ H2 H1 (not_eq_sym Hd) H). }
      inversion E as [[E1 E2]]. exists (flat_map kept gs). reflexivity.
  - cbn [app] in Hgs.
    remember (c :: a ++ pseq it ++ b) as u eqn:Eu.
    destruct Hgs as [o|o d s gs Hno Hgs|o r s gs Hin _ _ _]; [discriminate| |].
    + inversion Eu; subst. destruct (IH (fun c' it' H => Ha c' it' (or_intror H)) gs (c :: o)) as [t' E].
      * cbn [rev] in Hl. rewrite <- app_assoc in Hl. exact Hl.
      * exact Hgs.
      * exists t'. cbn [flat_map kept filter]. rewrite E. destruct (memN c joiners); reflexivity.
    + exfalso. apply in_map_iff in Hin as (p & <- & Hp). cbn [lhs] in Eu.
      apply (Ha c p (or_introl eq_refl) Hp). pose proof (Hne p Hp) as Hn.
      destruct (pseq p) as [|d l]; [congruence|]. inversion Eu; subst. left; auto.
Qed.

Lemma joiner_steps_one P K sigma s : good_preserve P sigma -> prefix_free (mark_rules P) ->
  over sigma s = true -> exists t, joiner_steps P K sigma s = [t].
Proof.
  intros Hg Hpf Hs. pose proof Hg as (Hnd & HP & HJ).
  assert (Hne : nonempty_lhs (mark_rules P)).
  { intros r Hr. apply in_map_iff in Hr as (p & <- & Hp). simpl. apply HP; auto. }
  assert (Hi : over (intermediate_sigma P sigma) s = true).
  { apply (over_weaken sigma); auto. intros c Hc. apply in_or_app; auto. }
  change (joiner_steps P K sigma s) with
    (flat_map (run_chain [clean_joiner P sigma; reinstate P sigma; sigma_star sigma])
              (mark_preserve P K sigma s)).
  unfold mark_preserve, rewrite_ctx. rewrite Hi. fold (mark_rules P).
  destruct (scan_functional (mark_rules P) (after_consonant K) (before_consonant K) Hne Hpf
              (length s) [] s (le_n _)) as [u Hu].
  rewrite Hu. assert (Hin : In u (scan (mark_rules P) (after_consonant K) (before_consonant K) [] 0 s))
    by (rewrite Hu; left; auto).
  apply scan_spec in Hin as (gs & Hgs & ->); auto.
  exists (flat_map kept gs). change (rev (@nil N) ++ outs gs) with (outs gs). cbn [flat_map].
  rewrite finish_segs; auto.
  - apply ctx_cut_facts in Hgs as [H _]. auto.
  - apply ctx_cut_facts in Hgs as [_ H]. intros c Hc. apply H in Hc. unfold over in Hs.
    rewrite forallb_forall in Hs. auto.
Qed.

Lemma visual_norm_spec ns nfc dedup rw P K sigma :
  exists f, visual_norm ns nfc dedup rw P K sigma = Some f /\
    forall s, f s = flat_map (joiner_steps P K sigma)
                      (flat_map rw (flat_map dedup (nfc s))).
Proof.
  unfold visual_norm, compose_fsts.
  destruct (compose_fsts_run_fuel ns
     (length ([nfc; dedup] ++ core_visual_norm_fsts rw P K sigma)) EMPTY
     ([nfc; dedup] ++ core_visual_norm_fsts rw P K sigma)) as (f & Hf & Hrun); auto.
  { discriminate. }
  exists f. split; auto. intros s. rewrite Hrun.
  change (run_chain ([nfc; dedup] ++ core_visual_norm_fsts rw P K sigma) s) with
    (flat_map (fun u => flat_map (fun v => flat_map (joiner_steps P K sigma) (rw v)) (dedup u)) (nfc s)).
  rewrite !flat_map_flat_map. apply flat_map_ext. intros u. reflexivity.
Qed.

(** ** The whole visual normalizer *)

Lemma sigma_star_over sigma s t : In t (sigma_star sigma s) -> over sigma t = true.
Proof. unfold sigma_star. destruct (over sigma s) eqn:E; simpl; [|tauto]. intros [<-|[]]; auto. Qed.

Lemma joiner_steps_over P K sigma s t : In t (joiner_steps P K sigma s) -> over sigma t = true.
Proof.
  unfold joiner_steps. cbn [run_chain]. intros H.
  apply in_flat_map in H as (a & _ & H). apply in_flat_map in H as (b & _ & H).
  apply in_flat_map in H as (c & _ & H). apply in_flat_map in H as (d & H & H2).
  destruct H2 as [<-|[]]. eapply sigma_star_over; eauto.
Qed.

Lemma visual_in ns nfc dedup rw P K sigma f s t :
  visual_norm ns nfc dedup rw P K sigma = Some f ->
  (In t (f s) <-> exists u, before_joiners nfc dedup rw s u /\ In t (joiner_steps P K sigma u)).
Proof.
  intros Hf. destruct (visual_norm_spec ns nfc dedup rw P K sigma) as (f' & Hf' & H).
  rewrite Hf in Hf'. inversion Hf'; subst f'. rewrite H, in_flat_map. unfold before_joiners.
  split; intros (u & Hu & Ht); exists u; split; auto.
  - apply in_flat_map in Hu as (b & Hb & Hu). apply in_flat_map in Hb as (a & Ha & Hb). eauto.
  - destruct Hu as (a & b & Ha & Hb & Hu). apply in_flat_map. exists b; split; auto.
    apply in_flat_map. eauto.
Qed.

Lemma visual_total ns nfc dedup rw P K sigma : good_preserve P sigma ->
  prefix_free (spans P) ->
  exists f, visual_norm ns nfc dedup rw P K sigma = Some f /\
    forall s a b u, nfc s = [a] -> dedup a = [b] -> rw b = [u] -> over sigma u = true ->
    exists t, f s = [t].
Proof.
  intros Hg Hp. destruct (visual_norm_spec ns nfc dedup rw P K sigma) as (f & Hf & H).
  exists f; split; auto. intros s a b u Ha Hb Hu Ho. rewrite H, Ha. cbn [flat_map].
  rewrite Hb. cbn [flat_map app]. rewrite Hu. cbn [flat_map app].
  destruct (joiner_steps_one P K sigma u Hg Hp Ho) as [t Ht]. exists t. rewrite Ht. reflexivity.
Qed.

Lemma visual_cut ns nfc dedup rw P K sigma f : good_preserve P sigma ->
  visual_norm ns nfc dedup rw P K sigma = Some f ->
  (forall s u, before_joiners nfc dedup rw s u -> over sigma u = true) ->
  forall s t, In t (f s) <->
    exists u gs, before_joiners nfc dedup rw s u /\
      ctx_cut (spans P) (ends_in K) (starts_in K) [] u gs /\ t = flat_map kept gs.
Proof.
  intros Hg Hf Ho s t. rewrite (visual_in _ _ _ _ _ _ _ _ _ _ Hf). split.
  - intros (u & Hu & Ht). apply joiner_steps_spec in Ht as (gs & Hgs & ->); eauto. 
  - intros (u & gs & Hu & Hgs & ->). exists u; split; auto. apply joiner_steps_spec; eauto.
Qed.

Lemma visual_joiners ns nfc dedup rw P K sigma f : good_preserve P sigma ->
  visual_norm ns nfc dedup rw P K sigma = Some f ->
  forall s t, In t (f s) -> over sigma t = true /\
   exists u, before_joiners nfc dedup rw s u /\
    (over sigma u = true ->
     without_joiners t = without_joiners u /\
     (forall a j b, t = a ++ j :: b -> In j joiners ->
        exists x y p q it, In it P /\ pseq it = p ++ j :: q /\ a = x ++ p /\ b = q ++ y) /\
     ((forall it, In it P -> exists j, In j joiners /\ In j (pseq it)) ->
      (forall c, In c u -> ~ In c joiners) -> t = u)).
Proof.
  intros Hg Hf s t Ht. apply (visual_in _ _ _ _ _ _ _ _ _ _ Hf) in Ht as (u & Hu & Ht).
  split; [eapply joiner_steps_over; eauto|]. exists u. split; auto. intros Ho. split; [|split].
  - eapply non_joiners_kept; eauto.
  - intros a j b E Hj. eapply joiner_inside; eauto.
  - intros H1 H2. eapply no_joiner_identity; eauto.
Qed.

Lemma visual_preserved ns nfc dedup rw P K sigma f : good_preserve P sigma ->
  prefix_free (spans P) ->
  visual_norm ns nfc dedup rw P K sigma = Some f ->
  forall s x k it k' y t,
  nfc s = [x ++ k ++ pseq it ++ k' ++ y] ->
  dedup (x ++ k ++ pseq it ++ k' ++ y) = [x ++ k ++ pseq it ++ k' ++ y] ->
  rw (x ++ k ++ pseq it ++ k' ++ y) = [x ++ k ++ pseq it ++ k' ++ y] ->
  over sigma (x ++ k ++ pseq it ++ k' ++ y) = true ->
  In k K -> In k' K -> In it P ->
  (forall c it', In c (x ++ k) -> In it' P -> ~ In c (pseq it')) ->
  In t (f s) ->
  exists t', t = without_joiners (x ++ k) ++ pseq it ++ t'.
Proof.
  intros Hg Hp Hf s x k it k' y t H1 H2 H3 Ho Hk Hk' Hit Hc Ht.
  apply (visual_in _ _ _ _ _ _ _ _ _ _ Hf) in Ht as (u & (a & b & Ha & Hb & Hu) & Ht).
  rewrite H1 in Ha. destruct Ha as [<-|[]]. rewrite H2 in Hb. destruct Hb as [<-|[]].
  rewrite H3 in Hu. destruct Hu as [<-|[]].
  rewrite app_assoc in Ht, Ho.
  apply (preserved_survives P K sigma (x ++ k) it (k' ++ y) t); auto.
  - unfold after_consonant. apply existsb_exists. exists k; split; auto.
    apply prefixb_spec. exists (rev x). rewrite rev_app_distr. reflexivity.
  - unfold before_consonant. apply existsb_exists. exists k'; split; auto.
    apply prefixb_spec. exists y. reflexivity.
Qed.
