(** Soundness of ResidualCheck. *)
From Verif Require Import Base RegexModel RegexProofs ResidualCheck.

Lemma str_same_eq a : forall b, str_same a b = true -> a = b.
Proof.
  induction a as [|x a IH]; intros [|y b] H; simpl in H; try discriminate; [reflexivity|].
  destruct (N.eqb x y) eqn:E; [|discriminate]. apply N.eqb_eq in E. subst. f_equal. auto.
Qed.
Lemma strs_same_eq a : forall b, strs_same a b = true -> a = b.
Proof.
  induction a as [|x a IH]; intros [|y b] H; simpl in H; try discriminate; [reflexivity|].
  destruct (str_same x y) eqn:E; [|discriminate]. apply str_same_eq in E. subst. f_equal. auto.
Qed.
Lemma nre_same_eq a : forall b, nre_same a b = true -> a = b.
Proof.
  induction a as [k|l|a1 IH1 a2 IH2|a1 IH1 a2 IH2|a1 IH1|a1 IH1]; intros [k'|l'|b1 b2|b1 b2|b1|b1] H;
    simpl in H; try discriminate.
  - apply Nat.eqb_eq in H. now subst.
  - apply strs_same_eq in H. now subst.
  - destruct (nre_same a1 b1) eqn:E; [|discriminate]. f_equal; auto.
  - destruct (nre_same a1 b1) eqn:E; [|discriminate]. f_equal; auto.
  - f_equal; auto.
  - f_equal; auto.
Qed.
Lemma re_same_eq a : forall b, re_same a b = true -> a = b.
Proof.
  induction a as [l|a1 IH1 a2 IH2|a1 IH1 a2 IH2|a1 IH1|a1 IH1]; intros [l'|b1 b2|b1 b2|b1|b1] H;
    simpl in H; try discriminate.
  - apply strs_same_eq in H. now subst.
  - destruct (re_same a1 b1) eqn:E; [|discriminate]. f_equal; auto.
  - destruct (re_same a1 b1) eqn:E; [|discriminate]. f_equal; auto.
  - f_equal; auto.
  - f_equal; auto.
Qed.

Lemma mem_In n l : mem n l = true -> In n l.
Proof.
  induction l as [|m l IH]; simpl; [discriminate|]. destruct (nre_same n m) eqn:E; [|auto].
  apply nre_same_eq in E. auto.
Qed.
Lemma inside_incl p q : inside p q = true -> incl p q.
Proof.
  induction p as [|n p IH]; simpl; intros H; [intros x []|].
  destruct (mem n q) eqn:E; [|discriminate]. apply mem_In in E.
  intros x [<-|Hx]; [exact E|exact (IH H x Hx)].
Qed.
Lemma once_In n l : In n (once l) <-> In n l.
Proof.
  induction l as [|m l IH]; simpl; [tauto|].
  destruct (mem m (once l)) eqn:E; simpl.
  - apply mem_In in E. rewrite IH. split; [auto|]. intros [<-|H]; [now apply IH|exact H].
  - rewrite IH. tauto.
Qed.

Section Env.
  Variable env : list (list str).
  Notation den := (den env).
  Notation nul := (nul env).
  Notation after := (after env).
  Notation step := (step env).
  Notation steps := (steps env).

  Lemma has_nil_spec l : has_nil l = existsb (fun s => match s with [] => true | _ => false end) l.
  Proof. induction l as [|[|c s] l IH]; simpl; auto. Qed.

  Lemma nul_spec n : nul n = nullable (den n).
  Proof.
    induction n as [k|l|a IHa b IHb|a IHa b IHb|a IHa|a IHa]; simpl; auto using has_nil_spec;
      rewrite IHa, IHb; destruct (nullable (den a)); reflexivity.
  Qed.

  Lemma join_spec a b s :
    matches (den (join a b)) s <-> exists x y, s = x ++ y /\ matches (den a) x /\ matches (den b) y.
  Proof.
    assert (G : matches (den (NCat a b)) s <->
                exists x y, s = x ++ y /\ matches (den a) x /\ matches (den b) y)
      by apply cat_inv.
    unfold join. destruct a as [k|[|[|c u] [|v l]]| | | |]; try exact G.
    split.
    - intro H. exists [], s. split; [reflexivity|]. split; [|exact H].
      apply strs_inv. now left.
    - intros (x & y & -> & H1 & H2). apply strs_inv in H1. destruct H1 as [<-|[]]. exact H2.
  Qed.

  Lemma rest_spec c l s :
    (exists m, In m (rest_of c l) /\ matches (den m) s) <-> In (c :: s) l.
  Proof.
    rewrite <- tails_spec. unfold rest_of. destruct (tails c l) as [|t ts] eqn:E.
    - split; [intros (m & [] & _)|intros []].
    - split.
      + intros (m & [<-|[]] & H). now apply strs_inv in H.
      + intro H. exists (Small (t :: ts)). split; [now left|]. now apply strs_inv.
  Qed.

  Lemma after_spec c n : forall s,
    (exists m, In m (after c n) /\ matches (den m) s) <-> matches (den n) (c :: s).
  Proof.
    induction n as [k|l|a IHa b IHb|a IHa b IHb|a IHa|a IHa]; intro s; cbn [ResidualCheck.after ResidualCheck.den].
    - rewrite strs_inv. apply rest_spec.
    - rewrite strs_inv. apply rest_spec.
    - rewrite cat_inv. split.
      + intros (m & Hm & H). apply in_app_iff in Hm as [Hm|Hm].
        * apply in_map_iff in Hm as (x & <- & Hx). apply join_spec in H as (u & v & -> & H1 & H2).
          exists (c :: u), v. split; [reflexivity|]. split; [|exact H2]. apply IHa. eauto.
        * destruct (nul a) eqn:E; [|destruct Hm]. rewrite nul_spec in E. apply nullable_spec in E.
          exists [], (c :: s). split; [reflexivity|]. split; [exact E|]. apply IHb. eauto.
      + intros (x & y & E & H1 & H2). destruct x as [|d x].
        * simpl in E. subst y. apply IHb in H2 as (m & Hm & H). exists m. split; [|exact H].
          apply in_app_iff. right. rewrite nul_spec. apply nullable_spec in H1. now rewrite H1.
        * simpl in E. injection E as <- ->. apply IHa in H1 as (m & Hm & H).
          exists (join m b). split; [apply in_app_iff; left; now apply (in_map (fun x => join x b))|].
          apply join_spec. eauto.
    - rewrite alt_inv, <- IHa, <- IHb. split.
      + intros (m & Hm & H). apply in_app_iff in Hm as [Hm|Hm]; [left|right]; eauto.
      + intros [(m & Hm & H)|(m & Hm & H)]; exists m; (split; [apply in_app_iff; auto|exact H]).
    - rewrite ques_inv, <- IHa. split; [auto|]. intros [H|H]; [discriminate|exact H].
    - split.
      + intros (m & Hm & H). apply in_map_iff in Hm as (x & <- & Hx).
        apply join_spec in H as (u & v & -> & H1 & H2).
        change (c :: u ++ v) with ((c :: u) ++ v). apply m_star_cons; [|exact H2]. apply IHa. eauto.
      + intro H. apply star_cons_inv in H as (u & v & -> & H1 & H2).
        apply IHa in H1 as (m & Hm & H). exists (join m (NStar a)).
        split; [now apply (in_map (fun x => join x (NStar a)))|]. apply join_spec. eauto.
  Qed.

  Definition smatch (q : list nre) (s : str) : Prop := exists n, In n q /\ matches (den n) s.

  Lemma step_spec q c s : smatch (step q c) s <-> smatch q (c :: s).
  Proof.
    unfold smatch, ResidualCheck.step. split.
    - intros (m & Hm & H). apply (proj1 (once_In _ _)) in Hm. apply in_flat_map in Hm as (n & Hn & Hm).
      exists n. split; [exact Hn|]. apply after_spec. eauto.
    - intros (n & Hn & H). apply after_spec in H as (m & Hm & H). exists m.
      split; [apply (proj2 (once_In _ _)); apply in_flat_map; eauto|exact H].
  Qed.

  Lemma steps_spec u : forall q v, smatch (steps q u) v <-> smatch q (u ++ v).
  Proof.
    induction u as [|c u IH]; intros q v; [reflexivity|].
    change (steps q (c :: u)) with (steps (step q c) u). rewrite IH. apply step_spec.
  Qed.

  Lemma step_mono p q c : incl p q -> incl (step p c) (step q c).
  Proof.
    intros H m Hm. apply (proj1 (once_In _ _)) in Hm. apply (proj2 (once_In _ _)). apply in_flat_map in Hm as (n & Hn & Hm).
    apply in_flat_map. eauto.
  Qed.
  Lemma steps_mono u : forall p q, incl p q -> incl (steps p u) (steps q u).
  Proof.
    induction u as [|c u IH]; intros p q H; [exact H|].
    exact (IH _ _ (step_mono p q c H)).
  Qed.
  Lemma smatch_mono p q s : incl p q -> smatch p s -> smatch q s.
  Proof. intros H (n & Hn & K). exists n. auto. Qed.

  Lemma may_end_spec q : may_end env q = true <-> smatch q [].
  Proof.
    induction q as [|n q IH]; simpl.
    - split; [discriminate|intros (n & [] & _)].
    - destruct (nul n) eqn:E; rewrite nul_spec in E.
      + split; [|auto]. intros _. exists n. split; [now left|]. now apply nullable_spec.
      + rewrite IH. split.
        * intros (m & Hm & H). exists m. split; [now right|exact H].
        * intros (m & [<-|Hm] & H); [apply nullable_spec in H; congruence|]. exists m. auto.
  Qed.

  Variable sigma : list N.
  Definition within (s : str) : Prop := forall c, In c s -> In c sigma.

  Lemma has_state_In q l : has_state q l = true ->
    exists p, In p l /\ incl q p /\ incl p q.
  Proof.
    induction l as [|p l IH]; simpl; [discriminate|]. intro H.
    destruct (alike q p) eqn:E.
    - unfold alike in E. destruct (inside q p) eqn:E1; [|discriminate].
      exists p. split; [now left|]. split; now apply inside_incl.
    - destruct (IH H) as (p' & Hp & K). exists p'. split; [now right|exact K].
  Qed.

  Lemma states_sound states : closed_states env sigma states = true ->
    forall x q, within x -> (exists p, In p states /\ incl q p /\ incl p q) ->
    steps q x = [] \/ exists p, In p states /\ incl (steps q x) p /\ incl p (steps q x).
  Proof.
    intro Hc. induction x as [|c x IH]; intros q Hx Hq; [right; exact Hq|].
    change (steps q (c :: x)) with (steps (step q c) x).
    assert (Hx' : within x) by (intros e He; apply Hx; now right).
    destruct Hq as (p & Hp & H1 & H2).
    unfold closed_states in Hc. rewrite forallb_forall in Hc. pose proof (Hc p Hp) as K.
    rewrite forallb_forall in K. specialize (K c (Hx c (or_introl eq_refl))).
    destruct (step p c) as [|m ms] eqn:E.
    - left. assert (Z : step q c = []).
      { pose proof (step_mono q p c H1) as Z. rewrite E in Z.
        destruct (step q c) as [|z zs]; [reflexivity|]. destruct (Z z (or_introl eq_refl)). }
      rewrite Z. clear. induction x as [|c x IH]; [reflexivity|exact IH].
    - apply has_state_In in K as (p' & Hp' & K1 & K2). apply IH; [exact Hx'|].
      exists p'. split; [exact Hp'|]. split.
      + intros z Hz. apply K1. rewrite <- E. exact (step_mono q p c H1 z Hz).
      + intros z Hz. apply (step_mono p q c H2). rewrite E. exact (K2 z Hz).
  Qed.

  Lemma has_pair_In p q l : has_pair p q l = true ->
    exists p' q', In (p', q') l /\ incl p p' /\ incl q' q.
  Proof.
    induction l as [|[p' q'] l IH]; simpl; [discriminate|]. intro H.
    destruct (inside p p') eqn:E1; [destruct (inside q' q) eqn:E2|].
    - exists p', q'. split; [now left|]. split; now apply inside_incl.
    - destruct (IH H) as (a & b & K1 & K2). exists a, b. split; [now right|exact K2].
    - destruct (IH H) as (a & b & K1 & K2). exists a, b. split; [now right|exact K2].
  Qed.

  Lemma below_cases l p q : below l p q = true ->
    incl p q \/ exists p' q', In (p', q') l /\ incl p p' /\ incl q' q.
  Proof.
    unfold below. destruct (inside p q) eqn:E; intro H.
    - left. now apply inside_incl.
    - right. now apply has_pair_In.
  Qed.

  Lemma pairs_sound l : closed_pairs env sigma l = true ->
    forall s p q, within s -> below l p q = true -> smatch p s -> smatch q s.
  Proof.
    intro Hc.
    assert (G : forall s p q, within s ->
      (incl p q \/ exists p' q', In (p', q') l /\ incl p p' /\ incl q' q) -> smatch p s -> smatch q s).
    { unfold closed_pairs in Hc. rewrite forallb_forall in Hc.
      induction s as [|c s IH]; intros p q Hs [H|(p' & q' & Hl & H1 & H2)] Hm;
        try (eapply smatch_mono; eassumption).
      - specialize (Hc _ Hl). cbn [fst snd] in Hc. apply (smatch_mono _ _ _ H1) in Hm.
        apply may_end_spec in Hm. rewrite Hm in Hc. destruct (may_end env q') eqn:E; [|discriminate].
        apply (smatch_mono q'); [exact H2|]. now apply may_end_spec.
      - specialize (Hc _ Hl). cbn [fst snd] in Hc.
        destruct (if may_end env p' then may_end env q' else true); [|discriminate].
        rewrite forallb_forall in Hc. specialize (Hc c (Hs c (or_introl eq_refl))).
        apply (smatch_mono _ _ _ H1) in Hm. apply step_spec in Hm.
        apply (smatch_mono q'); [exact H2|]. apply step_spec.
        destruct (step p' c) as [|m ms] eqn:E; [destruct Hm as (z & [] & _)|].
        apply (IH (m :: ms)); [intros e He; apply Hs; now right| |exact Hm].
        now apply below_cases. }
    intros s p q Hs Hb. apply G; [exact Hs|]. now apply below_cases.
  Qed.

  Lemma wanted_In states rs q l r : In q states -> In (l, r) rs ->
    inside (steps q l) (steps q r) = true \/ steps q l = [] \/
    In (steps q l, steps q r) (wanted env states rs).
  Proof.
    intros Hq Hr. unfold wanted.
    destruct (steps q l) as [|m ms] eqn:E; [auto|].
    destruct (inside (m :: ms) (steps q r)) eqn:Ei; [auto|]. right. right.
    apply in_flat_map. exists q. split; [exact Hq|]. apply in_flat_map. exists (l, r).
    split; [exact Hr|]. cbn [fst snd]. rewrite E, Ei. now left.
  Qed.
End Env.

Lemma keeps_sound r sigma rs : keeps r sigma rs = true ->
  forall x y l l', In (l, l') rs -> within sigma x -> within sigma y ->
  matches r (x ++ l ++ y) -> matches r (x ++ l' ++ y).
Proof.
  unfold keeps. destruct (number r []) as [n env].
  destruct (re_same (den env n) r) eqn:E1; [|discriminate]. apply re_same_eq in E1.
  generalize (reach env sigma 200 [[n]] []). intros states.
  destruct (has_state [n] states) eqn:E2; [|discriminate].
  destruct (closed_states env sigma states) eqn:E3; [|discriminate].
  generalize (explore env sigma 2000 (wanted env states rs) []). intros ps.
  destruct (closed_pairs env sigma ps) eqn:E4; [|discriminate].
  intros E5 x y l l' Hr Hx Hy Hm. rewrite forallb_forall in E5.
  assert (K : forall s, smatch env [n] s <-> matches r s).
  { intro s. rewrite <- E1. split.
    - intros (m & [<-|[]] & H). exact H.
    - intro H. exists n. split; [now left|exact H]. }
  apply K. apply K in Hm.
  apply (proj2 (steps_spec env x [n] (l ++ y))) in Hm.
  apply (proj2 (steps_spec env l (steps env [n] x) y)) in Hm.
  apply (proj1 (steps_spec env x [n] (l' ++ y))).
  apply (proj1 (steps_spec env l' (steps env [n] x) y)).
  apply has_state_In in E2.
  destruct (states_sound env sigma states E3 x [n] Hx E2) as [Z|(q & Hq & Q1 & Q2)].
  - exfalso. apply (proj1 (steps_spec env l (steps env [n] x) y)) in Hm. rewrite Z in Hm. destruct Hm as (z & [] & _).
  - apply (smatch_mono env _ _ _ (steps_mono env l _ _ Q1)) in Hm.
    apply (smatch_mono env _ _ _ (steps_mono env l' _ _ Q2)).
    destruct (wanted_In env states rs q l l' Hq Hr) as [W|[W|W]].
    + apply (smatch_mono env (steps env q l)); [now apply inside_incl|exact Hm].
    + rewrite W in Hm. destruct Hm as (z & [] & _).
    + exact (pairs_sound env sigma ps E4 y _ _ Hy (E5 _ W) Hm).
Qed.

Lemma mem_str_In s l : mem_str s l = true -> In s l.
Proof.
  induction l as [|t l IH]; simpl; [discriminate|]. destruct (str_same s t) eqn:E; [|auto].
  apply str_same_eq in E. auto.
Qed.
Lemma strs_below_incl a b : strs_below a b = true -> incl a b.
Proof.
  induction a as [|s a IH]; simpl; intros H; [intros x []|].
  destruct (mem_str s b) eqn:E; [|discriminate]. apply mem_str_In in E.
  intros x [<-|Hx]; [exact E|exact (IH H x Hx)].
Qed.
Lemma re_below_sound a : forall b, re_below a b = true -> forall s, matches a s -> matches b s.
Proof.
  induction a as [l|a1 IH1 a2 IH2|a1 IH1 a2 IH2|a1 IH1|a1 IH1]; intros [l'|b1 b2|b1 b2|b1|b1] H s Hs;
    simpl in H; try discriminate.
  - apply strs_inv in Hs. apply strs_inv. exact (strs_below_incl _ _ H s Hs).
  - destruct (re_below a1 b1) eqn:E; [|discriminate]. apply cat_inv in Hs as (x & y & -> & H1 & H2).
    apply m_cat; [exact (IH1 _ E _ H1)|exact (IH2 _ H _ H2)].
  - destruct (re_below a1 b1) eqn:E; [|discriminate]. apply alt_inv in Hs as [Hs|Hs].
    + apply m_alt_l. exact (IH1 _ E _ Hs).
    + apply m_alt_r. exact (IH2 _ H _ Hs).
  - apply ques_inv in Hs as [->|Hs]; [apply m_ques_none|]. apply m_ques_some. exact (IH1 _ H _ Hs).
  - apply star_inv in Hs as (l & Hl & ->). apply star_inv. exists l. split; [|reflexivity].
    revert Hl. apply Forall_impl. exact (IH1 _ H).
Qed.

Lemma lacks_app z x y : lacks z (x ++ y) = true -> lacks z x = true /\ lacks z y = true.
Proof. unfold lacks. rewrite forallb_app. apply andb_true_iff. Qed.
Lemma lacking_sound z r : forall s, matches r s -> lacks z s = true -> matches (lacking z r) s.
Proof.
  induction r as [l|a IHa b IHb|a IHa b IHb|a IHa|a IHa]; intros s Hs Hz; cbn [lacking].
  - apply strs_inv in Hs. apply strs_inv. apply filter_In. auto.
  - apply cat_inv in Hs as (x & y & -> & H1 & H2). apply lacks_app in Hz as [Z1 Z2].
    apply m_cat; auto.
  - apply alt_inv in Hs as [Hs|Hs]; [apply m_alt_l|apply m_alt_r]; auto.
  - apply ques_inv in Hs as [->|Hs]; [apply m_ques_none|]. apply m_ques_some. auto.
  - apply star_inv in Hs as (l & Hl & ->). apply star_inv. exists l. split; [|reflexivity].
    revert Hz. induction Hl as [|x l Hx Hl IH]; intro Hz; constructor.
    + apply IHa; [exact Hx|]. simpl in Hz. exact (proj1 (lacks_app _ _ _ Hz)).
    + apply IH. simpl in Hz. exact (proj2 (lacks_app _ _ _ Hz)).
Qed.
