(** The checker of pieces is right. *)
From Verif Require Import Base RuleModel RegexModel AlignModel AlignSpec AlignProofs NatModel NatSpec NatProofs NatBytes NatBlocks.

Lemma tnull_deriv t r : tnull r = true -> tderiv t r = TWords [] /\ tnullable r = false.
Proof. destruct r as [[|w l]| | | | | |]; cbn; try discriminate. auto. Qed.
Lemma null_starts s : tstarts (TWords []) s = false.
Proof. induction s as [|t s IH]; cbn; [reflexivity|exact IH]. Qed.
Lemma null_accepts s : taccepts (TWords []) s = false.
Proof. induction s as [|t s IH]; cbn; [reflexivity|exact IH]. Qed.
Lemma tnull_starts r s : tnull r = true -> tstarts r s = false.
Proof. intros H. destruct r as [[|w l]| | | | | |]; try discriminate H. apply null_starts. Qed.
Lemma tnull_accepts r s : tnull r = true -> taccepts r s = false.
Proof. intros H. destruct r as [[|w l]| | | | | |]; try discriminate H. apply null_accepts. Qed.
Lemma maybe_ok c k u : tctx_ok c (k ++ u) = true -> maybe c k = true.
Proof.
  destruct c as [[edge r]|]; [|reflexivity]. unfold tctx_ok, maybe. revert r. induction k as [|t k IH]; intros r H; cbn [maybe_re].
  - destruct (tnull r) eqn:E; [|reflexivity]. destruct edge; [rewrite tnull_accepts in H by exact E|rewrite tnull_starts in H by exact E]; discriminate H.
  - destruct (tnull r) eqn:E; [destruct edge; [rewrite tnull_accepts in H by exact E|rewrite tnull_starts in H by exact E]; discriminate H|]. destruct edge; cbn [app taccepts tstarts] in H; [apply IH; exact H|]. destruct (tnullable r); [reflexivity|apply IH; exact H].
Qed.
Lemma sure_ok c k u : sure c k = true -> tctx_ok c (k ++ u) = true.
Proof.
  destruct c as [[[|] r]|]; [discriminate| |reflexivity]. unfold sure, tctx_ok. revert r. induction k as [|t k IH]; intros r H; cbn [sure_re app] in *.
  - destruct (tnullable r) eqn:E; [|discriminate H]. destruct u; cbn; rewrite E; reflexivity.
  - cbn [tstarts]. destruct (tnullable r); [reflexivity|apply IH; exact H].
Qed.
Lemma maybe_before p cur d : preceded p (d ++ rev cur) -> maybe (skip_before p) cur = true.
Proof. intros H. apply preceded_ok in H. rewrite rev_app_distr, rev_involutive in H. exact (maybe_ok _ _ _ H). Qed.
Lemma sure_before p cur d : sure (skip_before p) cur = true -> preceded p (d ++ rev cur).
Proof. intros H. apply preceded_ok. rewrite rev_app_distr, rev_involutive. exact (sure_ok _ _ _ H). Qed.
Lemma maybe_after f w u : followed f (w ++ u) -> maybe (skip_after f) w = true.
Proof. intros H. apply followed_ok in H. exact (maybe_ok _ _ _ H). Qed.
Lemma sure_after f w u : sure (skip_after f) w = true -> followed f (w ++ u).
Proof. intros H. apply followed_ok. exact (sure_ok _ _ _ H). Qed.

Lemma fit_inside l w u : fit_of l w = Inside u <-> w = l ++ u.
Proof.
  revert w. induction l as [|a l IH]; intros w; cbn [fit_of]; [split; [intros [= ->]; reflexivity|intros ->; reflexivity]|]. destruct w as [|b w]; [split; discriminate|].
  destruct (tok_eqb a b) eqn:E.
  - apply tok_eqb_spec in E as ->. rewrite IH. split; [intros ->; reflexivity|intros [= ->]; reflexivity].
  - split; [discriminate|]. intros [= -> _]. pose proof (proj2 (tok_eqb_spec a a) eq_refl). congruence.
Qed.
Lemma fit_beyond l w k : fit_of l w = Beyond k <-> l = w ++ k /\ k <> [].
Proof.
  revert w. induction l as [|a l IH]; intros w; cbn [fit_of]; [split; [discriminate|intros [E N]; symmetry in E; apply app_eq_nil in E as [_ ->]; congruence]|].
  destruct w as [|b w]; [split; [intros [= <-]; split; [reflexivity|discriminate]|intros [E N]; cbn in E; rewrite <- E; reflexivity]|].
  destruct (tok_eqb a b) eqn:E.
  - apply tok_eqb_spec in E as ->. rewrite IH. cbn. split; [intros [-> N]; auto|intros [[= ->] N]; auto].
  - split; [discriminate|]. intros [[= -> _] _]. pose proof (proj2 (tok_eqb_spec b b) eq_refl). congruence.
Qed.
Lemma fit_common l w x y : l ++ x = w ++ y -> fit_of l w <> Unfit.
Proof.
  revert w. induction l as [|a l IH]; intros w E; cbn [fit_of]; [discriminate|]. destruct w as [|b w]; [discriminate|]. injection E as -> E. rewrite (proj2 (tok_eqb_spec b b) eq_refl). exact (IH w E).
Qed.

Lemma join_some {A} (l : list (option (list A))) r : join l = Some r <-> Forall (fun o => o <> None) l /\ r = flat_map (fun o => match o with Some x => x | None => [] end) l.
Proof.
  revert r. induction l as [|[x|] l IH]; intros r; cbn [join].
  - split; [intros [= <-]; auto|intros [_ ->]; reflexivity].
  - destruct (join l) as [y|]; [destruct (proj1 (IH y) eq_refl) as [F ->]; split; [intros [= <-]; split; [constructor; [discriminate|exact F]|reflexivity]|intros [_ ->]; reflexivity]|].
    split; [discriminate|]. intros [F _]. inversion F as [|? ? _ F']; subst. destruct (IH (flat_map (fun o => match o with Some x => x | None => [] end) l)) as [_ K]. discriminate (K (conj F' eq_refl)).
  - split; [discriminate|]. intros [F _]. inversion F as [|? ? F' _]; subst. destruct (F' eq_refl).
Qed.
Lemma join_in {A} (l : list (option (list A))) r o : join l = Some r -> In o l -> exists x, o = Some x /\ incl x r.
Proof.
  intros H I. apply join_some in H as [F ->]. destruct o as [x|]; [|destruct (proj1 (Forall_forall _ _) F _ I eq_refl)]. exists x. split; [reflexivity|]. intros y J. apply in_flat_map. exists (Some x). auto.
Qed.

Lemma rewriting_inv rs p f done ts out : rewriting rs p f done ts out ->
  (ts = [] /\ out = []) \/
  (exists l r rest o, In (l, r) rs /\ preceded p done /\ followed f rest /\ ts = l ++ rest /\ out = r ++ o /\ rewriting rs p f (done ++ r) rest o) \/
  (exists t rest o, (forall l r u, In (l, r) rs -> t :: rest = l ++ u -> followed f u -> ~ preceded p done) /\ ts = t :: rest /\ out = t :: o /\ rewriting rs p f (done ++ [t]) rest o).
Proof. destruct 1 as [|done l r rest out I P F R|done t rest out N R]; [left; auto|right; left; exists l, r, rest, out; auto 10|right; right; exists t, rest, out; auto]. Qed.
Lemma rewriting_nil rs p f done out : Forall (fun q : word * word => fst q <> []) rs -> rewriting rs p f done [] out -> out = [].
Proof.
  intros Ne R. apply rewriting_inv in R as [[_ E]|[(l & r & rest & o & I & _ & _ & E & _)|(t & rest & o & _ & E & _)]]; [exact E| |discriminate E]. symmetry in E. apply app_eq_nil in E as [E _]. destruct (proj1 (Forall_forall _ _) Ne _ I E).
Qed.

Section Explore.
Variables (det : bool) (rs : list (word * word)) (p f : tctx) (B B' : list word).
Hypothesis nonempty : Forall (fun q : word * word => fst q <> []) rs.
Hypothesis posted : forall b, In b B -> exists r, explore det rs (skip_before p) (skip_after f) B FUEL [] b = Some r /\ incl r B'.

Lemma nexts_in w b bs l k rest : In (l, k) rs -> In b B -> fit_of l w = Beyond rest -> forall x, rest ++ x = b ++ bs -> In b (nexts rs B w).
Proof.
  intros I Ib Fi x E. unfold nexts. assert (J : In rest (beyond rs w)) by (apply in_flat_map; exists (l, k); split; [exact I|cbn [fst]; rewrite Fi; left; reflexivity]).
  destruct (beyond rs w) as [|l0 ls] eqn:El; [destruct J|]. rewrite <- El in J |- *. apply filter_In. split; [exact Ib|]. apply existsb_exists. exists rest. split; [exact J|]. pose proof (fit_common rest b x bs E). destruct (fit_of rest b); congruence.
Qed.
(** What may come next, and what then is the text *)
Lemma where_fits l r w bs rest : In (l, r) rs -> Forall (fun b => In b B) bs -> w ++ concat bs = l ++ rest ->
  (exists u, w = l ++ u /\ rest = u ++ concat bs) \/ (exists b bs', bs = b :: bs' /\ In b (nexts rs B w)).
Proof.
  intros I Hb E. destruct (fit_of l w) as [u|k|] eqn:Fi.
  - left. apply fit_inside in Fi as ->. exists u. split; [reflexivity|]. rewrite <- app_assoc in E. apply app_inv_head in E. symmetry. exact E.
  - right. pose proof Fi as Fi'. apply fit_beyond in Fi' as [El Nk]. rewrite El, <- app_assoc in E. apply app_inv_head in E. destruct bs as [|b bs]; [symmetry in E; cbn in E; apply app_eq_nil in E as [E _]; congruence|].
    exists b, bs. split; [reflexivity|]. cbn [concat] in E. inversion Hb; subst. eapply nexts_in; [exact I|assumption|exact Fi|symmetry; exact E].
  - exfalso. exact (fit_common l w rest (concat bs) (eq_sym E) Fi).
Qed.
Lemma explore_sound n : forall bs, length bs <= n -> Forall (fun b => In b B) bs -> forall fuel cur w res, explore det rs (skip_before p) (skip_after f) B fuel cur w = Some res ->
  forall d out, rewriting rs p f (d ++ rev cur) (w ++ concat bs) out -> exists x bs', rev cur ++ out = x ++ concat bs' /\ In x res /\ Forall (fun b => In b B') bs'.
Proof.
  induction n as [n IHn] using lt_wf_ind. intros bs Hn Hb. induction fuel as [|k IHk]; intros cur w res E d out R; [discriminate E|]. cbn [explore] in E. destruct w as [|t w].
  - injection E as <-. cbn [app] in R. destruct bs as [|b bs].
    + exists (rev cur), []. cbn. rewrite !app_nil_r. cbn in R. rewrite (rewriting_nil _ _ _ _ _ nonempty R), app_nil_r. split; [reflexivity|split; [left; reflexivity|constructor]].
    + inversion Hb as [|? ? Ib Hbs]; subst. destruct (posted b Ib) as (r & Er & Ir). cbn [length] in Hn. assert (Lt : length bs < n) by lia. cbn [concat] in R.
      rewrite <- (app_nil_r (d ++ rev cur)) in R. destruct (IHn (length bs) Lt bs (le_n _) Hbs FUEL [] b r Er (d ++ rev cur) out R) as (x & bs' & Eo & Ix & Hbs'). cbn [rev app] in Eo.
      exists (rev cur), (x :: bs'). split; [rewrite Eo; reflexivity|split; [left; reflexivity|constructor; [apply Ir; exact Ix|exact Hbs']]].
  - assert (Copy : forall r, explore det rs (skip_before p) (skip_after f) B k (t :: cur) w = Some r -> forall o, rewriting rs p f ((d ++ rev cur) ++ [t]) (w ++ concat bs) o -> out = t :: o ->
      exists x bs', rev cur ++ out = x ++ concat bs' /\ In x r /\ Forall (fun b => In b B') bs').
    { intros r Er o Ro ->. rewrite <- app_assoc in Ro. destruct (IHk (t :: cur) w r Er d o Ro) as (x & bs' & Eo & Ix & Hx). cbn [rev] in Eo. rewrite <- app_assoc in Eo. eauto. }
    destruct (maybe (skip_before p) cur) eqn:Mp.
    2:{ cbn [app] in R. apply rewriting_inv in R as [[Ez _]|[(l & r & rest & o & I & P & _)|(t' & rest & o & N & Ez & Eo & R)]]; [discriminate Ez|apply maybe_before in P; congruence|injection Ez as <- <-; eapply Copy; [exact E|exact R|exact Eo]]. }
    match type of E with (if ?c then _ else _) = _ => destruct c; [discriminate E|] end.
    match type of E with join [?a; ?b; ?c] = _ => pose proof (join_in _ _ a E (or_introl eq_refl)) as (ra & Ea & Ia); pose proof (join_in _ _ b E (or_intror (or_introl eq_refl))) as (rb & Eb & Ib); pose proof (join_in _ _ c E (or_intror (or_intror (or_introl eq_refl)))) as (rc & Ec & Ic) end.
    assert (Dec : (exists b bs', bs = b :: bs' /\ In b (nexts rs B (t :: w))) \/ ~ (exists b bs', bs = b :: bs' /\ In b (nexts rs B (t :: w)))).
    { destruct bs as [|b bs']; [right; intros (? & ? & ? & _); discriminate|]. destruct (in_dec (list_eq_dec (fun x y : tok => match tok_eqb x y as z return tok_eqb x y = z -> {x = y} + {x <> y} with true => fun e => left (proj1 (tok_eqb_spec x y) e) | false => fun e => right (fun h => eq_ind true (fun z => if z then True else False) I false (eq_trans (eq_sym (proj2 (tok_eqb_spec x y) h)) e)) end eq_refl)) b (nexts rs B (t :: w))) as [Y|N]; [left; eauto|].
      right. intros (? & ? & [= <- <-] & Y). exact (N Y). }
    destruct Dec as [(b & bs1 & -> & Inx)|Nnx].
    + destruct (join_in _ _ _ Ec (in_map (fun b => explore det rs (skip_before p) (skip_after f) B k cur ((t :: w) ++ b)) _ _ Inx)) as (r2 & E2 & I2). inversion Hb; subst. cbn [length] in Hn. assert (Lt : length bs1 < n) by lia.
      cbn [concat] in R. rewrite app_assoc in R. destruct (IHn (length bs1) Lt bs1 (le_n _) ltac:(assumption) k cur ((t :: w) ++ b) r2 E2 d out R) as (x & bs' & Eo & Ix & Hx). exists x, bs'. split; [exact Eo|split; [apply Ic, I2, Ix|exact Hx]].
    + apply rewriting_inv in R as [[Ez _]|[(l & r & rest & o & I & P & F & Ez & Eout & R)|(t' & rest & o & N & Ez & Eout & R)]]; [discriminate Ez| |]; rewrite Eout in *; clear Eout out; rename o into out.
      * destruct (where_fits l r (t :: w) bs rest I Hb Ez) as [(u & Eu & ->)|Y]; [|destruct (Nnx Y)]. pose proof (maybe_after f u (concat bs) F) as Mf.
        assert (Ica : In (r, u) (candidates rs (skip_after f) (t :: w))) by (apply in_flat_map; exists (l, r); split; [exact I|cbn [fst snd]; rewrite (proj2 (fit_inside l (t :: w) u) Eu), Mf; left; reflexivity]).
        destruct (join_in _ _ _ Ea (in_map (fun q : word * word => explore det rs (skip_before p) (skip_after f) B k (rev (fst q) ++ cur) (snd q)) _ _ Ica)) as (r2 & E2 & I2). cbn [fst snd] in E2.
        destruct (IHk (rev r ++ cur) u r2 E2 d out) as (x & bs' & Eo & Ix & Hx); [rewrite rev_app_distr, rev_involutive, app_assoc; exact R|]. rewrite rev_app_distr, rev_involutive, <- app_assoc in Eo. exists x, bs'. split; [exact Eo|split; [apply Ia, I2, Ix|exact Hx]].
      * cbn [app] in Ez. injection Ez as <- <-. destruct (if certain rs (skip_after f) (t :: w) then sure (skip_before p) cur else false) eqn:Ce.
        -- exfalso. destruct (certain rs (skip_after f) (t :: w)) eqn:Ce1; [|discriminate Ce]. apply existsb_exists in Ce1 as ([l r] & I & Su). cbn [fst] in Su. destruct (fit_of l (t :: w)) as [u| |] eqn:Fi; try discriminate Su. apply fit_inside in Fi.
           apply (N l r (u ++ concat bs) I); [rewrite app_comm_cons, Fi, app_assoc; reflexivity|apply sure_after; exact Su|apply sure_before; exact Ce].
        -- destruct (Copy rb Eb out R eq_refl) as (x & bs' & Eo & Ix & Hx). exists x, bs'. split; [exact Eo|split; [apply Ib; exact Ix|exact Hx]].
Qed.
Lemma explore_unique n : det = true -> forall bs, length bs <= n -> Forall (fun b => In b B) bs -> forall fuel cur w res, explore det rs (skip_before p) (skip_after f) B fuel cur w = Some res ->
  forall d o1 o2, rewriting rs p f (d ++ rev cur) (w ++ concat bs) o1 -> rewriting rs p f (d ++ rev cur) (w ++ concat bs) o2 -> o1 = o2.
Proof.
  intros Hd. induction n as [n IHn] using lt_wf_ind. intros bs Hn Hb. induction fuel as [|k IHk]; intros cur w res E d o1 o2 R1 R2; [discriminate E|]. cbn [explore] in E. destruct w as [|t w].
  - injection E as <-. cbn [app] in R1, R2. destruct bs as [|b bs].
    + assert (Nil : forall o, rewriting rs p f (d ++ rev cur) [] o -> o = []).
      { intros o R. exact (rewriting_nil _ _ _ _ _ nonempty R). }
      rewrite (Nil o1 R1), (Nil o2 R2). reflexivity.
    + inversion Hb as [|? ? Ib Hbs]; subst. destruct (posted b Ib) as (r & Er & Ir). cbn [length] in Hn. assert (Lt : length bs < n) by lia. cbn [concat] in R1, R2.
      rewrite <- (app_nil_r (d ++ rev cur)) in R1, R2. exact (IHn (length bs) Lt bs (le_n _) Hbs FUEL [] b r Er (d ++ rev cur) o1 o2 R1 R2).
  - assert (Copy : forall r, explore det rs (skip_before p) (skip_after f) B k (t :: cur) w = Some r -> forall a b, rewriting rs p f ((d ++ rev cur) ++ [t]) (w ++ concat bs) a -> rewriting rs p f ((d ++ rev cur) ++ [t]) (w ++ concat bs) b -> a = b).
    { intros r Er a b Ra Rb. rewrite <- app_assoc in Ra, Rb. exact (IHk (t :: cur) w r Er d a b Ra Rb). }
    destruct (maybe (skip_before p) cur) eqn:Mp.
    2:{ assert (Only : forall o, rewriting rs p f (d ++ rev cur) ((t :: w) ++ concat bs) o -> exists o', o = t :: o' /\ rewriting rs p f ((d ++ rev cur) ++ [t]) (w ++ concat bs) o').
        { intros o R. cbn [app] in R. apply rewriting_inv in R as [[Ez _]|[(l & r & rest & o' & I & P & _)|(t' & rest & o' & N & Ez & Eo & R)]]; [discriminate Ez|apply maybe_before in P; congruence|injection Ez as <- <-; eauto]. }
        destruct (Only o1 R1) as (a & -> & Ra). destruct (Only o2 R2) as (b & -> & Rb). f_equal. exact (Copy _ E a b Ra Rb). }
    match type of E with (if ?c then _ else _) = _ => destruct c eqn:Cs; [discriminate E|] end. rewrite Hd in Cs.
    match type of E with join [?a; ?b; ?c] = _ => pose proof (join_in _ _ a E (or_introl eq_refl)) as (ra & Ea & Ia); pose proof (join_in _ _ b E (or_intror (or_introl eq_refl))) as (rb & Eb & Ib); pose proof (join_in _ _ c E (or_intror (or_intror (or_introl eq_refl)))) as (rc & Ec & Ic) end.
    assert (Dec : (exists b bs', bs = b :: bs' /\ In b (nexts rs B (t :: w))) \/ ~ (exists b bs', bs = b :: bs' /\ In b (nexts rs B (t :: w)))).
    { destruct bs as [|b bs']; [right; intros (? & ? & ? & _); discriminate|]. destruct (in_dec (list_eq_dec (fun x y : tok => match tok_eqb x y as z return tok_eqb x y = z -> {x = y} + {x <> y} with true => fun e => left (proj1 (tok_eqb_spec x y) e) | false => fun e => right (fun h => eq_ind true (fun z => if z then True else False) I false (eq_trans (eq_sym (proj2 (tok_eqb_spec x y) h)) e)) end eq_refl)) b (nexts rs B (t :: w))) as [Y|N]; [left; eauto|].
      right. intros (? & ? & [= <- <-] & Y). exact (N Y). }
    destruct Dec as [(b & bs1 & -> & Inx)|Nnx].
    + destruct (join_in _ _ _ Ec (in_map (fun b => explore det rs (skip_before p) (skip_after f) B k cur ((t :: w) ++ b)) _ _ Inx)) as (r2 & E2 & I2). inversion Hb; subst. cbn [length] in Hn. assert (Lt : length bs1 < n) by lia.
      cbn [concat] in R1, R2. rewrite app_assoc in R1, R2. exact (IHn (length bs1) Lt bs1 (le_n _) ltac:(assumption) k cur ((t :: w) ++ b) r2 E2 d o1 o2 R1 R2).
    + assert (Two : forall o, rewriting rs p f (d ++ rev cur) ((t :: w) ++ concat bs) o ->
        (exists r u o', In (r, u) (candidates rs (skip_after f) (t :: w)) /\ o = r ++ o' /\ rewriting rs p f (d ++ rev (rev r ++ cur)) (u ++ concat bs) o' /\ ~ (forall l r u, In (l, r) rs -> (t :: w) ++ concat bs = l ++ u -> followed f u -> ~ preceded p (d ++ rev cur))) \/
        (exists o', o = t :: o' /\ rewriting rs p f ((d ++ rev cur) ++ [t]) (w ++ concat bs) o' /\ (forall l r u, In (l, r) rs -> (t :: w) ++ concat bs = l ++ u -> followed f u -> ~ preceded p (d ++ rev cur)) /\ (if certain rs (skip_after f) (t :: w) then sure (skip_before p) cur else false) = false)).
      { intros o R. apply rewriting_inv in R as [[Ez _]|[(l & r & rest & out & I & P & F & Ez & Eout & R)|(t' & rest & out & N & Ez & Eout & R)]]; [discriminate Ez| |]; rewrite Eout in *; clear Eout o.
        - left. destruct (where_fits l r (t :: w) bs rest I Hb Ez) as [(u & Eu & ->)|Y]; [|destruct (Nnx Y)]. pose proof (maybe_after f u (concat bs) F) as Mf.
          exists r, u, out. split; [apply in_flat_map; exists (l, r); split; [exact I|cbn [fst snd]; rewrite (proj2 (fit_inside l (t :: w) u) Eu), Mf; left; reflexivity]|]. split; [reflexivity|]. split; [rewrite rev_app_distr, rev_involutive, app_assoc; exact R|].
          intros N. exact (N l r (u ++ concat bs) I Ez F P).
        - right. cbn [app] in Ez. injection Ez as <- <-. exists out. split; [reflexivity|split; [exact R|split; [exact N|]]]. destruct (certain rs (skip_after f) (t :: w)) eqn:Ce1; [|reflexivity]. apply not_true_is_false. intros Su2. apply existsb_exists in Ce1 as ([l r] & I & Su). cbn [fst] in Su. destruct (fit_of l (t :: w)) as [u| |] eqn:Fi; try discriminate Su. apply fit_inside in Fi.
          apply (N l r (u ++ concat bs) I); [rewrite app_comm_cons, Fi, app_assoc; reflexivity|apply sure_after; exact Su|apply sure_before; exact Su2]. }
      destruct (Two o1 R1) as [(r1 & u1 & a & I1 & -> & Ra & N1)|(a & -> & Ra & N1 & C1)]; destruct (Two o2 R2) as [(r2 & u2 & b & I2 & -> & Rb & N2)|(b & -> & Rb & N2 & C2)]; try (exfalso; tauto).
      * destruct (candidates rs (skip_after f) (t :: w)) as [|c [|? ?]] eqn:Ecs; [destruct I1| |discriminate Cs]. destruct I1 as [->|[]]. destruct I2 as [[= <- <-]|[]].
        destruct (join_in _ _ _ Ea (or_introl eq_refl)) as (r3 & E3 & _). cbn [fst snd] in E3. f_equal. exact (IHk (rev r1 ++ cur) u1 r3 E3 d a b Ra Rb).
      * rewrite C1 in Eb. f_equal. exact (Copy rb Eb a b Ra Rb).
Qed.
End Explore.

Lemma word_eqb_refl w : word_eqb w w = true.
Proof. apply word_eqb_spec. reflexivity. Qed.
Lemma word_in_spec w l : word_in w l = true <-> In w l.
Proof. unfold word_in. rewrite existsb_exists. split; [intros (x & I & E); apply word_eqb_spec in E as ->; exact I|intros I; exists w; split; [exact I|apply word_eqb_refl]]. Qed.
Lemma collect_in l : forall acc w, In w l \/ In w acc -> In w (collect l acc).
Proof.
  induction l as [|x l IH]; intros acc w H; cbn [collect]; [destruct H as [[]|H]; exact H|]. apply IH. destruct H as [[->|H]|H]; [|left; exact H|].
  - right. destruct (word_in w acc) eqn:E; [apply word_in_spec; exact E|left; reflexivity].
  - right. destruct (word_in x acc); [exact H|right; exact H].
Qed.
Definition made_of (B : list word) (ts : word) : Prop := exists bs, ts = concat bs /\ Forall (fun b => In b B) bs.
Lemma post_rewrite det rs p f B B' : post det (Rewrite rs p f) B = Some B' ->
  forall b, In b B -> exists r, explore det rs (skip_before p) (skip_after f) B FUEL [] b = Some r /\ incl r B'.
Proof.
  cbn [post]. intros H b I. match type of H with match ?j with _ => _ end = _ => destruct j as [l|] eqn:J; [|discriminate H] end. injection H as <-.
  destruct (join_in _ _ _ J (in_map _ _ _ I)) as (x & Ex & Ix). destruct (explore det rs (skip_before p) (skip_after f) B FUEL [] b) as [r|] eqn:Er; [|discriminate Ex]. injection Ex as <-. exists r. split; [reflexivity|].
  assert (Il : In (b, r) l) by (apply Ix; left; reflexivity). intros w Iw. apply collect_in. destruct (word_eqb w b) eqn:E.
  - right. apply word_eqb_spec in E as ->. apply in_flat_map. exists (b, r). split; [exact Il|]. cbn [fst snd]. rewrite (proj2 (word_in_spec b r) Iw). left. reflexivity.
  - left. apply in_flat_map. exists (b, r). split; [exact Il|]. apply filter_In. cbn [fst snd]. rewrite E. auto.
Qed.
Lemma splits_in v : forall u a c, v = a ++ c -> c <> [] -> In (rev a ++ u, c) (splits u v).
Proof.
  induction v as [|t v IH]; intros u a c E N; [symmetry in E; apply app_eq_nil in E as [_ ->]; congruence|]. cbn [splits]. destruct a as [|x a]; cbn in E; [left; rewrite <- E; reflexivity|]. injection E as <- E. right. cbn [rev]. rewrite <- app_assoc. exact (IH (t :: u) a c E N).
Qed.
Section InsertBlocks.
Variables (new : word) (p f : tctx) (B : list word).
Hypothesis whole : forall b a c, In b B -> b = a ++ c -> a <> [] -> c <> [] -> maybe (skip_before p) (rev a) = true -> maybe (skip_after f) c = false.
Lemma insert_blocks n : forall bs, length bs <= n -> Forall (fun b => In b B) bs -> forall d out, inserting new p f d (concat bs) out -> made_of (new :: B) out.
Proof.
  induction n as [|n IH]; intros bs Hn Hb d out H.
  - destruct bs; [|cbn in Hn; lia]. cbn in H. remember ([] : word) as z eqn:Ez in H. destruct H; try discriminate Ez; [exists [new]; cbn; rewrite app_nil_r; split; [reflexivity|repeat constructor]|exists []; split; [reflexivity|constructor]].
  - destruct bs as [|b bs]; [apply (IH [] ltac:(cbn; lia) Hb d out H)|]. inversion Hb as [|? ? Ib Hbs]; subst.
    assert (Rest : forall c a o d', b = a ++ c -> a <> [] -> inserting new p f (d' ++ a) (c ++ concat bs) o -> exists o', o = c ++ o' /\ made_of (new :: B) o').
    { clear d out H. induction c as [|t c IHc]; intros a o d' E N H.
      - cbn [app] in H. exists o. split; [reflexivity|]. apply (IH bs ltac:(cbn in Hn; lia) Hbs _ _ H).
      - cbn [app] in H. remember (t :: c ++ concat bs) as z eqn:Ez in H. remember (d' ++ a) as y eqn:Ey in H. destruct H as [| |done t' rest o P F H|done t' rest o N' H]; try discriminate Ez; injection Ez as -> ->; subst done.
        + exfalso. assert (M1 : maybe (skip_before p) (rev a) = true) by (apply (maybe_before p (rev a) d'); rewrite rev_involutive; exact P). change (t :: c ++ concat bs) with ((t :: c) ++ concat bs) in F. pose proof (maybe_after f (t :: c) (concat bs) F) as M2. rewrite (whole b a (t :: c) Ib E N ltac:(discriminate) M1) in M2. discriminate M2.
        + rewrite <- app_assoc in H. destruct (IHc (a ++ [t]) o d') as (o' & -> & M); [rewrite <- app_assoc; exact E|destruct a; discriminate|exact H|]. exists o'. auto. }
    destruct b as [|t b].
    + cbn [concat app] in H. destruct (IH bs ltac:(cbn in Hn; lia) Hbs d out H) as (bs' & -> & F). exists bs'. auto.
    + cbn [concat app] in H. remember (t :: b ++ concat bs) as z eqn:Ez in H. destruct H as [| |done t' rest o P F H|done t' rest o N' H]; try discriminate Ez; injection Ez as -> ->.
      * rewrite app_assoc in H. destruct (Rest b [t] o _ eq_refl ltac:(discriminate) H) as (o' & -> & bs' & -> & F'). exists (new :: (t :: b) :: bs'). split; [reflexivity|]. constructor; [left; reflexivity|constructor; [right; exact Ib|exact F']].
      * destruct (Rest b [t] o _ eq_refl ltac:(discriminate) H) as (o' & -> & bs' & -> & F'). exists ((t :: b) :: bs'). split; [reflexivity|]. constructor; [right; exact Ib|exact F'].
Qed.
End InsertBlocks.
Lemma post_sound det o B B' ts out : nonempty_op o -> post det o B = Some B' -> made_of B ts -> performs o ts out -> made_of B' out.
Proof.
  destruct o as [rs p f|new p f|l]; cbn [nonempty_op performs]; intros Ne H (bs & -> & Hb) P; [| |discriminate H].
  - pose proof (post_rewrite det rs p f B B' H) as Po. destruct bs as [|b bs].
    + exists []. split; [|constructor]. exact (rewriting_nil _ _ _ _ _ Ne P).
    + inversion Hb as [|? ? Ib Hbs]; subst. destruct (Po b Ib) as (r & Er & Ir). cbn [concat] in P. destruct (explore_sound det rs p f B B' Ne Po (length bs) bs (le_n _) Hbs FUEL [] b r Er [] out P) as (x & bs' & Eo & Ix & Hx). cbn in Eo. exists (x :: bs'). split; [exact Eo|constructor; [apply Ir; exact Ix|exact Hx]].
  - cbn [post] in H. match type of H with (if ?c then _ else _) = _ => destruct c eqn:C; [|discriminate H] end. injection H as <-. apply (insert_blocks new p f B) with (length bs) bs [] ; try assumption; [|apply le_n].
    intros b a c Ib E Na Nc M. rewrite forallb_forall in C. specialize (C b Ib). rewrite forallb_forall in C. specialize (C _ (splits_in b [] a c E Nc)). rewrite app_nil_r in C. cbn [fst snd] in C. rewrite M in C. destruct (rev a) eqn:Ra; [apply (f_equal (@rev tok)) in Ra; rewrite rev_involutive in Ra; cbn in Ra; congruence|]. apply negb_true_iff in C. exact C.
Qed.
Lemma post_unique o B B' ts o1 o2 : nonempty_op o -> post true o B = Some B' -> made_of B ts -> performs o ts o1 -> performs o ts o2 -> o1 = o2.
Proof.
  destruct o as [rs p f|new p f|l]; cbn [nonempty_op performs]; intros Ne H (bs & -> & Hb) P1 P2; [| |discriminate H].
  - pose proof (post_rewrite true rs p f B B' H) as Po. destruct bs as [|b bs].
    + assert (Nil : forall o, rewriting rs p f [] (concat []) o -> o = []).
      { intros o R. exact (rewriting_nil _ _ _ _ _ Ne R). }
      rewrite (Nil o1 P1), (Nil o2 P2). reflexivity.
    + inversion Hb as [|? ? Ib Hbs]; subst. destruct (Po b Ib) as (r & Er & Ir). cbn [concat] in P1, P2. exact (explore_unique true rs p f B B' Ne Po (length bs) eq_refl bs (le_n _) Hbs FUEL [] b r Er [] o1 o2 P1 P2).
  - destruct (tinsert_ok new p f (concat bs) []) as (o & _ & _ & U). rewrite (U o1 P1), (U o2 P2). reflexivity.
Qed.
Lemma posts_sound det l : Forall nonempty_op l -> forall B B' ts out, posts det l B = Some B' -> made_of B ts -> performs_all l ts out -> made_of B' out.
Proof.
  induction 1 as [|o l No Nl IH]; intros B B' ts out H M P; cbn [posts] in H.
  - injection H as <-. inversion P; subst. exact M.
  - destruct (post det o B) as [B1|] eqn:E; [|discriminate H]. inversion P as [|? ? ? mid ? P1 P2]; subst. exact (IH B1 B' mid out H (post_sound det o B B1 ts mid No E M P1) P2).
Qed.
Lemma posts_unique l : Forall nonempty_op l -> forall B B' ts o1 o2, posts true l B = Some B' -> made_of B ts -> performs_all l ts o1 -> performs_all l ts o2 -> o1 = o2.
Proof.
  induction 1 as [|o l No Nl IH]; intros B B' ts o1 o2 H M P1 P2; cbn [posts] in H.
  - inversion P1; inversion P2; subst. reflexivity.
  - destruct (post true o B) as [B1|] eqn:E; [|discriminate H]. inversion P1 as [|? ? ? m1 ? Q1 R1]; inversion P2 as [|? ? ? m2 ? Q2 R2]; subst. rewrite (post_unique o B B1 ts m2 m1 No E M Q2 Q1) in R2.
    exact (IH B1 B' m1 o1 o2 H (post_sound true o B B1 ts m1 No E M Q1) R1 R2).
Qed.

(** ** Rewriting and inserting always give something *)
Lemma rewriting_total rs p f n : Forall (fun q : word * word => fst q <> []) rs -> forall ts done, length ts <= n -> exists out, rewriting rs p f done ts out.
Proof.
  intros Ne. induction n as [|n IH]; intros ts done Hn.
  - destruct ts; [exists []; constructor|cbn in Hn; lia].
  - destruct ts as [|t ts]; [exists []; constructor|]. cbn in Hn.
    destruct (filter (tapplicable (skip_after f) (t :: ts)) rs) as [|[l r] ms] eqn:F0.
    + destruct (IH ts (done ++ [t]) ltac:(lia)) as (o & R). exists (t :: o). constructor; [|exact R]. intros l r u I E Fu _. assert (A : In (l, r) (filter (tapplicable (skip_after f) (t :: ts)) rs)) by (apply filter_In; split; [exact I|apply tapplicable_ok; eauto]). rewrite F0 in A. destruct A.
    + assert (A : In (l, r) (filter (tapplicable (skip_after f) (t :: ts)) rs)) by (rewrite F0; left; reflexivity). apply filter_In in A as [I A]. apply tapplicable_ok in A as (u & E & Fu).
      destruct (tctx_ok (skip_before p) (rev done)) eqn:L.
      * apply preceded_ok in L. destruct (IH u (done ++ r)) as (o & R); [pose proof (proj1 (Forall_forall _ _) Ne _ I) as Nl; cbn in Nl; apply (f_equal (@length tok)) in E; rewrite app_length in E; cbn in E; destruct l; [congruence|cbn in E; lia]|].
        exists (r ++ o). rewrite E. constructor; assumption.
      * destruct (IH ts (done ++ [t]) ltac:(lia)) as (o & R). exists (t :: o). constructor; [|exact R]. intros ? ? ? _ _ _ P. apply preceded_ok in P. congruence.
Qed.
Definition no_pairs (o : op) : bool := match o with Pairs _ => false | _ => true end.
Lemma performs_total o ts : nonempty_op o -> no_pairs o = true -> exists out, performs o ts out.
Proof.
  destruct o as [rs p f|new p f|l]; cbn [nonempty_op performs no_pairs]; intros Ne N; [|destruct (tinsert_ok new p f ts []) as (o & _ & I & _); eauto|discriminate N]. exact (rewriting_total rs p f (length ts) Ne ts [] (le_n _)).
Qed.
Lemma performs_all_total l : Forall nonempty_op l -> forallb no_pairs l = true -> forall ts, exists out, performs_all l ts out.
Proof.
  induction 1 as [|o l No Nl IH]; intros H ts; [exists ts; constructor|]. cbn [forallb] in H. apply andb_prop in H as [H1 H2]. destruct (performs_total o ts No H1) as (m & P). destruct (IH H2 m) as (out & Q). exists out. econstructor; eassumption.
Qed.
Lemma performs_all_app l1 : forall l2 ts out, performs_all (l1 ++ l2) ts out <-> exists m, performs_all l1 ts m /\ performs_all l2 m out.
Proof.
  induction l1 as [|o l1 IH]; intros l2 ts out; cbn [app].
  - split; [intros P; exists ts; split; [constructor|exact P]|intros (m & P & Q); inversion P; subst; exact Q].
  - split.
    + intros P. inversion P as [|? ? ? m ? P1 P2]; subst. apply IH in P2 as (m2 & Q1 & Q2). exists m2. split; [econstructor; eassumption|exact Q2].
    + intros (m & P & Q). inversion P as [|? ? ? m1 ? P1 P2]; subst. econstructor; [exact P1|]. apply IH. eauto.
Qed.
