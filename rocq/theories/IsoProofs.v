From Verif Require Import Base RuleModel VisualModel ScriptData ScriptTables IsoModel IsoSpec.

Lemma cut_prefix_spec i s t : cut_prefix i s = Some t <-> s = i ++ t.
Proof.
  unfold cut_prefix. revert s. induction i as [|c i IH]; intros s.
  - cbn. split; [intros H; injection H as ->; reflexivity|intros ->; reflexivity].
  - destruct s as [|d s]; cbn [prefixb length skipn app].
    + split; discriminate.
    + destruct (N.eqb_spec c d) as [->|D]; cbn [andb].
      * rewrite IH. split; [intros ->; reflexivity|intros H; injection H as ->; reflexivity].
      * split; [discriminate|intros H; injection H as E _; congruence].
Qed.
Section Closure.
Variable f : str -> list reading.
Fixpoint star_read (n : nat) (s : str) : list reading :=
  ([], 0%N, s) ::
  match n with
  | O => []
  | S n' => flat_map (fun '(o, w, t) => if Nat.ltb (length t) (length s) then map (put o w) (star_read n' t) else []) (f s)
  end.
End Closure.
Lemma read_star a s : read (WStar a) s = star_read (read a) (length s) s.
Proof. reflexivity. Qed.
Lemma in_put o w p l : In p (map (put o w) l) <-> exists o' w' t, In (o', w', t) l /\ p = (o ++ o', (w + w')%N, t).
Proof.
  rewrite in_map_iff. split.
  - intros ([[o' w'] t] & <- & H). exists o', w', t. split; [exact H|reflexivity].
  - intros (o' & w' & t & H & ->). exists (o', w', t). split; [reflexivity|exact H].
Qed.
Lemma star_read_sound a n : (forall s o w t, In (o, w, t) (read a s) -> exists i, s = i ++ t /\ rel a i o w) ->
  forall s o w t, In (o, w, t) (star_read (read a) n s) -> exists i, s = i ++ t /\ rel (WStar a) i o w.
Proof.
  intros H. induction n as [|n IH]; intros s o w t K.
  - cbn in K. destruct K as [K|[]]. injection K as <- <- <-. exists []. split; [reflexivity|constructor].
  - cbn [star_read] in K. destruct K as [K|K].
    + injection K as <- <- <-. exists []. split; [reflexivity|constructor].
    + apply in_flat_map in K as ([[o1 w1] t1] & K1 & K2). destruct (Nat.ltb (length t1) (length s)); [|destruct K2].
      apply in_put in K2 as (o2 & w2 & t2 & K2 & E). injection E as -> -> ->. destruct (H _ _ _ _ K1) as (i1 & -> & R1).
      destruct (IH _ _ _ _ K2) as (i2 & -> & R2). exists (i1 ++ i2). split; [apply app_assoc|constructor; assumption].
Qed.
Lemma reads_empty_rel r i o w : rel r i o w -> i = [] -> reads_empty r = true.
Proof.
  induction 1 as [l i o H|w|a b i o w i' o' w' _ IH1 _ IH2|a b i o w _ IH|a b i o w _ IH|a|a i o w i' o' w' _ _ _ _]; intros E; cbn [reads_empty].
  - apply existsb_exists. exists (i, o). split; [exact H|]. cbn. rewrite E. reflexivity.
  - reflexivity.
  - apply app_eq_nil in E as [E1 E2]. rewrite (IH1 E1), (IH2 E2). reflexivity.
  - rewrite (IH E). reflexivity.
  - rewrite (IH E). apply orb_true_r.
  - reflexivity.
  - reflexivity.
Qed.
Lemma star_read_complete a : reads_empty a = false ->
  (forall s o w t i, s = i ++ t -> rel a i o w -> In (o, w, t) (read a s)) ->
  forall r i o w, rel r i o w -> r = WStar a -> forall t n, length i <= n -> In (o, w, t) (star_read (read a) n (i ++ t)).
Proof.
  intros E H r i o w R. induction R as [l i o K|w|b c i o w i' o' w' _ _ _ _|b c i o w _ _|b c i o w _ _|b|b i o w i' o' w' R1 _ R2 IH]; intros Q t n L; try discriminate Q.
  - destruct n; left; reflexivity.
  - injection Q as ->. destruct i as [|c i]; [rewrite (reads_empty_rel _ _ _ _ R1 eq_refl) in E; discriminate E|].
    destruct n as [|n]; [cbn in L; lia|]. cbn [star_read]. right. apply in_flat_map. exists (o, w, i' ++ t). split.
    + apply (H _ _ _ _ (c :: i)); [symmetry; apply app_assoc|exact R1].
    + assert (B : Nat.ltb (length (i' ++ t)) (length (((c :: i) ++ i') ++ t)) = true) by (apply Nat.ltb_lt; cbn; rewrite !app_length; lia).
      rewrite B. apply in_put. exists o', w', t. split; [|reflexivity]. apply IH; [reflexivity|]. cbn in L. rewrite app_length in L. lia.
Qed.
Lemma read_rel r : star_ok r = true -> forall s o w t, In (o, w, t) (read r s) <-> exists i, s = i ++ t /\ rel r i o w.
Proof.
  induction r as [l|w0|a IHa b IHb|a IHa b IHb|a IHa]; cbn [star_ok]; intros K s o w t.
  - cbn [read]. rewrite in_flat_map. split.
    + intros ([i o'] & Hl & Hc). cbn in Hc. destruct (cut_prefix i s) as [t'|] eqn:C; [|destruct Hc]. destruct Hc as [Hc|[]].
      injection Hc as <- <- <-. exists i. split; [apply cut_prefix_spec; exact C|constructor; exact Hl].
    + intros (i & -> & R). inversion R as [l' i' o' H E1 E2 E3 E4| | | | | |]; subst. exists (i, o). split; [exact H|]. cbn.
      rewrite (proj2 (cut_prefix_spec i (i ++ t) t) eq_refl). left. reflexivity.
  - cbn [read]. split.
    + intros [H|[]]. injection H as <- <- <-. exists []. split; [reflexivity|constructor].
    + intros (i & -> & R). inversion R; subst. left. reflexivity.
  - apply andb_true_iff in K as [Ka Kb]. cbn [read]. rewrite in_flat_map. split.
    + intros ([[o1 w1] t1] & H1 & H2). apply in_put in H2 as (o2 & w2 & t2 & H2 & E). injection E as -> -> ->.
      apply (IHa Ka) in H1 as (i1 & -> & R1). apply (IHb Kb) in H2 as (i2 & -> & R2). exists (i1 ++ i2). split; [apply app_assoc|constructor; assumption].
    + intros (i & -> & R). inversion R as [| |a' b' i1 o1 w1 i2 o2 w2 R1 R2 E1 E2 E3 E4| | | |]; subst.
      exists (o1, w1, i2 ++ t). split; [apply (IHa Ka); exists i1; split; [symmetry; apply app_assoc|exact R1]|].
      apply in_put. exists o2, w2, t. split; [|reflexivity]. apply (IHb Kb). exists i2. split; [reflexivity|exact R2].
  - apply andb_true_iff in K as [Ka Kb]. cbn [read]. rewrite in_app_iff, (IHa Ka), (IHb Kb). split.
    + intros [(i & -> & R)|(i & -> & R)]; exists i; split; try reflexivity; [apply R_alt1|apply R_alt2]; exact R.
    + intros (i & -> & R). inversion R; subst; [left|right]; exists i; split; try reflexivity; assumption.
  - apply andb_true_iff in K as [Kn Ka]. apply negb_true_iff in Kn. rewrite read_star. split.
    + apply star_read_sound. intros s' o' w' t' H. apply (IHa Ka). exact H.
    + intros (i & -> & R). apply (star_read_complete a Kn) with (r := WStar a); [|exact R|reflexivity|rewrite app_length; lia].
      intros s' o' w' t' i' -> R'. apply (IHa Ka). exists i'. split; [reflexivity|exact R'].
Qed.
Lemma outs_rel r s o w : star_ok r = true -> (In (o, w) (outs r s) <-> rel r s o w).
Proof.
  intros K. unfold outs. rewrite in_flat_map. split.
  - intros ([[o' w'] t] & H & Q). destruct t; [|destruct Q]. destruct Q as [Q|[]]. injection Q as <- <-.
    apply (read_rel r K) in H as (i & -> & R). rewrite app_nil_r. exact R.
  - intros R. exists (o, w, []). split; [|left; reflexivity]. apply (read_rel r K). exists s. split; [symmetry; apply app_nil_r|exact R].
Qed.

(** Least cost *)
Lemma fold_min_le l : forall m, (fold_left (fun m q => N.min m (snd q)) l m <= m)%N /\ forall p : str * N, In p l -> (fold_left (fun m q => N.min m (snd q)) l m <= snd p)%N.
Proof.
  induction l as [|q l IH]; intros m; cbn [fold_left].
  - split; [lia|intros p []].
  - destruct (IH (N.min m (snd q))) as [A B]. split; [lia|]. intros p [<-|H]; [lia|exact (B p H)].
Qed.
Lemma fold_min_in l : forall m, fold_left (fun m q => N.min m (snd q)) l m = m \/ exists p : str * N, In p l /\ snd p = fold_left (fun m q => N.min m (snd q)) l m.
Proof.
  induction l as [|q l IH]; intros m; cbn [fold_left]; [left; reflexivity|].
  destruct (IH (N.min m (snd q))) as [E|(p & H & E)].
  - rewrite E. destruct (N.min_spec m (snd q)) as [[_ ->]|[_ ->]]; [left; reflexivity|right; exists q; split; [left; reflexivity|reflexivity]].
  - right. exists p. split; [right; exact H|exact E].
Qed.
Lemma least_spec l m : least l = Some m <-> (exists o, In (o, m) l) /\ forall p, In p l -> (m <= snd p)%N.
Proof.
  destruct l as [|q l]; cbn [least].
  - split; [discriminate|intros ((o & []) & _)].
  - destruct (fold_min_le l (snd q)) as [A B]. split.
    + intros H. injection H as H. rewrite H in A, B. split; [|intros p [<-|K]; [exact A|exact (B p K)]].
      destruct (fold_min_in l (snd q)) as [E|(p & K & E)].
      * exists (fst q). left. rewrite <- H, E. destruct q; reflexivity.
      * exists (fst p). right. rewrite <- H, <- E. destruct p; exact K.
    + intros ((o & H) & L). f_equal. apply N.le_antisymm.
      * destruct H as [->|H]; [exact A|exact (B _ H)].
      * destruct (fold_min_in l (snd q)) as [E|(p & K & E)]; [rewrite E; apply L; left; reflexivity|rewrite <- E; apply L; right; exact K].
Qed.
Lemma best_outs_best r s o : star_ok r = true -> (In o (best_outs r s) <-> exists w, best r s o w).
Proof.
  intros K. unfold best_outs, best_cost, best. destruct (least (outs r s)) as [m|] eqn:E.
  - apply least_spec in E as [(o0 & H0) L]. rewrite in_map_iff. split.
    + intros ([o' w] & <- & H). apply filter_In in H as [H Q]. apply N.eqb_eq in Q. cbn in Q. subst w. exists m. cbn. split; [apply (outs_rel r s _ _ K); exact H|].
      intros o1 w1 R. apply (outs_rel r s _ _ K) in R. exact (L _ R).
    + intros (w & R & B). exists (o, w). split; [reflexivity|]. apply (outs_rel r s _ _ K) in R. apply filter_In. split; [exact R|]. apply N.eqb_eq. cbn.
      apply N.le_antisymm; [|exact (L _ R)]. apply (B o0). apply (outs_rel r s _ _ K). exact H0.
  - split; [intros []|]. intros (w & R & _). apply (outs_rel r s _ _ K) in R. destruct (outs r s); [destruct R|discriminate E].
Qed.
Lemma best_cost_best r s w : star_ok r = true -> (best_cost r s = Some w <-> exists o, best r s o w).
Proof.
  intros K. unfold best_cost, best. rewrite least_spec. split.
  - intros ((o & H) & L). exists o. split; [apply (outs_rel r s _ _ K); exact H|]. intros o' w' R. apply (outs_rel r s _ _ K) in R. exact (L _ R).
  - intros (o & R & B). split; [exists o; apply (outs_rel r s _ _ K); exact R|]. intros [o' w'] H. apply (B o'). apply (outs_rel r s _ _ K). exact H.
Qed.

(** Laws *)
Lemma rel_star_app a i o w i' o' w' : rel (WStar a) i o w -> rel (WStar a) i' o' w' -> rel (WStar a) (i ++ i') (o ++ o') (w + w').
Proof.
  intros R. remember (WStar a) as r eqn:E. induction R as [l i o K|w|b c i o w i1 o1 w1 _ _ _ _|b c i o w _ _|b c i o w _ _|b|b i o w i1 o1 w1 R1 _ R2 IH]; try discriminate E; intros R'.
  - exact R'.
  - injection E as ->. rewrite <- !app_assoc, <- N.add_assoc. constructor; [exact R1|exact (IH eq_refl R')].
Qed.
Lemma invert_rel r i o w : rel r i o w -> rel (w_invert r) o i w.
Proof.
  induction 1 as [l i o H|w|a b i o w i' o' w' _ IH1 _ IH2|a b i o w _ IH|a b i o w _ IH|a|a i o w i' o' w' _ IH1 _ IH2]; cbn [w_invert] in *; try (constructor; assumption).
  - constructor. apply in_map_iff. exists (i, o). split; [reflexivity|exact H].
Qed.
Lemma invert_twice r : w_invert (w_invert r) = r.
Proof.
  induction r as [l|w|a IHa b IHb|a IHa b IHb|a IHa]; cbn [w_invert]; try congruence. f_equal. rewrite map_map. transitivity (map (fun p : str * str => p) l); [|apply map_id].
  apply map_ext. intros [x y]. reflexivity.
Qed.
Lemma inverse r i o w : rel (w_invert r) o i w <-> rel r i o w.
Proof. split; [|apply invert_rel]. intros H. apply invert_rel in H. rewrite invert_twice in H. exact H. Qed.
Lemma outs_app a i i' o o' w w' : star_ok (WStar a) = true -> In (o, w) (outs (WStar a) i) -> In (o', w') (outs (WStar a) i') ->
  In (o ++ o', (w + w')%N) (outs (WStar a) (i ++ i')).
Proof. intros K H H'. apply (outs_rel _ _ _ _ K). apply rel_star_app; apply (outs_rel _ _ _ _ K); assumption. Qed.
Lemma outs_empty a : outs (WStar a) [] = [([], 0%N)].
Proof. reflexivity. Qed.
Lemma outs_inverse r i o w : star_ok r = true -> star_ok (w_invert r) = true -> (In (o, w) (outs r i) <-> In (i, w) (outs (w_invert r) o)).
Proof. intros K K'. rewrite (outs_rel _ _ _ _ K), (outs_rel _ _ _ _ K'). symmetry. apply inverse. Qed.
Lemma cost_app a i i' w w' : star_ok (WStar a) = true -> best_cost (WStar a) i = Some w -> best_cost (WStar a) i' = Some w' ->
  exists m, best_cost (WStar a) (i ++ i') = Some m /\ (m <= w + w')%N.
Proof.
  intros K H H'. apply (best_cost_best _ _ _ K) in H as (o & R & _). apply (best_cost_best _ _ _ K) in H' as (o' & R' & _).
  pose proof (rel_star_app a _ _ _ _ _ _ R R') as Q. pose proof (proj2 (outs_rel _ _ _ _ K) Q) as Q'.
  destruct (least (outs (WStar a) (i ++ i'))) as [m|] eqn:E.
  - exists m. split; [exact E|]. apply least_spec in E as [_ L]. exact (L _ Q').
  - destruct (outs (WStar a) (i ++ i')); [destruct Q'|discriminate E].
Qed.
(** Every romanization is that of a sequence of units *)
Lemma rel_star_units a i o w : rel (WStar a) i o w <->
  exists l : list (str * str * N), Forall (fun '(i, o, w) => rel a i o w) l /\ i = concat (map (fun u => fst (fst u)) l) /\
    o = concat (map (fun u => snd (fst u)) l) /\ w = fold_right N.add 0%N (map snd l).
Proof.
  split.
  - intros R. remember (WStar a) as r eqn:E. induction R as [l i o K|w|b c i o w i1 o1 w1 _ _ _ _|b c i o w _ _|b c i o w _ _|b|b i o w i1 o1 w1 R1 _ R2 IH]; try discriminate E.
    + exists []. repeat split. constructor.
    + injection E as ->. destruct (IH eq_refl) as (l & F & -> & -> & ->). exists ((i, o, w) :: l). repeat split. constructor; assumption.
  - intros (l & F & -> & -> & ->). induction F as [|[[i o] w] l H _ IH]; cbn; constructor; assumption.
Qed.
Lemma rel_union l i o w : rel (w_union l) i o w <-> exists a, In a l /\ rel a i o w.
Proof.
  induction l as [|a l IH].
  - cbn. split; [intros R; inversion R as [? ? ? H| | | | | |]; destruct H|intros (a & [] & _)].
  - destruct l as [|b l].
    + cbn. split; [intros R; exists a; split; [left; reflexivity|exact R]|intros (c & [<-|[]] & R); exact R].
    + change (w_union (a :: b :: l)) with (WAlt a (w_union (b :: l))). split.
      * intros R. inversion R; subst; [exists a; split; [left; reflexivity|assumption]|].
        destruct (proj1 IH) as (c & Hc & Rc); [assumption|]. exists c. split; [right; exact Hc|exact Rc].
      * intros (c & [<-|Hc] & Rc); [apply R_alt1; exact Rc|apply R_alt2, IH; exists c; split; assumption].
Qed.
Lemma iso_rel d i o w : rel (iso_wt d) i o w <->
  exists l : list (str * str * N), Forall (fun '(i, o, w) => exists u, In u (iso_units d) /\ rel u i o w) l /\ i = concat (map (fun u => fst (fst u)) l) /\
    o = concat (map (fun u => snd (fst u)) l) /\ w = fold_right N.add 0%N (map snd l).
Proof.
  unfold iso_wt. rewrite rel_star_units. split; intros (l & F & E); exists l; (split; [|exact E]); revert F; apply Forall_impl; intros [[x y] z]; apply rel_union.
Qed.
Lemma iso_piecewise d i o w i' o' w' : rel (iso_wt d) i o w -> rel (iso_wt d) i' o' w' -> rel (iso_wt d) (i ++ i') (o ++ o') (w + w').
Proof. apply rel_star_app. Qed.
Lemma iso_empty d : outs (iso_wt d) [] = [([], 0%N)] /\ outs (w_invert (iso_wt d)) [] = [([], 0%N)] /\ rel (iso_wt d) [] [] 0.
Proof. split; [|split]; [reflexivity|reflexivity|constructor]. Qed.
Lemma iso_inverse d i o w : rel (w_invert (iso_wt d)) o i w <-> rel (iso_wt d) i o w.
Proof. apply inverse. Qed.
Lemma iso_inverse_outs d i o w : star_ok (iso_wt d) = true -> star_ok (w_invert (iso_wt d)) = true ->
  (In (o, w) (outs (iso_wt d) i) <-> In (i, w) (outs (w_invert (iso_wt d)) o)).
Proof. apply outs_inverse. Qed.
Lemma iso_cost d i i' w w' : star_ok (iso_wt d) = true -> best_cost (iso_wt d) i = Some w -> best_cost (iso_wt d) i' = Some w' ->
  exists m, best_cost (iso_wt d) (i ++ i') = Some m /\ (m <= w + w')%N.
Proof. apply cost_app. Qed.
Lemma iso_cost_back d o o' w w' : star_ok (w_invert (iso_wt d)) = true -> best_cost (w_invert (iso_wt d)) o = Some w -> best_cost (w_invert (iso_wt d)) o' = Some w' ->
  exists m, best_cost (w_invert (iso_wt d)) (o ++ o') = Some m /\ (m <= w + w')%N.
Proof. apply cost_app. Qed.
Lemma shipped_star_ok d : In d all_scripts -> star_ok (iso_wt d) = true /\ star_ok (w_invert (iso_wt d)) = true.
Proof.
  assert (H : forallb (fun d => star_ok (iso_wt d) && star_ok (w_invert (iso_wt d))) all_scripts = true) by (vm_compute; reflexivity).
  intros K. rewrite forallb_forall in H. specialize (H d K). apply andb_prop in H. exact H.
Qed.
