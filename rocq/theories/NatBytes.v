(** Grammars on bytes and on symbols do the same. *)
From Verif Require Import Base RuleModel RegexModel RegexProofs IsoModel AlignModel AlignSpec AlignProofs AlignMore NatModel NatSpec NatProofs.

(** ** Insertion *)
Lemma closing_end t : exists v c, enc t = v ++ [c] /\ In c [62; 125; 96; 61]%N.
Proof.
  destruct t as [s|s|s|]; cbn [enc]; [exists (60%N :: s), 62%N|exists (123%N :: s), 125%N|exists (96%N :: s), 96%N|exists [], 61%N]; (split; [reflexivity|cbn; tauto]).
Qed.
Lemma inside_end t u v : symbol t -> translit t = false -> enc t = u ++ v -> u <> [] -> v <> [] -> exists u' c, u = u' ++ [c] /\ ~ In c [62; 125; 96; 61]%N.
Proof.
  intros Hs Ht E Nu Nv. destruct (exists_last Nu) as (u' & c & ->). exists u', c. split; [reflexivity|]. intros I.
  assert (K : forall o s e, ~ In o [62; 125; 96; 61]%N -> Forall sym_char s -> [o] ++ s ++ [e] = (u' ++ [c]) ++ v -> False).
  { intros o s e No Fs Ee. destruct u' as [|x u']; cbn in Ee; [injection Ee as -> _; exact (No I)|]. injection Ee as _ Ee. destruct (exists_last Nv) as (v' & z & ->). rewrite app_assoc in Ee. apply app_inj_tail in Ee as [Es _]. subst s.
    apply Forall_app in Fs as [Fs _]. apply Forall_app in Fs as [_ Fs]. inversion Fs as [|? ? Hc _]; subst. apply (not_sym c); [cbn in *; tauto|exact Hc]. }
  destruct t as [s|s|s|]; cbn [enc symbol] in *.
  - apply (K 60%N s 62%N); [cbn; intuition discriminate|exact Hs|exact E].
  - apply (K 123%N s 125%N); [cbn; intuition discriminate|exact Hs|exact E].
  - discriminate Ht.
  - destruct u' as [|x u']; cbn in E; [injection E as _ E; symmetry in E; exact (Nv E)|injection E as _ E; destruct u'; discriminate E].
Qed.
Lemma lc_inside p done t u v : symbols_ctx p -> match p with None => False | Some (edge, r) => edge = true \/ ~ means r [] end -> symbol t -> translit t = false -> enc t = u ++ v -> u <> [] -> v <> [] ->
  lc_of p (rev (encs done ++ u)) = false.
Proof.
  intros Hp Hn Hs Ht E Nu Nv. destruct p as [[edge r]|]; [|destruct Hn]. cbn [symbols_ctx] in Hp. apply not_true_is_false. unfold lc_of. cbn [enc_ctx option_map]. rewrite left_ok_iff. intros (y & x & Ex & M & Y).
  apply (cat_skip_left r x Hp) in M as (a & k & A & K & Sw & ->). destruct (a ++ k) as [|t0 w0] eqn:Ew.
  - apply app_eq_nil in Ew as [-> ->]. cbn in Ex. rewrite app_nil_r in Ex. destruct Hn as [T|N]; [rewrite (Y T) in Ex; apply app_eq_nil in Ex as [_ ->]; exact (Nu eq_refl)|exact (N A)].
  - destruct (@exists_last _ (t0 :: w0)) as (w & t' & Ew'); [discriminate|]. rewrite Ew' in Ex. rewrite encs_app in Ex. cbn [encs flat_map] in Ex. rewrite app_nil_r in Ex. destruct (closing_end t') as (z & c & Ec & Ic). rewrite Ec in Ex.
    destruct (inside_end t u v Hs Ht E Nu Nv) as (u' & c' & -> & Nc). rewrite !app_assoc in Ex. apply app_inj_tail in Ex as [_ ->]. exact (Nc Ic).
Qed.
Section Insertion.
Variables (new : word) (p f : tctx).
Hypothesis ok : well_formed (Insert new p f).
Lemma insert_inside done t ts v : symbol t -> translit t = false -> forall u, enc t = u ++ v -> u <> [] ->
  insert_scan (encs new) (lc_of p) (rc_of f) (rev (encs done ++ u)) (v ++ encs ts) = insert_scan (encs new) (lc_of p) (rc_of f) (rev (encs (done ++ [t]))) (encs ts).
Proof.
  intros Hs Ht. destruct ok as (_ & Hp & _ & Hn). induction v as [|c v IH]; intros u E Nu.
  - rewrite app_nil_r in E. cbn [app]. rewrite encs_app. cbn [encs flat_map]. rewrite app_nil_r, E. reflexivity.
  - cbn [app insert_scan]. rewrite (lc_inside p done t u (c :: v) Hp Hn Hs Ht E Nu ltac:(discriminate)). cbn [andb].
    replace (c :: rev (encs done ++ u)) with (rev (encs done ++ u ++ [c])) by (rewrite app_assoc, (rev_app_distr _ [c]); reflexivity).
    apply IH; [rewrite <- app_assoc; exact E|destruct u; discriminate].
Qed.
Lemma insert_toks ts : Forall symbol ts -> no_translit ts -> forall done o, Forall symbol done ->
  (In o (insert_scan (encs new) (lc_of p) (rc_of f) (rev (encs done)) (encs ts)) <-> exists out, inserting new p f done ts out /\ o = encs (done ++ out)).
Proof.
  destruct ok as (Hw & Hp & Hf & Hn). induction ts as [|t ts IH]; intros Hs Ht done o Hd.
  - cbn [encs flat_map insert_scan]. assert (R : rc_of f [] = true <-> followed f []) by (apply (rc_of_ok f [] Hf); constructor). pose proof (lc_of_ok p done Hp Hd) as L.
    destruct (lc_of p (rev (encs done))) eqn:El; destruct (rc_of f []) eqn:Er; cbn [andb].
    + rewrite <- rev_app_distr, rev_involutive, <- encs_app. cbn [In]. split; [intros [<-|[]]; exists new; split; [constructor; tauto|reflexivity]|].
      intros (out & I & ->). left. remember [] as z eqn:Ez. destruct I; try discriminate Ez; [reflexivity|]. exfalso. tauto.
    + rewrite rev_involutive. cbn [In]. assert (N : ~ (preceded p done /\ followed f [])) by (intros [_ F]; apply R in F; discriminate F).
      split; [intros [<-|[]]; exists []; rewrite app_nil_r; split; [constructor; exact N|reflexivity]|]. intros (out & I & ->). left. remember [] as z eqn:Ez. destruct I; try discriminate Ez; [exfalso; tauto|rewrite app_nil_r; reflexivity].
    + rewrite rev_involutive. cbn [In]. assert (N : ~ (preceded p done /\ followed f [])) by (intros [F _]; apply L in F; discriminate F).
      split; [intros [<-|[]]; exists []; rewrite app_nil_r; split; [constructor; exact N|reflexivity]|]. intros (out & I & ->). left. remember [] as z eqn:Ez. destruct I; try discriminate Ez; [exfalso; tauto|rewrite app_nil_r; reflexivity].
    + rewrite rev_involutive. cbn [In]. assert (N : ~ (preceded p done /\ followed f [])) by (intros [F _]; apply L in F; discriminate F).
      split; [intros [<-|[]]; exists []; rewrite app_nil_r; split; [constructor; exact N|reflexivity]|]. intros (out & I & ->). left. remember [] as z eqn:Ez. destruct I; try discriminate Ez; [exfalso; tauto|rewrite app_nil_r; reflexivity].
  - inversion Hs as [|? ? Hst Hss]; subst. unfold no_translit in Ht. cbn [forallb] in Ht. apply andb_prop in Ht as [Htt Hts]. apply negb_true_iff in Htt.
    pose proof (lc_of_ok p done Hp Hd) as L. pose proof (rc_of_ok f (t :: ts) Hf Hs) as R.
    rewrite encs_cons in *. destruct (enc_open t) as (v & Ev). rewrite Ev in *. cbn [app] in *. cbn [insert_scan].
    assert (Go : forall d, Forall symbol d -> insert_scan (encs new) (lc_of p) (rc_of f) (opening t :: rev (encs d)) (v ++ encs ts) = insert_scan (encs new) (lc_of p) (rc_of f) (rev (encs (d ++ [t]))) (encs ts)).
    { intros d Hd'. rewrite <- (insert_inside d t ts v Hst Htt [opening t] Ev ltac:(discriminate)). rewrite rev_app_distr. reflexivity. }
    destruct (lc_of p (rev (encs done)) && rc_of f (opening t :: v ++ encs ts)) eqn:B.
    + apply andb_prop in B as [El Er]. apply L in El. apply R in Er. rewrite <- rev_app_distr, <- encs_app, Go by (apply Forall_app; auto). rewrite <- app_assoc. rewrite (IH Hss Hts (done ++ new ++ [t]) o) by (rewrite !Forall_app; auto).
      split.
      * intros (out & I & ->). exists (new ++ t :: out). split; [apply in_new; assumption|]. f_equal. rewrite <- !app_assoc. reflexivity.
      * intros (out & I & ->). remember (t :: ts) as z eqn:Ez. destruct I as [| |done t' rest out P F I|done t' rest out N I]; try discriminate Ez; injection Ez as -> ->; [exists out; split; [exact I|f_equal; rewrite <- !app_assoc; reflexivity]|exfalso; tauto].
    + rewrite (Go done Hd). rewrite (IH Hss Hts (done ++ [t]) o) by (rewrite Forall_app; auto).
      assert (N : ~ (preceded p done /\ followed f (t :: ts))) by (intros [P F]; apply L in P; apply R in F; rewrite P, F in B; discriminate B). split.
      * intros (out & I & ->). exists (t :: out). split; [apply in_copy; assumption|]. f_equal. rewrite <- app_assoc. reflexivity.
      * intros (out & I & ->). remember (t :: ts) as z eqn:Ez. destruct I as [| |done t' rest out P F I|done t' rest out N' I]; try discriminate Ez; injection Ez as -> ->; [exfalso; tauto|exists out; split; [exact I|f_equal; rewrite <- app_assoc; reflexivity]].
Qed.
End Insertion.

(** ** Pairs *)
Lemma encs_nonempty w : w <> [] -> encs w <> [].
Proof. destruct w as [|t w]; [congruence|]. intros _. rewrite encs_cons. apply enc_nil. Qed.
Lemma rule_nonempty q : symbol_rule q -> fst q <> [].
Proof. intros (_ & _ & H). destruct (fst q); [destruct H|discriminate]. Qed.
Lemma translated_units l ts out : translated l ts out <-> exists ps : list (word * word), (forall q, In q ps -> In q l) /\ ts = flat_map fst ps /\ out = flat_map snd ps.
Proof.
  split.
  - induction 1 as [|a b ts out I T (ps & H & -> & ->)]; [exists []; split; [intros q []|split; reflexivity]|]. exists ((a, b) :: ps). split; [intros q [<-|J]; [exact I|exact (H q J)]|split; reflexivity].
  - intros (ps & H & -> & ->). induction ps as [|[a b] ps IH]; cbn; [constructor|]. constructor; [apply H; left; reflexivity|apply IH; intros q J; apply H; right; exact J].
Qed.
Lemma pairs_bytes l ts o : Forall symbol_rule l -> Forall symbol ts -> (In o (op_bytes (Pairs l) (encs ts)) <-> exists out, translated l ts out /\ o = encs out).
Proof.
  intros Hl Hs. cbn [op_bytes]. rewrite outs_pairs.
  2:{ apply Forall_forall. intros q I. apply in_map_iff in I as (r & <- & I). cbn [fst]. apply encs_nonempty, rule_nonempty. exact (proj1 (Forall_forall _ _) Hl _ I). }
  split.
  - intros (ps & H & E & ->). revert ts Hs E. induction ps as [|[a b] ps IH]; intros ts Hs E.
    + cbn in E. destruct ts as [|t ts]; [exists []; split; [constructor|reflexivity]|]. rewrite encs_cons in E. destruct (enc_nil t _ E).
    + cbn [flat_map fst snd] in *. assert (I : In (a, b) (map (fun q : word * word => (encs (fst q), encs (snd q))) l)) by (apply H; left; reflexivity). apply in_map_iff in I as ([x y] & Exy & I). cbn [fst snd] in Exy. injection Exy as <- <-.
      pose proof (proj1 (Forall_forall _ _) Hl _ I) as (Hx & _). cbn [fst] in Hx. symmetry in E. apply (encs_prefix x Hx ts _ Hs) in E as (u & -> & E). apply Forall_app in Hs as [_ Hu].
      destruct (IH (fun q J => H q (or_intror J)) u Hu (eq_sym E)) as (out & T & Eo). exists (y ++ out). split; [constructor; assumption|]. rewrite encs_app, <- Eo. reflexivity.
  - intros (out & T & ->). apply translated_units in T as (ps & H & -> & ->). exists (map (fun q : word * word => (encs (fst q), encs (snd q))) ps). split.
    + intros q J. apply in_map_iff in J as (r & <- & J). apply in_map_iff. exists r. split; [reflexivity|exact (H r J)].
    + clear. induction ps as [|q ps [E1 E2]]; [split; reflexivity|]. cbn [map flat_map fst snd]. rewrite !encs_app, E1, E2. split; reflexivity.
Qed.

(** ** Whole grammars *)
Lemma op_bytes_ok o ts s : well_formed o -> Forall symbol ts -> (no_insert o \/ no_translit ts) -> (In s (op_bytes o (encs ts)) <-> exists out, performs o ts out /\ s = encs out).
Proof.
  intros W Hs Hn. destruct o as [rs p f|new p f|l].
  - apply rewrite_bytes; assumption.
  - destruct Hn as [[]|Hn]. cbn [op_bytes performs]. unfold insert_op. fold (lc_of p) (rc_of f). apply (insert_toks new p f W ts Hs Hn [] s). constructor.
  - apply pairs_bytes; assumption.
Qed.
Lemma rewriting_symbols rs p f done ts out : Forall symbol_rule rs -> rewriting rs p f done ts out -> Forall symbol ts -> Forall symbol out.
Proof.
  intros Hr. induction 1 as [done|done l r rest out I P F T IH|done t rest out N T IH]; intros Hs; [constructor| |].
  - apply Forall_app in Hs as [_ Hs]. apply Forall_app. split; [exact (proj1 (proj2 (proj1 (Forall_forall _ _) Hr _ I)))|exact (IH Hs)].
  - inversion Hs; subst. constructor; [assumption|apply IH; assumption].
Qed.
(** A property of symbols that holds of what is written and of what is read *)
Definition writes (Q : tok -> Prop) (o : op) : Prop :=
  match o with
  | Rewrite rs _ _ | Pairs rs => Forall (fun q : word * word => Forall Q (snd q)) rs
  | Insert new _ _ => Forall Q new
  end.
Lemma performs_writes Q o ts out : writes Q o -> performs o ts out -> Forall Q ts -> Forall Q out.
Proof.
  destruct o as [rs p f|new p f|l]; cbn [writes performs]; intros W H Hs.
  - induction H as [done|done l r rest out I P F T IH|done t rest out N T IH]; [constructor| |].
    + apply Forall_app in Hs as [_ Hs]. apply Forall_app. split; [exact (proj1 (Forall_forall _ _) W _ I)|exact (IH Hs)].
    + inversion Hs; subst. constructor; [assumption|apply IH; assumption].
  - induction H as [done P F|done N|done t rest out P F T IH|done t rest out N T IH]; [exact W|constructor| |].
    + inversion Hs; subst. apply Forall_app. split; [exact W|constructor; [assumption|apply IH; assumption]].
    + inversion Hs; subst. constructor; [assumption|apply IH; assumption].
  - induction H as [|a b ts out I T IH]; [constructor|]. apply Forall_app in Hs as [_ Hs]. apply Forall_app. split; [exact (proj1 (Forall_forall _ _) W _ I)|exact (IH Hs)].
Qed.
Lemma well_formed_writes o : well_formed o -> writes symbol o.
Proof.
  destruct o as [rs p f|new p f|l]; cbn [well_formed writes]; [intros (H & _)|intros (H & _); exact H|intros H];
    (eapply Forall_impl; [|exact H]; intros q (_ & Hq & _); exact Hq).
Qed.
Lemma no_translit_forall ts : no_translit ts <-> Forall (fun t => translit t = false) ts.
Proof. unfold no_translit. rewrite forallb_forall, Forall_forall. split; intros H t I; specialize (H t I); [apply negb_true_iff; exact H|apply negb_true_iff in H; exact H || (rewrite H; reflexivity)]. Qed.
Lemma no_translit_writes o : no_translit_op o -> writes (fun t => translit t = false) o.
Proof.
  destruct o as [rs p f|new p f|l]; cbn [no_translit_op writes]; intros H; try (apply no_translit_forall; exact H); (eapply Forall_impl; [|exact H]; intros q Hq; apply no_translit_forall; exact Hq).
Qed.
Lemma run_bytes_ok l : Forall well_formed l -> staged l -> forall ts s, Forall symbol ts -> (Forall no_insert l \/ no_translit ts) ->
  (In s (run_bytes l (encs ts)) <-> exists out, performs_all l ts out /\ s = encs out).
Proof.
  induction l as [|o l IH]; intros W St ts s Hs Hn.
  - cbn. split; [intros [<-|[]]; exists ts; split; [constructor|reflexivity]|intros (out & P & ->); inversion P; subst; left; reflexivity].
  - inversion W as [|? ? Wo Wl]; subst. cbn [run_bytes]. rewrite in_flat_map.
    assert (No : no_insert o \/ no_translit ts) by (destruct Hn as [H|H]; [inversion H; auto|auto]).
    assert (Sl : staged l) by (inversion St as [l0 H|? ? _ H]; subst; [inversion H; subst; apply st_rest; assumption|exact H]).
    assert (Next : forall mid, performs o ts mid -> Forall symbol mid /\ (Forall no_insert l \/ no_translit mid)).
    { intros mid P. split; [exact (performs_writes symbol o ts mid (well_formed_writes o Wo) P Hs)|].
      inversion St as [l0 H|? ? Nt H]; subst; [inversion H; auto|]. destruct Hn as [Hi|Ht]; [inversion Hi; auto|]. right. apply no_translit_forall.
      exact (performs_writes _ o ts mid (no_translit_writes o Nt) P (proj1 (no_translit_forall ts) Ht)). }
    split.
    + intros (m & Im & I). apply (op_bytes_ok o ts m Wo Hs No) in Im as (mid & P & ->). destruct (Next mid P) as [Sm Nm]. apply (IH Wl Sl mid s Sm Nm) in I as (out & Q & ->). exists out. split; [exact (pa_op o l ts mid out P Q)|reflexivity].
    + intros (out & P & ->). inversion P as [|? ? ? mid ? P1 P2]; subst. destruct (Next mid P1) as [Sm Nm]. exists (encs mid). split; [apply (op_bytes_ok o ts _ Wo Hs No); eauto|apply (IH Wl Sl mid _ Sm Nm); eauto].
Qed.

(** ** The operations on symbols compute what they mean *)
Definition nonempty_op (o : op) : Prop := match o with Rewrite rs _ _ | Pairs rs => Forall (fun q : word * word => fst q <> []) rs | Insert _ _ _ => True end.
Lemma well_formed_nonempty o : well_formed o -> nonempty_op o.
Proof. destruct o as [rs p f|new p f|l]; cbn; [intros (H & _)|trivial|intros H]; (eapply Forall_impl; [|exact H]; apply rule_nonempty). Qed.
Lemma tscan_skip rs p f outr k : forall s, tscan rs p f outr k s = tscan rs p f outr 0 (skipn k s).
Proof. induction k as [|k IH]; intros s; [reflexivity|]. destruct s as [|t s]; [reflexivity|]. cbn [tscan skipn]. apply IH. Qed.
Lemma tapplicable_ok f s l r : tapplicable (skip_after f) s (l, r) = true <-> exists u, s = l ++ u /\ followed f u.
Proof.
  unfold tapplicable. cbn [fst]. destruct (tprefix l s) eqn:E.
  - apply tprefix_spec in E as (u & ->). rewrite skipn_app, skipn_all, Nat.sub_diag. cbn [app skipn]. rewrite followed_ok. split; [intros F; exists u; auto|intros (u' & Eu & F); apply app_inv_head in Eu; subst; exact F].
  - split; [discriminate|]. intros (u & Eu & _). assert (tprefix l s = true) by (apply tprefix_spec; eauto). congruence.
Qed.
Lemma tscan_ok rs p f n : Forall (fun q : word * word => fst q <> []) rs -> forall ts done o, length ts <= n ->
  (In o (tscan rs (skip_before p) (skip_after f) (rev done) 0 ts) <-> exists out, rewriting rs p f done ts out /\ o = done ++ out).
Proof.
  intros Hr. assert (Ne : forall l r, In (l, r) rs -> l <> []) by (intros l r I; exact (proj1 (Forall_forall _ _) Hr _ I)).
  induction n as [|n IH]; intros ts done o Hn.
  - destruct ts; [|cbn in Hn; lia]. cbn [tscan In]. rewrite rev_involutive. split; [intros [<-|[]]; exists []; rewrite app_nil_r; split; [constructor|reflexivity]|].
    intros (out & R & ->). left. remember ([] : word) as z eqn:Ez in R. destruct R as [|done l r rest out I P F R|]; [rewrite app_nil_r; reflexivity| |discriminate Ez]. exfalso. apply app_eq_nil in Ez as [E _]. exact (Ne l r I E).
  - destruct ts as [|t ts]; [apply IH; cbn; lia|]. cbn [tscan].
    assert (CopyOut : (forall l r u, In (l, r) rs -> t :: ts = l ++ u -> followed f u -> ~ preceded p done) ->
      (In o (tscan rs (skip_before p) (skip_after f) (t :: rev done) 0 ts) <-> exists out, rewriting rs p f done (t :: ts) out /\ o = done ++ out)).
    { intros NA. replace (t :: rev done) with (rev (done ++ [t])) by (rewrite rev_app_distr; reflexivity). rewrite (IH ts (done ++ [t]) o) by (cbn in Hn; lia). split.
      - intros (out & R & ->). exists (t :: out). rewrite <- app_assoc. split; [constructor; assumption|reflexivity].
      - intros (out & R & ->). remember (t :: ts) as z eqn:Ez in R. destruct R as [|done l r rest out I P F R|done t' rest out N R]; [discriminate Ez|exfalso; exact (NA l r rest I (eq_sym Ez) F P)|]. injection Ez as -> ->. exists out. rewrite <- app_assoc. split; [exact R|reflexivity]. }
    destruct (filter (tapplicable (skip_after f) (t :: ts)) rs) as [|m ms] eqn:F0.
    + apply CopyOut. intros l r u I E Fu _. assert (A : In (l, r) (filter (tapplicable (skip_after f) (t :: ts)) rs)) by (apply filter_In; split; [exact I|apply tapplicable_ok; eauto]). rewrite F0 in A. destruct A.
    + rewrite <- F0. destruct (tctx_ok (skip_before p) (rev done)) eqn:L.
      * apply preceded_ok in L. rewrite in_flat_map. split.
        -- intros ([l r] & I & H). apply filter_In in I as [I A]. apply tapplicable_ok in A as (u & Eu & Fu). cbn [fst snd] in H. rewrite tscan_skip in H. destruct l as [|a l]; [destruct (Ne [] r I eq_refl)|]. cbn in Eu. injection Eu as <- ->. cbn [length] in H. rewrite Nat.sub_1_r in H. cbn [pred] in H.
           rewrite skipn_app, skipn_all, Nat.sub_diag in H. cbn [app skipn] in H. rewrite <- rev_app_distr in H. apply IH in H; [|cbn in Hn; rewrite app_length in Hn; lia]. destruct H as (out & R & ->). exists (r ++ out). rewrite app_assoc. split; [|reflexivity]. exact (re_apply rs p f done (t :: l) r u out I L Fu R).
        -- intros (out & R & ->). remember (t :: ts) as z eqn:Ez in R. destruct R as [|done l r rest out I P F R|done t' rest out N R]; [discriminate Ez| |].
           ++ exists (l, r). split; [apply filter_In; split; [exact I|apply tapplicable_ok; eauto]|]. cbn [fst snd]. rewrite tscan_skip. destruct l as [|a l]; [destruct (Ne [] r I eq_refl)|]. cbn in Ez. injection Ez as -> <-. cbn [length]. rewrite Nat.sub_1_r. cbn [pred]. rewrite skipn_app, skipn_all, Nat.sub_diag. cbn [app skipn]. rewrite <- rev_app_distr.
              apply IH; [cbn in Hn; rewrite app_length in Hn; lia|]. exists out. rewrite <- app_assoc. split; [exact R|reflexivity].
           ++ exfalso. assert (A : In m (filter (tapplicable (skip_after f) (t' :: rest)) rs)) by (rewrite Ez, F0; left; reflexivity). apply filter_In in A as [A B]. destruct m as [l r]. apply tapplicable_ok in B as (u & Eu & Fu). exact (N l r u A Eu Fu L).
      * assert (NP : ~ preceded p done) by (rewrite <- preceded_ok; congruence). apply CopyOut. intros l r u _ _ _. exact NP.
Qed.
Lemma tinsert_ok new p f ts : forall done, exists out, tinsert new (skip_before p) (skip_after f) (rev done) ts = done ++ out /\ inserting new p f done ts out /\ forall o, inserting new p f done ts o -> o = out.
Proof.
  induction ts as [|t ts IH]; intros done; cbn [tinsert].
  - destruct (tctx_ok (skip_before p) (rev done)) eqn:L; [destruct (tctx_ok (skip_after f) []) eqn:R|].
    + apply preceded_ok in L. apply followed_ok in R. exists new. rewrite rev_app_distr, !rev_involutive. split; [reflexivity|split; [constructor; assumption|]]. intros o I. remember ([] : word) as z eqn:Ez in I. destruct I; try discriminate Ez; [reflexivity|exfalso; tauto].
    + assert (N : ~ (preceded p done /\ followed f [])) by (rewrite <- followed_ok; intuition congruence). exists []. rewrite rev_involutive, app_nil_r. split; [reflexivity|split; [constructor; exact N|]]. intros o I. remember ([] : word) as z eqn:Ez in I. destruct I; try discriminate Ez; [exfalso; tauto|reflexivity].
    + assert (N : ~ (preceded p done /\ followed f [])) by (rewrite <- preceded_ok; intuition congruence). exists []. rewrite rev_involutive, app_nil_r. split; [reflexivity|split; [constructor; exact N|]]. intros o I. remember ([] : word) as z eqn:Ez in I. destruct I; try discriminate Ez; [exfalso; tauto|reflexivity].
  - assert (Copy : ~ (preceded p done /\ followed f (t :: ts)) -> exists out, tinsert new (skip_before p) (skip_after f) (t :: rev done) ts = done ++ out /\ inserting new p f done (t :: ts) out /\ forall o, inserting new p f done (t :: ts) o -> o = out).
    { intros N. destruct (IH (done ++ [t])) as (out & E & I & U). rewrite rev_app_distr in E. cbn in E. exists (t :: out). split; [rewrite E, <- app_assoc; reflexivity|split; [apply in_copy; assumption|]].
      intros o J. remember (t :: ts) as z eqn:Ez. destruct J as [| |done t' rest o P F J|done t' rest o N' J]; try discriminate Ez; injection Ez as -> ->; [exfalso; tauto|f_equal; apply U; exact J]. }
    destruct (tctx_ok (skip_before p) (rev done)) eqn:L; [destruct (tctx_ok (skip_after f) (t :: ts)) eqn:R|].
    + apply preceded_ok in L. apply followed_ok in R. destruct (IH (done ++ new ++ [t])) as (out & E & I & U). rewrite !rev_app_distr in E. cbn in E. exists (new ++ t :: out). split; [rewrite E, <- !app_assoc; reflexivity|split; [apply in_new; assumption|]].
      intros o J. remember (t :: ts) as z eqn:Ez. destruct J as [| |done t' rest o P F J|done t' rest o N' J]; try discriminate Ez; injection Ez as -> ->; [do 2 f_equal; apply U; exact J|exfalso; tauto].
    + apply Copy. rewrite <- followed_ok. intuition congruence.
    + apply Copy. rewrite <- preceded_ok. intuition congruence.
Qed.
Lemma tpairs_ok l : Forall (fun q : word * word => fst q <> []) l -> forall n ts out, length ts <= n -> (In out (tpairs n l ts) <-> translated l ts out).
Proof.
  intros Hl. assert (Ne : forall a b, In (a, b) l -> a <> []) by (intros a b I; exact (proj1 (Forall_forall _ _) Hl _ I)).
  assert (Nil : forall out, [] = out <-> translated l [] out).
  { intros out. split; [intros <-; constructor|]. intros T. remember ([] : word) as z eqn:Ez in T. destruct T as [|a b ts o I T]; [reflexivity|]. apply app_eq_nil in Ez as [E _]. destruct (Ne a b I E). }
  induction n as [|n IH]; intros ts out Hn.
  - destruct ts; [|cbn in Hn; lia]. cbn. rewrite <- Nil. tauto.
  - destruct ts as [|t ts]; [cbn; rewrite <- Nil; tauto|]. cbn [tpairs]. rewrite in_flat_map. split.
    + intros ([a b] & I & H). cbn [fst snd] in H. destruct (tprefix a (t :: ts)) eqn:E; [|destruct H]. apply tprefix_spec in E as (u & E). apply in_map_iff in H as (o & <- & H). rewrite E in *. rewrite skipn_app, skipn_all, Nat.sub_diag in H. cbn [app skipn] in H.
      apply IH in H; [constructor; assumption|]. clear E. rewrite app_length in Hn. pose proof (Ne a b I). destruct a; [congruence|cbn in Hn; lia].
    + intros T. remember (t :: ts) as z eqn:Ez. destruct T as [|a b u o I T]; [discriminate Ez|]. exists (a, b). split; [exact I|]. cbn [fst snd]. replace (tprefix a (a ++ u)) with true by (symmetry; apply tprefix_spec; eauto). apply in_map. rewrite skipn_app, skipn_all, Nat.sub_diag. cbn [app skipn].
      apply IH; [|exact T]. rewrite ?Ez in Hn. apply (f_equal (@length tok)) in Ez. rewrite app_length in Ez. cbn in Ez, Hn. pose proof (Ne a b I). destruct a; [congruence|cbn in Ez; lia].
Qed.
Lemma op_toks_ok o ts out : nonempty_op o -> (In out (op_toks o ts) <-> performs o ts out).
Proof.
  destruct o as [rs p f|new p f|l]; cbn [nonempty_op op_toks performs]; intros H.
  - rewrite (tscan_ok rs p f (length ts) H ts [] out (le_n _)). cbn [app]. split; [intros (o & R & ->); exact R|intros R; exists out; auto].
  - destruct (tinsert_ok new p f ts []) as (o & E & I & U). cbn [rev app] in E. rewrite E. cbn [In]. split; [intros [<-|[]]; exact I|intros J; left; symmetry; exact (U out J)].
  - apply tpairs_ok; [exact H|apply le_n].
Qed.
Lemma run_ok l : Forall nonempty_op l -> forall ts out, In out (run l ts) <-> performs_all l ts out.
Proof.
  induction 1 as [|o l Ho H IH]; intros ts out; cbn [run].
  - cbn. split; [intros [<-|[]]; constructor|intros P; inversion P; auto].
  - rewrite in_flat_map. split; [intros (m & I & J); apply (op_toks_ok o ts m Ho) in I; apply IH in J; exact (pa_op o l ts m out I J)|intros P; inversion P as [|? ? ? m ? P1 P2]; subst; exists m; rewrite (op_toks_ok o ts m Ho), IH; auto].
Qed.
