(** Operations on bytes and on symbols when transliterations stand in the text and nothing
    is aligned. *)
From Coq Require Import String.
From Verif Require Import Base RuleModel RegexModel RegexProofs IsoModel AlignModel AlignSpec AlignProofs AlignMore NatModel NatSpec NatProofs NatBytes NatBlocks NatBlocksProofs NatTyp NatTypMain.
Local Open Scope list_scope.

Definition plain (t : tok) : Prop := match t with Gr s | Tr s => s <> [] | _ => False end.
Definition ends_tr (r : tre) : Prop := forall a, means r a -> exists a' n, a = a' ++ [Tr n] /\ n <> [].
Lemma plain_no_sign done : Forall plain done -> Forall symbol done -> ~ In 61%N (encs done).
Proof.
  intros Hp Hs I. unfold encs in I. apply in_flat_map in I as (t & It & I). pose proof (proj1 (Forall_forall _ _) Hp _ It) as P. pose proof (proj1 (Forall_forall _ _) Hs _ It) as S.
  assert (K : forall s, Forall sym_char s -> ~ In 61%N s) by (intros s F J; apply (not_sym 61%N); [cbn; tauto|exact (proj1 (Forall_forall _ _) F _ J)]).
  destruct t as [s|s|s|]; cbn [plain symbol enc] in *; try contradiction; rewrite !in_app_iff in I; destruct I as [[I|[]]|[I|[I|[]]]]; try discriminate I; destruct (K s S I).
Qed.
Lemma closes done : Forall plain done -> done <> [] -> exists v c, encs done = v ++ [c] /\ In c [62; 125; 96; 61]%N.
Proof.
  intros _ N. destruct (exists_last N) as (d & t & ->). rewrite encs_app. cbn [encs flat_map]. rewrite app_nil_r. destruct (closing_end t) as (v & c & E & I). exists (encs d ++ v), c. rewrite E, app_assoc. auto.
Qed.
Lemma lc_inside_tr r edge done t u v : symbols_in r -> ends_tr r -> Forall plain done -> Forall symbol done -> symbol t -> plain t -> enc t = u ++ v -> u <> [] -> v <> [] ->
  lc_of (Some (edge, r)) (rev (encs done ++ u)) = false.
Proof.
  intros Hp Hr Pd Sd Hs Pt E Nu Nv. destruct (translit t) eqn:Ht.
  2:{ apply (lc_inside (Some (edge, r)) done t u v); try assumption. right. intros M. destruct (Hr [] M) as (a' & n & Ea & _). destruct a'; discriminate Ea. }
  destruct t as [s|s|s|]; try discriminate Ht. clear Ht. cbn [symbol plain enc] in Hs, Pt, E. apply not_true_is_false. unfold lc_of. cbn [enc_ctx option_map]. rewrite left_ok_iff. intros (y & x & Ex & M & Y).
  apply (cat_skip_left r x Hp) in M as (a & k & A & K & Sw & ->). destruct (Hr a A) as (a' & n & -> & Nn).
  assert (Sn : Forall sym_char n). { apply Forall_app in Sw as [Sw _]. apply Forall_app in Sw as [_ Sw]. inversion Sw; subst. assumption. }
  assert (Nu61 : ~ In 61%N (encs done ++ u)).
  { rewrite in_app_iff. intros [I|I]; [exact (plain_no_sign done Pd Sd I)|]. assert (J : In 61%N (96%N :: s ++ [96%N])) by (change (96%N :: s ++ [96%N]) with ([96%N] ++ s ++ [96%N]); rewrite E; apply in_app_iff; auto).
    destruct J as [J|J]; [discriminate J|]. apply in_app_iff in J as [J|[J|[]]]; [|discriminate J]. apply (not_sym 61%N); [cbn; tauto|exact (proj1 (Forall_forall _ _) Hs _ J)]. }
  assert (Kn : k = []).
  { destruct K as [->|[(g & -> & _)|(q & -> & _)]]; [reflexivity|exfalso; apply Nu61; rewrite Ex, !encs_app; cbn [encs flat_map enc]; rewrite !in_app_iff; cbn; tauto|].
    exfalso. apply Nu61. rewrite Ex, !encs_app, encs_cons. cbn [enc]. rewrite !in_app_iff. cbn. tauto. }
  subst k. rewrite app_nil_r, encs_app in Ex. cbn [encs flat_map enc] in Ex. rewrite app_nil_r in Ex.
  destruct u as [|c u]; [congruence|]. cbn in E. injection E as <- E. destruct (exists_last Nv) as (v' & z & ->). rewrite app_assoc in E. apply app_inj_tail in E as [Es <-].
  destruct (exists_last Nn) as (n' & c & ->). apply Forall_app in Sn as [_ Sc]. inversion Sc as [|? ? Hc _]; subst.
  assert (Ex' : encs done ++ [96%N] ++ u = ((y ++ encs a') ++ [96%N] ++ n' ++ [c]) ++ [96%N]) by (cbn [app] in *; rewrite Ex, <- !app_assoc; cbn; rewrite <- !app_assoc; reflexivity).
  destruct u as [|c0 u0].
  - rewrite app_nil_r in Ex'. apply app_inj_tail in Ex' as [Ex' _]. destruct (list_eq_dec N.eq_dec (encs done) []) as [Z|Z]; [rewrite Z in Ex'; destruct (y ++ encs a'); discriminate Ex'|].
    assert (Nd : done <> []) by (intros ->; exact (Z eq_refl)). destruct (closes done Pd Nd) as (w & c1 & Ew & Ic). rewrite Ew in Ex'. rewrite !app_assoc in Ex'. apply app_inj_tail in Ex' as [_ ->]. apply (not_sym c); [cbn in Ic |- *; tauto|exact Hc].
  - assert (Nuu : c0 :: u0 <> []) by discriminate. destruct (exists_last Nuu) as (u1 & c1 & Eu). rewrite Eu in *. rewrite !app_assoc in Ex'. apply app_inj_tail in Ex' as [_ ->]. apply Forall_app in Hs as [Hs _]. apply Forall_app in Hs as [_ Hs]. inversion Hs as [|? ? H96 _]; subst. apply (not_sym 96%N); [cbn; tauto|exact H96].
Qed.
Section Insertion.
Variables (new : word) (edge : bool) (r : tre) (f : tctx).
Local Notation p := (Some (edge, r) : tctx).
Hypothesis Hw : Forall symbol new.
Hypothesis Hpl : Forall plain new.
Hypothesis Hp : symbols_in r.
Hypothesis Hf : symbols_ctx f.
Hypothesis Hr : ends_tr r.
Lemma insert_inside_tr done t ts v : Forall plain done -> Forall symbol done -> symbol t -> plain t -> forall u, enc t = u ++ v -> u <> [] ->
  insert_scan (encs new) (lc_of p) (rc_of f) (rev (encs done ++ u)) (v ++ encs ts) = insert_scan (encs new) (lc_of p) (rc_of f) (rev (encs (done ++ [t]))) (encs ts).
Proof.
  intros Pd Sd Hs Ht. induction v as [|c v IH]; intros u E Nu.
  - rewrite app_nil_r in E. cbn [app]. rewrite encs_app. cbn [encs flat_map]. rewrite app_nil_r, E. reflexivity.
  - cbn [app insert_scan]. rewrite (lc_inside_tr r edge done t u (c :: v) Hp Hr Pd Sd Hs Ht E Nu ltac:(discriminate)). cbn [andb].
    replace (c :: rev (encs done ++ u)) with (rev (encs done ++ u ++ [c])) by (rewrite app_assoc, (rev_app_distr _ [c]); reflexivity).
    apply IH; [rewrite <- app_assoc; exact E|destruct u; discriminate].
Qed.
Lemma insert_toks_tr ts : Forall symbol ts -> Forall plain ts -> forall done o, Forall symbol done -> Forall plain done ->
  (In o (insert_scan (encs new) (lc_of p) (rc_of f) (rev (encs done)) (encs ts)) <-> exists out, inserting new p f done ts out /\ o = encs (done ++ out)).
Proof.
  induction ts as [|t ts IH]; intros Hs Ht done o Hd Pd.
  - cbn [encs flat_map insert_scan]. assert (R : rc_of f [] = true <-> followed f []) by (apply (rc_of_ok f [] Hf); constructor). pose proof (lc_of_ok p done Hp Hd) as L.
    destruct (lc_of p (rev (encs done)) && rc_of f []) eqn:B.
    + apply andb_prop in B as [El Er]. apply L in El. apply R in Er. rewrite <- rev_app_distr, rev_involutive, <- encs_app. cbn [In]. split; [intros [<-|[]]; exists new; split; [constructor; tauto|reflexivity]|].
      intros (out & I & ->). left. remember [] as z eqn:Ez. destruct I; try discriminate Ez; [reflexivity|]. exfalso. tauto.
    + rewrite rev_involutive. cbn [In]. assert (N : ~ (preceded p done /\ followed f [])) by (intros [P F]; apply L in P; apply R in F; rewrite P, F in B; discriminate B).
      split; [intros [<-|[]]; exists []; rewrite app_nil_r; split; [constructor; exact N|reflexivity]|]. intros (out & I & ->). left. remember [] as z eqn:Ez. destruct I; try discriminate Ez; [exfalso; tauto|rewrite app_nil_r; reflexivity].
  - inversion Hs as [|? ? Hst Hss]; subst. inversion Ht as [|? ? Htt Hts]; subst.
    pose proof (lc_of_ok p done Hp Hd) as L. pose proof (rc_of_ok f (t :: ts) Hf Hs) as R.
    rewrite encs_cons in *. destruct (enc_open t) as (v & Ev). rewrite Ev in *. cbn [app] in *. cbn [insert_scan].
    assert (Go : forall d, Forall symbol d -> Forall plain d -> insert_scan (encs new) (lc_of p) (rc_of f) (opening t :: rev (encs d)) (v ++ encs ts) = insert_scan (encs new) (lc_of p) (rc_of f) (rev (encs (d ++ [t]))) (encs ts)).
    { intros d Hd' Pd'. rewrite <- (insert_inside_tr d t ts v Pd' Hd' Hst Htt [opening t] Ev ltac:(discriminate)). rewrite rev_app_distr. reflexivity. }
    destruct (lc_of p (rev (encs done)) && rc_of f (opening t :: v ++ encs ts)) eqn:B.
    + apply andb_prop in B as [El Er]. apply L in El. apply R in Er. rewrite <- rev_app_distr, <- encs_app, Go by (apply Forall_app; auto). rewrite <- app_assoc. rewrite (IH Hss Hts (done ++ new ++ [t]) o) by (rewrite !Forall_app; auto).
      split.
      * intros (out & I & ->). exists (new ++ t :: out). split; [apply in_new; assumption|]. f_equal. rewrite <- !app_assoc. reflexivity.
      * intros (out & I & ->). remember (t :: ts) as z eqn:Ez. destruct I as [| |done t' rest out P F I|done t' rest out N I]; try discriminate Ez; injection Ez as -> ->; [exists out; split; [exact I|f_equal; rewrite <- !app_assoc; reflexivity]|exfalso; tauto].
    + rewrite (Go done Hd Pd). rewrite (IH Hss Hts (done ++ [t]) o) by (rewrite Forall_app; auto).
      assert (N : ~ (preceded p done /\ followed f (t :: ts))) by (intros [P F]; apply L in P; apply R in F; rewrite P, F in B; discriminate B). split.
      * intros (out & I & ->). exists (t :: out). split; [apply in_copy; assumption|]. f_equal. rewrite <- app_assoc. reflexivity.
      * intros (out & I & ->). remember (t :: ts) as z eqn:Ez. destruct I as [| |done t' rest out P F I|done t' rest out N' I]; try discriminate Ez; injection Ez as -> ->; [exfalso; tauto|exists out; split; [exact I|f_equal; rewrite <- app_assoc; reflexivity]].
Qed.
End Insertion.

(** ** Lists of operations *)
Definition plain_op (o : op) : Prop :=
  match o with
  | Rewrite rs p f => Forall symbol_rule rs /\ symbols_ctx p /\ symbols_ctx f
  | Insert new (Some (_, r)) f => Forall symbol new /\ symbols_in r /\ symbols_ctx f /\ ends_tr r
  | _ => False
  end /\ writes plain o.
Lemma op_plain o ts s : plain_op o -> Forall symbol ts -> Forall plain ts -> (In s (op_bytes o (encs ts)) <-> exists out, performs o ts out /\ s = encs out).
Proof.
  intros [W P] Hs Hp. destruct o as [rs p f|new [[edge r]|] f|l]; try destruct W.
  - apply rewrite_bytes; cbn; tauto.
  - destruct H0 as (Hr & Hf & He). cbn [op_bytes performs]. unfold insert_op. fold (lc_of (Some (edge, r))) (rc_of f). apply (insert_toks_tr new edge r f H P Hr Hf He ts Hs Hp [] s); constructor.
Qed.
Lemma plain_next o ts mid : plain_op o -> performs o ts mid -> Forall symbol ts -> Forall plain ts -> Forall symbol mid /\ Forall plain mid.
Proof.
  intros [W P] R Hs Hp. split; [|exact (performs_writes plain o ts mid P R Hp)]. apply (performs_writes symbol o ts mid); [|exact R|exact Hs].
  destruct o as [rs p f|new [[edge r]|] f|l]; try destruct W; cbn [writes]; [|assumption]. eapply Forall_impl; [|exact H]. intros q (_ & K & _). exact K.
Qed.
Lemma run_plain l : Forall plain_op l -> forall ts s, Forall symbol ts -> Forall plain ts -> (In s (run_bytes l (encs ts)) <-> exists out, performs_all l ts out /\ s = encs out).
Proof.
  induction 1 as [|o l Wo Wl IH]; intros ts s Hs Hp.
  - cbn. split; [intros [<-|[]]; exists ts; split; [constructor|reflexivity]|intros (out & P & ->); inversion P; subst; left; reflexivity].
  - cbn [run_bytes]. rewrite in_flat_map. split.
    + intros (m & Im & I). apply (op_plain o ts m Wo Hs Hp) in Im as (mid & P & ->). destruct (plain_next o ts mid Wo P Hs Hp) as [Sm Pm]. apply (IH mid s Sm Pm) in I as (out & Q & ->). exists out. split; [exact (pa_op o l ts mid out P Q)|reflexivity].
    + intros (out & P & ->). inversion P as [|? ? ? mid ? P1 P2]; subst. destruct (plain_next o ts mid Wo P1 Hs Hp) as [Sm Pm]. exists (encs mid). split; [apply (op_plain o ts _ Wo Hs Hp); eauto|apply (IH mid _ Sm Pm); eauto].
Qed.
Lemma plain_all l ts out : Forall plain_op l -> performs_all l ts out -> Forall symbol ts -> Forall plain ts -> Forall symbol out /\ Forall plain out.
Proof.
  intros W P. induction P as [ts|o l ts mid out P Q IH]; intros Hs Hp; [auto|]. inversion W; subst. destruct (plain_next o ts mid ltac:(assumption) P Hs Hp). auto.
Qed.

(** ** One result *)
Definition one_op (o : op) : Prop := match o with Rewrite rs _ _ => nonempty_rules rs /\ apartb rs = true | Insert _ _ _ => True | Pairs _ => False end.
Lemma rewriting_ctx_unique rs p f d ts out : nonempty_rules rs -> apartb rs = true -> rewriting rs p f d ts out -> forall out', rewriting rs p f d ts out' -> out = out'.
Proof.
  intros Ne A. induction 1 as [done|done l r rest out I P F R IH|done t rest out N R IH]; intros out' R'.
  - symmetry. exact (rewriting_nil _ _ _ _ _ Ne R').
  - apply rewriting_inv in R' as [[E _]|[(l' & r' & u & o & I' & _ & _ & E & Eo & R')|(t' & rest' & o & N & E & Eo & R')]].
    + apply app_eq_nil in E as [E _]. destruct (proj1 (Forall_forall _ _) Ne _ I E).
    + pose proof (apartb_ok rs A l r l' r' rest u I I' E) as K. injection K as <- <-. apply app_inv_head in E as <-. subst. f_equal. exact (IH _ R').
    + destruct (N l r rest I (eq_sym E) F P).
  - apply rewriting_inv in R' as [[E _]|[(l' & r' & u & o & I' & P' & F' & E & Eo & R')|(t' & rest' & o & N' & E & Eo & R')]]; [discriminate E|destruct (N l' r' u I' E F' P')|]. injection E as <- <-. subst. f_equal. exact (IH _ R').
Qed.
Lemma performs_unique o ts out out' : one_op o -> performs o ts out -> performs o ts out' -> out = out'.
Proof.
  destruct o as [rs p f|new p f|l]; cbn [one_op performs]; intros W P Q; [destruct W as [Ne A]; exact (rewriting_ctx_unique rs p f [] ts out Ne A P out' Q)| |destruct W].
  destruct (tinsert_ok new p f ts []) as (o & _ & _ & U). rewrite (U _ P), (U _ Q). reflexivity.
Qed.
Lemma performs_all_unique l ts out : Forall one_op l -> performs_all l ts out -> forall out', performs_all l ts out' -> out = out'.
Proof.
  intros W P. induction P as [ts|o l ts mid out P Q IH]; intros out' R; [inversion R; reflexivity|]. inversion W; subst. inversion R as [|? ? ? mid' ? P' Q']; subst. rewrite (performs_unique o ts mid mid' ltac:(assumption) P P') in *. auto.
Qed.
Lemma one_total l ts : Forall one_op l -> exists out, performs_all l ts out.
Proof.
  revert ts. induction l as [|o l IH]; intros ts W; [exists ts; constructor|]. inversion W as [|? ? Wo Wl]; subst.
  assert (T : exists m, performs o ts m). { destruct o as [rs p f|new p f|q]; cbn [one_op performs] in *; [exact (rewriting_total rs p f (List.length ts) (proj1 Wo) ts [] (le_n _))|destruct (tinsert_ok new p f ts []) as (o & _ & I & _); eauto|destruct Wo]. }
  destruct T as (m & P). destruct (IH m Wl) as (out & Q). exists out. econstructor; eassumption.
Qed.
Lemma performs_all_app l l' ts out : performs_all (l ++ l') ts out <-> exists mid, performs_all l ts mid /\ performs_all l' mid out.
Proof.
  split.
  - revert ts. induction l as [|o l IH]; intros ts P; [exists ts; split; [constructor|exact P]|]. cbn in P. inversion P as [|? ? ? m ? P1 P2]; subst. destruct (IH m P2) as (mid & Q & R). exists mid. split; [econstructor; eassumption|exact R].
  - intros (mid & P & Q). induction P as [|o l ts m mid P1 P2 IH]; [exact Q|]. cbn. econstructor; [exact P1|exact (IH Q)].
Qed.
