(** Operations on bytes and on symbols. *)
From Verif Require Import Base RuleModel RegexModel RegexProofs IsoModel AlignModel AlignSpec AlignProofs NatModel NatSpec.

Lemma tok_eqb_spec a b : tok_eqb a b = true <-> a = b.
Proof. destruct a, b; cbn; try (split; [discriminate|discriminate]); try (rewrite str_eqb_eq; split; congruence); split; reflexivity. Qed.
Lemma word_eqb_spec a : forall b, word_eqb a b = true <-> a = b.
Proof.
  induction a as [|x a IH]; intros [|y b]; cbn; try (split; [discriminate|discriminate]); [split; reflexivity|].
  destruct (tok_eqb x y) eqn:E; [apply tok_eqb_spec in E; subst; rewrite IH; split; congruence|].
  split; [discriminate|]. intros H. injection H as -> ->. assert (tok_eqb y y = true) by (apply tok_eqb_spec; reflexivity). congruence.
Qed.
Lemma tprefix_spec l : forall s, tprefix l s = true <-> exists u, s = l ++ u.
Proof.
  induction l as [|a l IH]; intros s; cbn; [split; [intros _; exists s; reflexivity|reflexivity]|]. destruct s as [|b s]; [split; [discriminate|intros (u & E); discriminate E]|].
  destruct (tok_eqb a b) eqn:E.
  - apply tok_eqb_spec in E. subst. rewrite IH. split; intros (u & Hu); exists u; [rewrite Hu; reflexivity|injection Hu as Hu; exact Hu].
  - split; [discriminate|]. intros (u & Hu). injection Hu as -> _. assert (tok_eqb a a = true) by (apply tok_eqb_spec; reflexivity). congruence.
Qed.

(** ** Derivatives *)
Lemma words_inv l w : means (TWords l) w <-> In w l. Proof. split; [intros H; inversion H; assumption|constructor; assumption]. Qed.
Lemma graphemes_inv w : means TGraphemes w <-> forallb grapheme w = true. Proof. split; [intros H; inversion H; assumption|constructor; assumption]. Qed.
Lemma rights_inv w : means TRights w <-> forallb right_symbol w = true. Proof. split; [intros H; inversion H; assumption|constructor; assumption]. Qed.
Lemma tcat_inv a b w : means (TCat a b) w <-> exists u v, w = u ++ v /\ means a u /\ means b v.
Proof. split; [intros H; inversion H; subst; eauto|intros (u & v & -> & A & B); constructor; assumption]. Qed.
Lemma talt_inv a b w : means (TAlt a b) w <-> means a w \/ means b w.
Proof. split; [intros H; inversion H; subst; auto|intros [A|B]; [apply m_left|apply m_right]; assumption]. Qed.
Lemma tques_inv a w : means (TQues a) w <-> w = [] \/ means a w.
Proof. split; [intros H; inversion H; subst; auto|intros [->|A]; [apply m_none|apply m_some; exact A]]. Qed.
Lemma tstar_inv a w : means (TStar a) w <-> exists l, Forall (means a) l /\ w = concat l.
Proof.
  split.
  - intros H. remember (TStar a) as r eqn:E. induction H; try discriminate E; injection E as ->; [exists []; split; [constructor|reflexivity]|].
    destruct (IHmeans2 eq_refl) as (l & F & ->). exists (u :: l). split; [constructor; assumption|reflexivity].
  - intros (l & F & ->). induction F as [|u l Hu F IH]; cbn; [apply m_stop|apply m_more; assumption].
Qed.
Lemma tnullable_spec r : tnullable r = true <-> means r [].
Proof.
  induction r as [l| | |a IHa b IHb|a IHa b IHb|a IHa|a IHa]; cbn [tnullable].
  - rewrite words_inv, existsb_exists. split; [intros ([|x w] & I & E); [exact I|discriminate E]|intros I; exists []; split; [exact I|reflexivity]].
  - split; [intros _; constructor; reflexivity|reflexivity].
  - split; [intros _; constructor; reflexivity|reflexivity].
  - rewrite tcat_inv. destruct (tnullable a).
    + rewrite IHb. split; [intros B; exists [], []; split; [reflexivity|split; [apply IHa; reflexivity|exact B]]|intros (u & v & E & A & B); symmetry in E; apply app_eq_nil in E as [-> ->]; exact B].
    + split; [discriminate|]. intros (u & v & E & A & B). symmetry in E. apply app_eq_nil in E as [-> ->]. apply IHa in A. discriminate A.
  - rewrite talt_inv. destruct (tnullable a); [split; [intros _; left; apply IHa; reflexivity|reflexivity]|]. rewrite IHb. split; [auto|intros [A|B]; [apply IHa in A; discriminate A|exact B]].
  - split; [intros _; constructor|reflexivity].
  - split; [intros _; constructor|reflexivity].
Qed.
Lemma tok_eqb_refl t : tok_eqb t t = true. Proof. apply tok_eqb_spec; reflexivity. Qed.
Lemma ttails_spec t l s : In s (ttails t l) <-> In (t :: s) l.
Proof.
  induction l as [|[|u w] l IH]; cbn [ttails In]; [tauto|rewrite IH; split; [auto|intros [E|I]; [discriminate E|exact I]]|].
  destruct (tok_eqb u t) eqn:E.
  - apply tok_eqb_spec in E. subst. cbn [In]. rewrite IH. split; (intros [H|H]; [left; congruence|right; exact H]).
  - rewrite IH. split; [auto|]. intros [H|H]; [injection H as -> ->; rewrite tok_eqb_refl in E; discriminate E|exact H].
Qed.
Lemma tnull_spec r w : tnull r = true -> ~ means r w.
Proof. destruct r as [[|]| | | | | |]; try discriminate. intros _ H. apply words_inv in H. destruct H. Qed.
Lemma tcat_smart a b w : means (tcat a b) w <-> means (TCat a b) w.
Proof.
  unfold tcat. destruct (tnull a) eqn:E; [|tauto]. rewrite words_inv, tcat_inv. split; [intros []|]. intros (u & v & _ & A & _). exfalso. exact (tnull_spec a u E A).
Qed.
Lemma talt_smart a b w : means (talt a b) w <-> means (TAlt a b) w.
Proof.
  unfold talt. rewrite talt_inv. destruct (tnull a) eqn:E; [split; [auto|intros [A|B]; [destruct (tnull_spec a w E A)|exact B]]|].
  destruct (tnull b) eqn:F; [split; [auto|intros [A|B]; [exact A|destruct (tnull_spec b w F B)]]|]. apply talt_inv.
Qed.
Lemma tderiv_spec t r : forall s, means (tderiv t r) s <-> means r (t :: s).
Proof.
  induction r as [l| | |a IHa b IHb|a IHa b IHb|a IHa|a IHa]; intros s; cbn [tderiv].
  - rewrite !words_inv. apply ttails_spec.
  - rewrite graphemes_inv. cbn [forallb]. destruct (grapheme t); cbn [andb]; [apply graphemes_inv|rewrite words_inv; cbn; split; [tauto|discriminate]].
  - rewrite rights_inv. cbn [forallb]. destruct (right_symbol t); cbn [andb]; [apply rights_inv|rewrite words_inv; cbn; split; [tauto|discriminate]].
  - assert (X : means (TCat a b) (t :: s) <-> (exists u v, s = u ++ v /\ means a (t :: u) /\ means b v) \/ (means a [] /\ means b (t :: s))).
    { rewrite tcat_inv. split.
      - intros ([|x u] & v & E & A & B); cbn in E; [subst v; auto|]. injection E as <- ->. left. exists u, v. auto.
      - intros [(u & v & -> & A & B)|[A B]]; [exists (t :: u), v|exists [], (t :: s)]; auto. }
    rewrite X. destruct (tnullable a) eqn:N.
    + apply tnullable_spec in N. rewrite talt_smart, talt_inv, tcat_smart, tcat_inv, IHb. split; (intros [(u & v & E & A & B)|B]; [left; exists u, v; rewrite IHa in *; auto|right; tauto]).
    + assert (M : ~ means a []) by (rewrite <- tnullable_spec; congruence). rewrite tcat_smart, tcat_inv.
      split; [intros (u & v & E & A & B); left; exists u, v; rewrite IHa in A; auto|intros [(u & v & E & A & B)|[A _]]; [exists u, v; rewrite IHa; auto|contradiction]].
  - rewrite talt_smart, !talt_inv, IHa, IHb. tauto.
  - rewrite tques_inv, IHa. split; [auto|intros [H|H]; [discriminate H|exact H]].
  - rewrite tcat_smart, tcat_inv. split.
    + intros (u & v & -> & A & B). rewrite IHa in A. exact (m_more a (t :: u) v A B).
    + rewrite tstar_inv. intros (l & F & E). induction F as [|u l Hu F IH]; [discriminate E|]. destruct u as [|x u]; [exact (IH E)|]. cbn in E. injection E as <- ->.
      exists u, (concat l). rewrite IHa. split; [reflexivity|split; [exact Hu|apply tstar_inv; exists l; auto]].
Qed.
Lemma taccepts_spec s : forall r, taccepts r s = true <-> means r s.
Proof. induction s as [|t s IH]; intros r; cbn [taccepts]; [apply tnullable_spec|rewrite IH; apply tderiv_spec]. Qed.
Lemma tstarts_spec s : forall r, tstarts r s = true <-> exists a u, s = a ++ u /\ means r a.
Proof.
  induction s as [|t s IH]; intros r; cbn [tstarts]; destruct (tnullable r) eqn:N.
  - split; [intros _; exists [], []; split; [reflexivity|apply tnullable_spec; exact N]|reflexivity].
  - split; [discriminate|]. intros (a & u & E & A). symmetry in E. apply app_eq_nil in E as [-> ->]. apply tnullable_spec in A. congruence.
  - split; [intros _; exists [], (t :: s); split; [reflexivity|apply tnullable_spec; exact N]|reflexivity].
  - rewrite IH. split.
    + intros (a & u & -> & A). exists (t :: a), u. split; [reflexivity|apply tderiv_spec; exact A].
    + intros ([|x a] & u & E & A); [apply tnullable_spec in A; congruence|]. cbn in E. injection E as <- ->. exists a, u. split; [reflexivity|apply tderiv_spec; exact A].
Qed.
Lemma forallb_rev {A} (f : A -> bool) l : forallb f (rev l) = forallb f l.
Proof. induction l as [|x l IH]; [reflexivity|]. cbn [rev]. rewrite forallb_app, IH. cbn. rewrite andb_true_r. apply andb_comm. Qed.
Lemma trev_one r w : means r w -> means (trev r) (rev w).
Proof.
  induction 1; cbn [trev].
  - constructor. apply in_map. assumption.
  - constructor. rewrite forallb_rev. assumption.
  - constructor. rewrite forallb_rev. assumption.
  - rewrite rev_app_distr. constructor; assumption.
  - apply m_left; assumption.
  - apply m_right; assumption.
  - apply m_none.
  - apply m_some; assumption.
  - apply m_stop.
  - rewrite rev_app_distr. apply tstar_inv in IHmeans2 as (l & F & ->). apply tstar_inv. exists (l ++ [rev u]). split; [apply Forall_app; split; [exact F|constructor; [exact IHmeans1|constructor]]|]. rewrite concat_app. cbn. rewrite app_nil_r. reflexivity.
Qed.
Lemma trev_twice r : trev (trev r) = r.
Proof. induction r as [l| | | | | |]; cbn [trev]; try congruence. f_equal. rewrite map_map. rewrite <- (map_id l) at 2. apply map_ext. intros; apply rev_involutive. Qed.
Lemma trev_spec r w : means (trev r) w <-> means r (rev w).
Proof. split; intros H; apply trev_one in H; [rewrite trev_twice in H; exact H|rewrite rev_involutive in H; exact H]. Qed.

(** ** Contexts *)
Lemma tskip_spec w : means TSKIP w <-> skipped w.
Proof.
  unfold TSKIP, TSKIP_LEFT, TSKIP_RIGHT, skipped. rewrite talt_inv, !tques_inv, !tcat_inv. split.
  - intros [[->|(u & v & -> & G & E)]|[->|(u & v & -> & E & R)]]; [auto| |auto|].
    + apply words_inv in E as [<-|[]]. apply graphemes_inv in G. right; left. exists u; auto.
    + apply words_inv in E as [<-|[]]. apply rights_inv in R. right; right. exists v; auto.
  - intros [->|[(g & -> & G)|(r & -> & R)]]; [auto| |].
    + left; right. exists g, [Eq]. split; [reflexivity|split; [constructor; exact G|constructor; left; reflexivity]].
    + right; right. exists [Eq], r. split; [reflexivity|split; [constructor; left; reflexivity|constructor; exact R]].
Qed.
Lemma preceded_ok c done : tctx_ok (skip_before c) (rev done) = true <-> preceded c done.
Proof.
  destruct c as [[edge r]|]; cbn [skip_before tctx_ok preceded]; [|tauto]. destruct edge.
  - rewrite taccepts_spec, trev_spec, rev_involutive, tcat_inv. split.
    + intros (a & x & -> & A & X). exists [], a, x. apply tskip_spec in X. auto.
    + intros (u & a & x & -> & A & X & U). rewrite (U eq_refl). exists a, x. rewrite tskip_spec. auto.
  - rewrite tstarts_spec. split.
    + intros (w & u & E & M). apply trev_spec in M. apply tcat_inv in M as (a & x & Ew & A & X). apply tskip_spec in X. exists (rev u), a, x.
      split; [|split; [exact A|split; [exact X|discriminate]]]. rewrite <- Ew, <- rev_app_distr, <- E, rev_involutive. reflexivity.
    + intros (u & a & x & -> & A & X & _). exists (rev (a ++ x)), (rev u). split; [apply rev_app_distr|]. apply trev_spec. rewrite rev_involutive. apply tcat_inv. exists a, x. rewrite tskip_spec. auto.
Qed.
Lemma followed_ok c rest : tctx_ok (skip_after c) rest = true <-> followed c rest.
Proof.
  destruct c as [[edge r]|]; cbn [skip_after tctx_ok followed]; [|tauto]. destruct edge.
  - rewrite taccepts_spec, tcat_inv. split.
    + intros (x & a & -> & X & A). exists x, a, []. rewrite app_nil_r. apply tskip_spec in X. auto.
    + intros (x & a & u & -> & A & X & U). rewrite (U eq_refl), app_nil_r. exists x, a. rewrite tskip_spec. auto.
  - rewrite tstarts_spec. split.
    + intros (w & u & -> & M). apply tcat_inv in M as (x & a & -> & X & A). apply tskip_spec in X. exists x, a, u. rewrite <- app_assoc. split; [reflexivity|split; [exact A|split; [exact X|discriminate]]].
    + intros (x & a & u & -> & A & X & _). exists (x ++ a), u. rewrite <- app_assoc. split; [reflexivity|]. apply tcat_inv. exists x, a. rewrite tskip_spec. auto.
Qed.

(** ** The meaning of encoded contexts *)
Lemma enc_means r : symbols_in r -> forall x, matches (enc_re r) x <-> exists w, means r w /\ Forall symbol w /\ x = encs w.
Proof.
  induction r as [l| | |a IHa b IHb|a IHa b IHb|a IHa|a IHa]; cbn [symbols_in enc_re]; intros Hs x.
  - rewrite strs_inv, in_map_iff. split.
    + intros (w & <- & I). exists w. split; [constructor; exact I|split; [exact (proj1 (Forall_forall _ _) Hs _ I)|reflexivity]].
    + intros (w & M & _ & ->). apply words_inv in M. exists w; auto.
  - rewrite graphemes_iff. split; [intros (g & G & S' & ->); exists g; rewrite graphemes_inv; auto|intros (g & G & S' & ->); exists g; rewrite graphemes_inv in G; auto].
  - rewrite r_syms_iff. split; [intros (g & G & S' & ->); exists g; rewrite rights_inv; auto|intros (g & G & S' & ->); exists g; rewrite rights_inv in G; auto].
  - destruct Hs as [Ha Hb]. rewrite cat_inv. split.
    + intros (y & z & -> & A & B). apply (IHa Ha) in A as (u & A & Su & ->). apply (IHb Hb) in B as (v & B & Sv & ->). exists (u ++ v). rewrite encs_app. split; [constructor; assumption|split; [apply Forall_app; auto|reflexivity]].
    + intros (w & M & Sw & ->). apply tcat_inv in M as (u & v & -> & A & B). apply Forall_app in Sw as [Su Sv]. exists (encs u), (encs v). split; [apply encs_app|split; [apply (IHa Ha)|apply (IHb Hb)]; eauto].
  - destruct Hs as [Ha Hb]. rewrite alt_inv, (IHa Ha), (IHb Hb). split; [intros [(w & M & R)|(w & M & R)]; exists w; rewrite talt_inv; auto|intros (w & M & R); apply talt_inv in M as [M|M]; [left|right]; exists w; auto].
  - rewrite ques_inv, (IHa Hs). split.
    + intros [->|(w & M & R)]; [exists []; split; [constructor|split; [constructor|reflexivity]]|exists w; rewrite tques_inv; auto].
    + intros (w & M & Sw & ->). apply tques_inv in M as [->|M]; [left; reflexivity|right; eauto].
  - rewrite star_inv. split.
    + intros (l & F & ->). induction F as [|y l Hy F IH]; [exists []; split; [constructor|split; [constructor|reflexivity]]|]. destruct IH as (w & M & Sw & E). apply (IHa Hs) in Hy as (u & A & Su & ->).
      exists (u ++ w). cbn [concat]. rewrite E, encs_app. split; [apply m_more; assumption|split; [apply Forall_app; auto|reflexivity]].
    + intros (w & M & Sw & ->). apply tstar_inv in M as (l & F & ->). exists (map encs l). split.
      * induction F as [|u l Hu F IH]; cbn [map concat] in *; constructor; apply Forall_app in Sw as [Su Sw]; [apply (IHa Hs); eauto|exact (IH Sw)].
      * clear. induction l as [|u l IH]; [reflexivity|]. cbn [map concat]. rewrite encs_app, IH. reflexivity.
Qed.
Definition lc_of (c : tctx) := left_ok (option_map (fun '(b, r) => (b, Cat r SKIP)) (enc_ctx c)).
Definition rc_of (c : tctx) := right_ok (option_map (fun '(b, r) => (b, Cat SKIP r)) (enc_ctx c)).
Lemma cat_skip_left r x : symbols_in r -> matches (Cat (enc_re r) SKIP) x <-> exists a k, means r a /\ skipped k /\ Forall symbol (a ++ k) /\ x = encs (a ++ k).
Proof.
  intros H. rewrite cat_inv. split.
  - intros (y & z & -> & A & B). apply (enc_means r H) in A as (a & A & Sa & ->). apply skip_iff in B as (k & B & Sk & ->). exists a, k. rewrite encs_app. split; [exact A|split; [exact B|split; [apply Forall_app; auto|reflexivity]]].
  - intros (a & k & A & K & Sw & ->). apply Forall_app in Sw as [Sa Sk]. exists (encs a), (encs k). split; [apply encs_app|split; [apply (enc_means r H); eauto|apply skip_iff; eauto]].
Qed.
Lemma cat_skip_right r x : symbols_in r -> matches (Cat SKIP (enc_re r)) x <-> exists a k, means r a /\ skipped k /\ Forall symbol (k ++ a) /\ x = encs (k ++ a).
Proof.
  intros H. rewrite cat_inv. split.
  - intros (y & z & -> & B & A). apply (enc_means r H) in A as (a & A & Sa & ->). apply skip_iff in B as (k & B & Sk & ->). exists a, k. rewrite encs_app. split; [exact A|split; [exact B|split; [apply Forall_app; auto|reflexivity]]].
  - intros (a & k & A & K & Sw & ->). apply Forall_app in Sw as [Sk Sa]. exists (encs k), (encs a). split; [apply encs_app|split; [apply skip_iff; eauto|apply (enc_means r H); eauto]].
Qed.
Lemma lc_of_ok c done : symbols_ctx c -> Forall symbol done -> (lc_of c (rev (encs done)) = true <-> preceded c done).
Proof.
  unfold lc_of. destruct c as [[edge r]|]; cbn [enc_ctx option_map symbols_ctx preceded]; [|cbn; tauto]. intros Hc Hd. rewrite left_ok_iff. split.
  - intros (y & x & E & M & Y). apply (cat_skip_left r x Hc) in M as (a & k & A & K & Sw & ->). symmetry in E. apply (encs_suffix _ Sw done y Hd) in E as (u & -> & ->).
    exists u, a, k. split; [reflexivity|split; [exact A|split; [exact K|]]]. intros T. specialize (Y T). destruct u as [|t u]; [reflexivity|]. rewrite encs_cons in Y. destruct (enc_nil t _ Y).
  - intros (u & a & k & -> & A & K & U). apply Forall_app in Hd as [Su Sw]. exists (encs u), (encs (a ++ k)). split; [apply encs_app|split; [apply (cat_skip_left r _ Hc); exists a, k; auto|]]. intros T. rewrite (U T). reflexivity.
Qed.
Lemma rc_of_ok c rest : symbols_ctx c -> Forall symbol rest -> (rc_of c (encs rest) = true <-> followed c rest).
Proof.
  unfold rc_of. destruct c as [[edge r]|]; cbn [enc_ctx option_map symbols_ctx followed]; [|cbn; tauto]. intros Hc Hd. rewrite right_ok_iff. split.
  - intros (x & y & E & M & Y). apply (cat_skip_right r x Hc) in M as (a & k & A & K & Sw & ->). symmetry in E. apply (encs_prefix _ Sw rest y Hd) in E as (u & -> & ->).
    exists k, a, u. rewrite <- app_assoc. split; [reflexivity|split; [exact A|split; [exact K|]]]. intros T. specialize (Y T). destruct u as [|t u]; [reflexivity|]. rewrite encs_cons in Y. destruct (enc_nil t _ Y).
  - intros (k & a & u & -> & A & K & U). rewrite app_assoc in *. apply Forall_app in Hd as [Sw Su]. exists (encs (k ++ a)), (encs u). split; [apply encs_app|split; [apply (cat_skip_right r _ Hc); exists a, k; auto|]]. intros T. rewrite (U T). reflexivity.
Qed.
Lemma toks_rewriting rs p f done ts out : toks rs (preceded p) (followed f) done ts out <-> rewriting rs p f done ts out.
Proof. split; induction 1; try (constructor; assumption). Qed.
Lemma rewrite_bytes rs p f ts o : well_formed (Rewrite rs p f) -> Forall symbol ts ->
  (In o (op_bytes (Rewrite rs p f) (encs ts)) <-> exists out, performs (Rewrite rs p f) ts out /\ o = encs out).
Proof.
  intros (Hr & Hp & Hf) Hs. cbn [op_bytes performs]. unfold rewrite_op. fold (lc_of p) (rc_of f).
  rewrite (scan_toks rs Hr (lc_of p) (rc_of f) (preceded p) (followed f) (fun d => lc_of_ok p d Hp) (fun d => rc_of_ok f d Hf) (length ts) ts [] o (le_n _) Hs (Forall_nil _)).
  cbn [app]. split; intros (out & T & E); exists out; (split; [apply toks_rewriting|]; assumption).
Qed.
