From Verif Require Import Base RuleModel RuleSpec RuleProofs RewriteProofs IdemProofs RomanModel RomanTables VisualModel NfcTables ArabTables ArabModel ArabSpec.

(** ** Generic *)
Lemma file_in rs r : In r (string_file rs) <-> In r rs.
Proof. unfold string_file. destruct (add_nodes_spec rs [] (NoDup_nil _)) as [_ H]. rewrite H. simpl. tauto. Qed.
Lemma file_nodup rs : NoDup (string_file rs).
Proof. apply (add_nodes_spec rs [] (NoDup_nil _)). Qed.
Lemma filter_unique {A} (p : A -> bool) l x : NoDup l -> In x l -> p x = true -> (forall y, In y l -> p y = true -> y = x) -> filter p l = [x].
Proof.
  induction l as [|y l IH]; intros D I P U; [destruct I|]. inversion D as [|? ? D1 D2]; subst. cbn [filter]. destruct (p y) eqn:E.
  - assert (y = x) by (apply U; [now left|exact E]). subst y. f_equal.
    destruct (filter p l) as [|z zs] eqn:F; [reflexivity|]. assert (Z : In z (filter p l)) by (rewrite F; now left).
    apply filter_In in Z as [Z1 Z2]. assert (z = x) by (apply U; [now right|exact Z2]). subst. contradiction.
  - destruct I as [->|I]; [congruence|]. apply IH; auto. intros z Z. apply U. now right.
Qed.
Lemma filter_none {A} (p : A -> bool) l : (forall y, In y l -> p y = false) -> filter p l = [].
Proof. induction l as [|y l IH]; intro H; [reflexivity|]. cbn [filter]. rewrite (H y (or_introl eq_refl)). apply IH. intros; apply H; now right. Qed.
Lemma becomes_exists rs c : exists t, becomes rs c t.
Proof.
  destruct (existsb (fun r => str_eqb (lhs r) [c]) rs) eqn:E.
  - apply existsb_exists in E as [[l t] [I E]]. apply str_eqb_eq in E. cbn in E. subst l. exists t. now left.
  - exists [c]. right. split; [reflexivity|]. intros [u U]. assert (existsb (fun r => str_eqb (lhs r) [c]) rs = true); [|congruence].
    apply existsb_exists. exists (Rule [c] u). split; [exact U|]. cbn [lhs]. apply str_eqb_refl.
Qed.
Lemma letterwise_exists rs s : exists t, letterwise rs s t.
Proof. induction s as [|c s [t H]]; [exists []; constructor|]. destruct (becomes_exists rs c) as [u U]. exists (u ++ t). now constructor. Qed.
Lemma becomes_same rs rs' c t : (forall r, In r rs <-> In r rs') -> becomes rs c t -> becomes rs' c t.
Proof. intros H [B|[-> N]]; [left; now apply H|]. right. split; [reflexivity|]. intros [u U]. apply N. exists u. now apply H. Qed.
Lemma letterwise_same rs rs' s t : (forall r, In r rs <-> In r rs') -> letterwise rs s t -> letterwise rs' s t.
Proof. intros H L. induction L; constructor; eauto using becomes_same. Qed.
Lemma pick rs rc c t s : NoDup rs -> single_letters rs -> functional rs -> becomes rs c t -> rc s = true ->
  In (Rule [c] t) rs /\ filter (applicable rc (c :: s)) rs = [Rule [c] t] \/ t = [c] /\ filter (applicable rc (c :: s)) rs = [].
Proof.
  intros D S F [I|[-> N]] R.
  - left. split; [exact I|]. apply filter_unique; auto.
    + apply applicable_spec. exists s. auto.
    + intros [l u] Y A. apply applicable_spec in A as [v [E _]]. destruct (S _ Y) as [d Hd]. cbn [lhs] in *. subst l. injection E as <- ->.
      now rewrite (F [c] t u I Y).
  - right. split; [reflexivity|]. apply filter_none. intros [l u] Y. destruct (applicable rc (c :: s) (Rule l u)) eqn:A; [|reflexivity].
    apply applicable_spec in A as [v [E _]]. destruct (S _ Y) as [d Hd]. cbn [lhs] in *. subst l. injection E as <- ->. exfalso. apply N. now exists u.
Qed.
Lemma pick_none rs rc c s : single_letters rs -> rc s = false -> filter (applicable rc (c :: s)) rs = [].
Proof.
  intros S R. apply filter_none. intros [l u] Y. destruct (applicable rc (c :: s) (Rule l u)) eqn:A; [|reflexivity].
  apply applicable_spec in A as [v [E V]]. destruct (S _ Y) as [d Hd]. cbn [lhs] in *. subst l. injection E as <- ->. congruence.
Qed.
Lemma over_in sigma s : over sigma s = true <-> forall c, In c s -> memN c sigma = true.
Proof. unfold over. apply forallb_forall. Qed.
Lemma functional_same rs rs' : (forall r, In r rs <-> In r rs') -> functional rs -> functional rs'.
Proof. intros H F l a b A B. apply (F l); now apply H. Qed.
Lemma single_same rs rs' : (forall r, In r rs <-> In r rs') -> single_letters rs -> single_letters rs'.
Proof. intros H S r R. apply S. now apply H. Qed.

(** ** Within words *)
Lemma nonfinal_scan rs sigma : NoDup rs -> single_letters rs -> functional rs -> forall a u, letterwise rs a u -> forall o c,
  over sigma (a ++ [c]) = true -> scan rs always (before_char sigma) o 0 (a ++ [c]) = [rev o ++ u ++ [c]].
Proof.
  intros D S F a u L. induction L as [|x t s u B L IH]; intros o c O.
  - cbn [app]. rewrite scan_cons, pick_none by auto. reflexivity.
  - cbn [app] in *. assert (O' : over sigma (s ++ [c]) = true) by (rewrite over_in in *; intros; apply O; now right).
    assert (R : before_char sigma (s ++ [c]) = true).
    { rewrite over_in in O'. destruct s as [|y s]; cbn [app before_char] in *; apply O'; now left. }
    rewrite scan_cons. destruct (pick rs (before_char sigma) x t (s ++ [c]) D S F B R) as [[I ->]|[-> ->]].
    + cbn [always flat_map lhs rhs length Nat.sub skipn]. rewrite IH by exact O'. cbn [app].
      rewrite rev_app_distr, rev_involutive, <- !app_assoc. reflexivity.
    + rewrite IH by exact O'. cbn [rev]. rewrite <- !app_assoc. reflexivity.
Qed.
Lemma nonfinal_out l sigma s t : single_letters (nonfinal_tsv l) -> functional (nonfinal_tsv l) -> over sigma s = true ->
  all_but_last (nonfinal_tsv l) s t -> nonfinal_rewrite l sigma s = [t].
Proof.
  intros S F O H. assert (E : forall r, In r (nonfinal_tsv l) <-> In r (string_file (nonfinal_tsv l))) by (intro; symmetry; apply file_in).
  unfold nonfinal_rewrite, rewrite_ctx. rewrite O. destruct H as [[-> ->]|[a [c [u [-> [L ->]]]]]]; [reflexivity|].
  rewrite (nonfinal_scan _ sigma (file_nodup _) (single_same _ _ E S) (functional_same _ _ E F) a u (letterwise_same _ _ _ _ E L) [] c O). reflexivity.
Qed.
Lemma nonfinal_exists rs s : exists t, all_but_last rs s t.
Proof.
  destruct s as [|c s] using rev_ind; [exists []; now left|]. destruct (letterwise_exists rs s) as [u U]. exists (u ++ [c]). right. now exists s, c, u.
Qed.

(** ** At the end *)
Lemma final_scan rs sigma : NoDup rs -> single_letters rs -> functional rs -> forall a c t o, becomes rs c t ->
  over sigma (a ++ [c]) = true -> (forall d, In d o -> memN d sigma = true) -> a <> [] \/ o <> [] ->
  scan rs (after_char sigma) at_eos o 0 (a ++ [c]) = [rev o ++ a ++ t].
Proof.
  intros D S F a. induction a as [|x a IH]; intros c t o B O M N.
  - cbn [app] in *. rewrite scan_cons. destruct (pick rs at_eos c t [] D S F B eq_refl) as [[I ->]|[-> ->]].
    + destruct o as [|y o]; [destruct N; congruence|]. cbn [after_char]. rewrite (M y (or_introl eq_refl)).
      cbn [flat_map lhs rhs length Nat.sub skipn scan]. cbn [app]. rewrite rev_app_distr, rev_involutive. reflexivity.
    + reflexivity.
  - cbn [app]. rewrite scan_cons, pick_none; auto.
    + rewrite (IH c t (x :: o)); auto.
      * cbn [rev]. rewrite <- app_assoc. reflexivity.
      * rewrite over_in in *. intros d I. apply O. now right.
      * intros d [<-|I]; auto. rewrite over_in in O. apply O. now left.
      * right. discriminate.
    + destruct a; reflexivity.
Qed.
Lemma final_out l sigma s t : single_letters (final_isolated_tsv l) -> functional (final_isolated_tsv l) -> over sigma s = true ->
  last_only (final_isolated_tsv l) s t -> final_rewrite l sigma s = [t].
Proof.
  intros S F O H. assert (E : forall r, In r (final_isolated_tsv l) <-> In r (string_file (final_isolated_tsv l))) by (intro; symmetry; apply file_in).
  unfold final_rewrite, rewrite_ctx. rewrite O. set (rs := string_file (final_isolated_tsv l)) in *.
  destruct H as [[L ->]|[a [c [u [N [-> [B ->]]]]]]].
  - destruct s as [|c [|d s]]; cbn in L; try lia; [reflexivity|]. rewrite scan_cons. cbn [after_char].
    destruct (filter (applicable at_eos [c]) rs); reflexivity.
  - rewrite (final_scan rs sigma (file_nodup _) (single_same _ _ E S) (functional_same _ _ E F) a c u []); auto.
    eapply becomes_same; eauto.
Qed.
Lemma final_exists rs s : exists t, last_only rs s t.
Proof.
  destruct s as [|c s] using rev_ind; [exists []; left; cbn; auto|]. destruct s as [|d s]; [exists [c]; left; cbn; auto|].
  destruct (becomes_exists rs c) as [u U]. exists ((d :: s) ++ u). right. exists (d :: s), c, u. repeat split; auto. discriminate.
Qed.

(** ** Alone *)
Lemma isolated_rest rs s : forall o, o <> [] -> scan rs at_bos at_eos o 0 s = [rev o ++ s].
Proof.
  induction s as [|c s IH]; intros o N; [cbn; now rewrite app_nil_r|]. rewrite scan_cons.
  assert (E : scan rs at_bos at_eos (c :: o) 0 s = [rev o ++ c :: s]) by (rewrite IH by discriminate; cbn [rev]; now rewrite <- app_assoc).
  destruct (filter (applicable at_eos (c :: s)) rs); [exact E|]. destruct o; [congruence|exact E].
Qed.
Lemma whole_applicable r s : applicable at_eos s r = true <-> lhs r = s.
Proof.
  rewrite applicable_spec. split.
  - intros [t [-> H]]. destruct t; [now rewrite app_nil_r|discriminate].
  - intros <-. exists []. split; [now rewrite app_nil_r|reflexivity].
Qed.
Lemma isolated_scan rs s t : NoDup rs -> nonempty_lhs rs -> functional rs -> whole_word rs s t -> scan rs at_bos at_eos [] 0 s = [t].
Proof.
  intros D NE F [I|[-> N]].
  - destruct s as [|c s]; [exfalso; now apply (NE _ I)|]. rewrite scan_cons, (filter_unique _ rs (Rule (c :: s) t)); auto.
    + cbn [at_bos flat_map lhs rhs length Nat.sub]. rewrite Nat.sub_0_r, skipn_all. cbn [scan app]. now rewrite app_nil_r, rev_involutive.
    + now apply whole_applicable.
    + intros [l u] Y A. apply whole_applicable in A. cbn [lhs] in A. subst l. now rewrite (F _ _ _ I Y).
  - destruct s as [|c s]; [reflexivity|]. rewrite scan_cons, filter_none.
    + rewrite isolated_rest by discriminate. reflexivity.
    + intros [l u] Y. destruct (applicable at_eos (c :: s) (Rule l u)) eqn:A; [|reflexivity]. apply whole_applicable in A. cbn [lhs] in A. subst l.
      exfalso. apply N. now exists u.
Qed.
Lemma isolated_out l sigma s t : nonempty_lhs (final_isolated_tsv l ++ isolated_tsv l) -> functional (final_isolated_tsv l ++ isolated_tsv l) -> over sigma s = true ->
  whole_word (final_isolated_tsv l ++ isolated_tsv l) s t -> isolated_rewrite l sigma s = [t].
Proof.
  intros NE F O H. unfold isolated_rewrite, rewrite_ctx. rewrite O. set (r0 := final_isolated_tsv l ++ isolated_tsv l) in *.
  assert (E : forall r, In r r0 <-> In r (string_file r0)) by (intro; symmetry; apply file_in).
  apply isolated_scan; [apply file_nodup| |apply (functional_same _ _ E F)|].
  - intros r R. apply NE. now apply E.
  - destruct H as [I|[-> N]]; [left; now apply E|]. right. split; [reflexivity|]. intros [u U]. apply N. exists u. now apply E.
Qed.
Lemma whole_exists rs s : exists t, whole_word rs s t.
Proof.
  destruct (existsb (fun r => str_eqb (lhs r) s) rs) eqn:E.
  - apply existsb_exists in E as [[l t] [I E]]. apply str_eqb_eq in E. cbn in E. subst l. exists t. now left.
  - exists s. right. split; [reflexivity|]. intros [u U]. assert (existsb (fun r => str_eqb (lhs r) s) rs = true); [|congruence].
    apply existsb_exists. exists (Rule s u). split; [exact U|]. cbn [lhs]. apply str_eqb_refl.
Qed.
Lemma out_iff {A} (f : str -> list str) (P : str -> str -> Prop) (Q : A -> Prop) s : (forall t, P s t -> f s = [t]) -> (exists t, P s t) -> forall t, f s = [t] <-> P s t.
Proof. intros H [u U] t. split; [|auto]. intro E. rewrite (H u U) in E. now injection E as <-. Qed.
Lemma nonfinal_iff l sigma s t : single_letters (nonfinal_tsv l) -> functional (nonfinal_tsv l) -> over sigma s = true ->
  nonfinal_rewrite l sigma s = [t] <-> all_but_last (nonfinal_tsv l) s t.
Proof. intros S F O. apply (out_iff _ (all_but_last (nonfinal_tsv l)) (fun _ : nat => True)); [|apply nonfinal_exists]. intro. now apply nonfinal_out. Qed.
Lemma final_iff l sigma s t : single_letters (final_isolated_tsv l) -> functional (final_isolated_tsv l) -> over sigma s = true ->
  final_rewrite l sigma s = [t] <-> last_only (final_isolated_tsv l) s t.
Proof. intros S F O. apply (out_iff _ (last_only (final_isolated_tsv l)) (fun _ : nat => True)); [|apply final_exists]. intro. now apply final_out. Qed.
Lemma isolated_iff l sigma s t : nonempty_lhs (final_isolated_tsv l ++ isolated_tsv l) -> functional (final_isolated_tsv l ++ isolated_tsv l) -> over sigma s = true ->
  isolated_rewrite l sigma s = [t] <-> whole_word (final_isolated_tsv l ++ isolated_tsv l) s t.
Proof. intros S F O. apply (out_iff _ (whole_word (final_isolated_tsv l ++ isolated_tsv l)) (fun _ : nat => True)); [|apply whole_exists]. intro. now apply isolated_out. Qed.

(** ** Characters *)
(** Every character of the output is one of the input or of a right-hand side *)
Definition from (rs : list rule) (s t : str) : Prop := forall c, In c t -> In c s \/ exists r, In r rs /\ In c (rhs r).
Lemma becomes_from rs c t : becomes rs c t -> from rs [c] t.
Proof. intros [I|[-> _]] d D; [right; now exists (Rule [c] t)|now left]. Qed.
Lemma letterwise_from rs s t : letterwise rs s t -> from rs s t.
Proof.
  induction 1 as [|c t s u B L IH]; intros d D; [destruct D|]. apply in_app_or in D as [D|D].
  - destruct (becomes_from _ _ _ B d D) as [[<-|[]]|R]; [left; now left|now right].
  - destruct (IH d D) as [I|R]; [left; now right|now right].
Qed.
Lemma all_but_last_from rs s t : all_but_last rs s t -> from rs s t.
Proof.
  intros [[-> ->]|[a [c [u [-> [L ->]]]]]] d D; [destruct D|]. apply in_app_or in D as [D|[<-|[]]].
  - destruct (letterwise_from _ _ _ L d D); [left; apply in_or_app; now left|now right].
  - left. apply in_or_app. right. now left.
Qed.
Lemma last_only_from rs s t : last_only rs s t -> from rs s t.
Proof.
  intros [[_ ->]|[a [c [u [_ [-> [B ->]]]]]]] d D; [now left|]. apply in_app_or in D as [D|D].
  - left. apply in_or_app. now left.
  - destruct (becomes_from _ _ _ B d D) as [[<-|[]]|R]; [left; apply in_or_app; right; now left|now right].
Qed.
Lemma whole_from rs s t : whole_word rs s t -> from rs s t.
Proof. intros [I|[-> _]] d D; [right; now exists (Rule s t)|now left]. Qed.
Lemma cut_from rs s gs : leftmost_cut rs s gs -> from rs s (outs gs).
Proof.
  induction 1 as [|c s gs N L IH|r s gs R L IH]; intros d D.
  - destruct D.
  - destruct D as [<-|D]; [left; now left|]. destruct (IH d D); [left; now right|now right].
  - apply in_app_or in D as [D|D]; [right; now exists r|]. destruct (IH d D); [left; apply in_or_app; now right|now right].
Qed.
Lemma cut_gone rs s gs c : leftmost_cut rs s gs -> (exists u, In (Rule [c] u) rs) -> (forall r, In r rs -> ~ In c (rhs r)) -> ~ In c (outs gs).
Proof.
  intros L [u U] N. induction L as [|d s gs P L IH|r s gs R L IH]; intro D.
  - destruct D.
  - destruct D as [<-|D]; [|now apply IH]. apply (P _ U). cbn [lhs]. exists s. reflexivity.
  - apply in_app_or in D as [D|D]; [now apply (N r R)|now apply IH].
Qed.
Lemma passes_from ls : forall s t, passes ls s t -> from (concat ls) s t.
Proof.
  induction ls as [|l ls IH]; intros s t H d D; cbn in H; [subst; now left|]. destruct H as [gs [C P]].
  destruct (IH _ _ P d D) as [I|[r [R I]]].
  - destruct (cut_from _ _ _ C d I) as [J|[r [R J]]]; [now left|]. right. exists r. split; [cbn; apply in_or_app; now left|exact J].
  - right. exists r. split; [cbn; apply in_or_app; now right|exact I].
Qed.
Lemma passes_gone ls c : forall s t, passes ls s t -> (exists u, In (Rule [c] u) (concat ls)) -> (forall r, In r (concat ls) -> ~ In c (rhs r)) -> ~ In c t.
Proof.
  induction ls as [|l ls IH]; intros s t H [u U] N D; cbn in H; [destruct U|]. destruct H as [gs [C P]]. cbn in U. apply in_app_or in U as [U|U].
  - assert (G : ~ In c (outs gs)). { apply (cut_gone l s gs c C); [now exists u|]. intros r R. apply N. cbn. apply in_or_app. now left. }
    destruct (passes_from _ _ _ P c D) as [I|[r [R I]]]; [contradiction|]. apply (N r); [cbn; apply in_or_app; now right|exact I].
  - apply (IH _ _ P); auto; [now exists u|]. intros r R. apply N. cbn. apply in_or_app. now right.
Qed.

(** ** A rule file *)
Definition good (rs : list rule) (sigma : list N) : Prop :=
  nonempty_lhs rs /\ functional rs /\ forall r, In r rs -> over sigma (rhs r) = true.
Definition gone_by (rs : list rule) (c : N) : Prop := (exists u, In (Rule [c] u) rs) /\ forall r, In r rs -> ~ In c (rhs r).
Lemma rules_stage ns rs sigma : good rs sigma -> exists f, fst_from_rules ns rs sigma = Some f /\
  forall s, over sigma s = true -> exists t, f s = [t] /\ over sigma t = true /\ from rs s t /\ forall c, gone_by rs c -> ~ In c t.
Proof.
  intros [NE [F O]]. pose proof (fst_from_rules_spec ns rs sigma NE O) as H.
  destruct (partition_total rs) as [[ls P]|P].
  - rewrite P in H. destruct H as [f [E [H _]]]. exists f. split; [exact E|]. intros s S. destruct (H s S) as [t [E1 [E2 [E3 _]]]].
    exists t. destruct (partition_sound rs ls P) as (_ & I & _). repeat split; auto.
    + intros d D. destruct (passes_from _ _ _ E3 d D) as [J|[r [R J]]]; [now left|]. right. exists r. split; [now apply I|exact J].
    + intros c [[u U] N]. apply (passes_gone ls c s t E3); [exists u; now apply I|]. intros r R. apply N. now apply I.
  - exfalso. apply partition_error_iff in P as ([l1 r1] & [l2 r2] & A & B & E & N). cbn in *. subst l2. apply N. now apply (F l1).
Qed.
Lemma from_over rs sigma s t : from rs s t -> over sigma s = true -> (forall r, In r rs -> over sigma (rhs r) = true) -> over sigma t = true.
Proof.
  intros F O R. rewrite over_in in *. intros c C. destruct (F c C) as [I|[r [I J]]]; [auto|]. specialize (R r I). rewrite over_in in R. auto.
Qed.

(** ** All stages *)
Section Lang.
Variables (ns : fst_t -> nat) (presentation nfc common : list rule) (l : lang_rules) (sigma : list N).
Hypothesis Gp : good presentation sigma.
Hypothesis Gn : good nfc sigma.
Hypothesis Gc : good common sigma.
Hypothesis Gv : good (visual_norm_tsv l) sigma.
Hypothesis Gw : good (nonfinal_tsv l) sigma.
Hypothesis Gf : good (final_isolated_tsv l) sigma.
Hypothesis Gi : good (final_isolated_tsv l ++ isolated_tsv l) sigma.
Hypothesis Sw : single_letters (nonfinal_tsv l).
Hypothesis Sf : single_letters (final_isolated_tsv l).

Definition later : list rule := nfc ++ common ++ visual_norm_tsv l ++ nonfinal_tsv l ++ (final_isolated_tsv l ++ isolated_tsv l).
Lemma rules_outside rs f : good rs sigma -> fst_from_rules ns rs sigma = Some f -> forall s, over sigma s = false -> f s = [].
Proof.
  intros [NE [F O]] E s S. pose proof (fst_from_rules_spec ns rs sigma NE O) as H.
  destruct (partition_unordered rs); [|congruence|congruence]. destruct H as [g [E1 [_ H]]]. assert (g = f) by congruence. subst. auto.
Qed.
Lemma visual_chain : exists p n c v f,
  fst_from_rules ns presentation sigma = Some p /\ fst_from_rules ns nfc sigma = Some n /\ fst_from_rules ns common sigma = Some c /\
  fst_from_rules ns (visual_norm_tsv l) sigma = Some v /\ arab_visual ns presentation nfc common l sigma = Some f /\
  forall s, f s = run_chain [p; n; c; v; nonfinal_rewrite l sigma; final_rewrite l sigma; isolated_rewrite l sigma] s.
Proof.
  destruct (rules_stage ns _ _ Gp) as [p [Ep _]]. destruct (rules_stage ns _ _ Gn) as [n [En _]].
  destruct (rules_stage ns _ _ Gc) as [c [Ec _]]. destruct (rules_stage ns _ _ Gv) as [v [Ev _]].
  assert (X : exists f, arab_visual ns presentation nfc common l sigma = Some f /\
    forall s, f s = run_chain [p; n; c; v; nonfinal_rewrite l sigma; final_rewrite l sigma; isolated_rewrite l sigma] s).
  { unfold arab_visual, script_common_fsts, lang_fsts. rewrite Ep, En, Ec, Ev. unfold compose_fsts. cbn [app].
    apply compose_fsts_run_fuel; [apply le_n|discriminate]. }
  destruct X as [f [Ef Hf]]. exists p, n, c, v, f. auto 10.
Qed.
Lemma visual_stages : exists p n c v f,
  fst_from_rules ns presentation sigma = Some p /\ fst_from_rules ns nfc sigma = Some n /\ fst_from_rules ns common sigma = Some c /\
  fst_from_rules ns (visual_norm_tsv l) sigma = Some v /\ arab_visual ns presentation nfc common l sigma = Some f /\
  forall s, over sigma s = true -> exists s1 s2 s3 s4 s5 s6 t,
    p s = [s1] /\ n s1 = [s2] /\ c s2 = [s3] /\ v s3 = [s4] /\ all_but_last (nonfinal_tsv l) s4 s5 /\ last_only (final_isolated_tsv l) s5 s6 /\
    whole_word (final_isolated_tsv l ++ isolated_tsv l) s6 t /\ f s = [t] /\ over sigma t = true /\
    (forall d, gone_by presentation d -> (forall r, In r later -> ~ In d (rhs r)) -> ~ In d t) /\
    (forall d, gone_by common d -> (forall r, In r (visual_norm_tsv l ++ nonfinal_tsv l ++ final_isolated_tsv l ++ isolated_tsv l) -> ~ In d (rhs r)) -> ~ In d t).
Proof.
  destruct (rules_stage ns _ _ Gp) as [p [Ep Hp]]. destruct (rules_stage ns _ _ Gn) as [n [En Hn]].
  destruct (rules_stage ns _ _ Gc) as [c [Ec Hc]]. destruct (rules_stage ns _ _ Gv) as [v [Ev Hv]].
  assert (X : exists f, arab_visual ns presentation nfc common l sigma = Some f /\
    forall s, f s = run_chain [p; n; c; v; nonfinal_rewrite l sigma; final_rewrite l sigma; isolated_rewrite l sigma] s).
  { unfold arab_visual, script_common_fsts, lang_fsts. rewrite Ep, En, Ec, Ev. unfold compose_fsts. cbn [app].
    apply compose_fsts_run_fuel; [apply le_n|discriminate]. }
  destruct X as [f [Ef Hf]]. exists p, n, c, v, f. do 5 (split; [assumption|]). intros s O.
  destruct (Hp s O) as [s1 [P1 [O1 [F1 G1]]]]. destruct (Hn s1 O1) as [s2 [P2 [O2 [F2 G2]]]]. destruct (Hc s2 O2) as [s3 [P3 [O3 [F3 G3]]]].
  destruct (Hv s3 O3) as [s4 [P4 [O4 [F4 G4]]]].
  destruct (nonfinal_exists (nonfinal_tsv l) s4) as [s5 H5]. pose proof (all_but_last_from _ _ _ H5) as F5.
  assert (O5 : over sigma s5 = true) by (apply (from_over _ sigma _ _ F5 O4); apply Gw).
  destruct (final_exists (final_isolated_tsv l) s5) as [s6 H6]. pose proof (last_only_from _ _ _ H6) as F6.
  assert (O6 : over sigma s6 = true) by (apply (from_over _ sigma _ _ F6 O5); apply Gf).
  destruct (whole_exists (final_isolated_tsv l ++ isolated_tsv l) s6) as [t H7]. pose proof (whole_from _ _ _ H7) as F7.
  assert (O7 : over sigma t = true) by (apply (from_over _ sigma _ _ F7 O6); apply Gi).
  exists s1, s2, s3, s4, s5, s6, t. do 7 (split; [assumption|]).
  assert (T : f s = [t]).
  { rewrite Hf. cbn [run_chain]. rewrite P1. cbn [flat_map]. rewrite P2. cbn [flat_map]. rewrite P3. cbn [flat_map]. rewrite P4. cbn [flat_map].
    rewrite (nonfinal_out l sigma s4 s5 Sw (proj1 (proj2 Gw)) O4 H5). cbn [flat_map].
    rewrite (final_out l sigma s5 s6 Sf (proj1 (proj2 Gf)) O5 H6). cbn [flat_map].
    rewrite (isolated_out l sigma s6 t (proj1 Gi) (proj1 (proj2 Gi)) O6 H7). reflexivity. }
  split; [exact T|]. split; [exact O7|].
  assert (K : forall d, (forall r, In r (visual_norm_tsv l ++ nonfinal_tsv l ++ final_isolated_tsv l ++ isolated_tsv l) -> ~ In d (rhs r)) -> ~ In d s3 -> ~ In d t).
  { intros d L N D.
    destruct (F7 d D) as [D6|[r [R I]]]; [|apply (L r); [rewrite !in_app_iff in *; tauto|exact I]].
    destruct (F6 d D6) as [D5|[r [R I]]]; [|apply (L r); [rewrite !in_app_iff in *; tauto|exact I]].
    destruct (F5 d D5) as [D4|[r [R I]]]; [|apply (L r); [rewrite !in_app_iff in *; tauto|exact I]].
    destruct (F4 d D4) as [D3|[r [R I]]]; [|apply (L r); [rewrite !in_app_iff in *; tauto|exact I]].
    contradiction. }
  split; intros d Gd L; apply K; auto.
  - intros r R. apply L. unfold later. rewrite !in_app_iff in *. tauto.
  - intro D. unfold later in L. destruct (F3 d D) as [D2|[r [R I]]]; [|apply (L r); [rewrite !in_app_iff in *; tauto|exact I]].
    destruct (F2 d D2) as [D1|[r [R I]]]; [|apply (L r); [rewrite !in_app_iff in *; tauto|exact I]]. now apply (G1 d Gd).
Qed.
End Lang.
