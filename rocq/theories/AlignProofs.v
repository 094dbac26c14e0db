From Verif Require Import Base RuleModel RegexModel RegexProofs RewriteProofs.
From Verif Require Import IsoModel AlignModel AlignSpec.
From Coq Require Import Lia.

(** ** Reading symbols *)
Lemma not_sym c : In c [60; 62; 123; 125; 96; 61]%N -> ~ sym_char c.
Proof. unfold sym_char. cbn [In]. intros H [K|[K|K]]; [lia|lia|]. intuition (subst; discriminate). Qed.
Lemma run_prefix c1 c2 o o' (y z : str) : Forall sym_char c1 -> Forall sym_char c2 -> ~ sym_char o -> ~ sym_char o' -> c1 ++ o :: y = c2 ++ o' :: z -> c1 = c2 /\ o = o' /\ y = z.
Proof.
  intros H1. revert c2. induction H1 as [|a c1 Ha H1 IH]; intros c2 H2 N1 N2 E; destruct H2 as [|b c2 Hb H2]; cbn [app] in E.
  - injection E as -> ->. repeat split.
  - injection E as -> _. destruct (N1 Hb).
  - injection E as -> _. destruct (N2 Ha).
  - injection E as -> E. destruct (IH c2 H2 N1 N2 E) as (-> & -> & ->). repeat split.
Qed.
Lemma run_suffix c1 c2 o o' (y z : str) : Forall sym_char c1 -> Forall sym_char c2 -> ~ sym_char o -> ~ sym_char o' -> y ++ o :: c1 = z ++ o' :: c2 -> c1 = c2 /\ o = o' /\ y = z.
Proof.
  intros H1 H2 N1 N2 E. apply (f_equal (@rev N)) in E. rewrite !rev_app_distr in E. cbn [rev] in E. rewrite <- !app_assoc in E. cbn [app] in E.
  apply run_prefix in E as (E1 & E2 & E3); try assumption; try (apply Forall_rev; assumption). apply (f_equal (@rev N)) in E1, E3. rewrite !rev_involutive in E1, E3. repeat split; assumption.
Qed.
Definition opening (t : tok) : N := match t with Gr _ => 60 | Ph _ => 123 | Tr _ => 96 | Eq => 61 end%N.
Lemma enc_open t : exists v, enc t = opening t :: v.
Proof. destruct t; cbn; eexists; reflexivity. Qed.
Lemma opening_not_sym t : ~ sym_char (opening t).
Proof. apply not_sym. destruct t; cbn; tauto. Qed.
Ltac notsym := first [apply not_sym; cbn; tauto].
Lemma enc_prefix a t (y z : str) : symbol a -> symbol t -> enc a ++ y = enc t ++ z -> a = t /\ y = z.
Proof.
  intros Ha Ht E. destruct a as [s|s|s|], t as [s'|s'|s'|]; cbn [enc symbol] in *; cbn [app] in E; try discriminate E; injection E as E; rewrite <- ?app_assoc in E; cbn [app] in E;
    try (apply run_prefix in E as (-> & _ & ->); [split; reflexivity|assumption|assumption|notsym|notsym]). split; [reflexivity|exact E].
Qed.
Lemma encs_app a b : encs (a ++ b) = encs a ++ encs b.
Proof. unfold encs. apply flat_map_app. Qed.
Lemma encs_cons t l : encs (t :: l) = enc t ++ encs l.
Proof. reflexivity. Qed.
Lemma enc_nil t y : enc t ++ y <> [].
Proof. destruct t; discriminate. Qed.
Lemma encs_prefix a : Forall symbol a -> forall ts y, Forall symbol ts -> encs a ++ y = encs ts -> exists u, ts = a ++ u /\ y = encs u.
Proof.
  induction 1 as [|t a Ht Ha IH]; intros ts y Hs E.
  - exists ts. split; [reflexivity|exact E].
  - rewrite encs_cons, <- app_assoc in E. destruct Hs as [|t' ts Ht' Hs]; [destruct (enc_nil _ _ E)|]. rewrite encs_cons in E. apply enc_prefix in E as [-> E]; try assumption.
    destruct (IH ts y Hs E) as (u & -> & ->). exists u. split; reflexivity.
Qed.
Lemma enc_suffix a t (y z : str) : symbol a -> symbol t -> y ++ enc a = z ++ enc t -> a = t /\ y = z.
Proof.
  intros Ha Ht E. assert (L : forall t, exists m, enc t = m ++ [match t with Gr _ => 62 | Ph _ => 125 | Tr _ => 96 | Eq => 61 end%N]).
  { clear. intros [s|s|s|]; cbn; [exists (60%N :: s)|exists (123%N :: s)|exists (96%N :: s)|exists []]; reflexivity. }
  assert (K : (match a with Gr _ => 62 | Ph _ => 125 | Tr _ => 96 | Eq => 61 end = match t with Gr _ => 62 | Ph _ => 125 | Tr _ => 96 | Eq => 61 end)%N).
  { destruct (L a) as (m & Em), (L t) as (m' & Em'). rewrite Em, Em', !app_assoc in E. apply app_inj_tail in E as [_ E]. exact E. }
  destruct a as [s|s|s|], t as [s'|s'|s'|]; try discriminate K; cbn [enc symbol] in *; cbn [app] in E;
    try (rewrite !app_comm_cons, !app_assoc in E; apply app_inj_tail in E as [E _]; apply run_suffix in E as (-> & _ & ->); [split; reflexivity|assumption|assumption|notsym|notsym]).
  apply app_inj_tail in E as [-> _]. split; reflexivity.
Qed.
Lemma encs_suffix a : Forall symbol a -> forall ts y, Forall symbol ts -> y ++ encs a = encs ts -> exists u, ts = u ++ a /\ y = encs u.
Proof.
  induction a as [|t a IH] using rev_ind; intros Ha ts y Hs E.
  - exists ts. rewrite app_nil_r in *. split; [reflexivity|exact E].
  - apply Forall_app in Ha as [Ha Ht]. inversion Ht; subst. rewrite encs_app in E. cbn [encs flat_map] in E. rewrite app_nil_r, app_assoc in E.
    destruct ts as [|t' ts _] using rev_ind; [destruct (y ++ encs a); [destruct (enc_nil t []); rewrite app_nil_r; exact E|discriminate E]|].
    apply Forall_app in Hs as [Hs Ht']. inversion Ht'; subst. rewrite encs_app in E. cbn [encs flat_map] in E. rewrite app_nil_r in E. apply enc_suffix in E as [-> E]; try assumption.
    destruct (IH Ha ts y Hs E) as (u & -> & ->). exists u. rewrite app_assoc. split; reflexivity.
Qed.
Lemma encs_inj a b : Forall symbol a -> Forall symbol b -> encs a = encs b -> a = b.
Proof. intros Ha Hb E. destruct (encs_prefix a Ha b [] Hb) as (u & -> & Eu); [rewrite app_nil_r; exact E|]. destruct u as [|t u]; [rewrite app_nil_r; reflexivity|]. symmetry in Eu. destruct (enc_nil _ _ Eu). Qed.
(** No symbol begins inside another *)
Lemma encs_head ts c x : encs ts = c :: x -> ~ sym_char c.
Proof. destruct ts as [|t ts]; [discriminate|]. rewrite encs_cons. destruct (enc_open t) as (v & ->). intros E. injection E as <- _. apply opening_not_sym. Qed.
Lemma no_inside t ts a l u v : symbol t -> symbol a -> named a -> enc t = u ++ v -> u <> [] -> v <> [] -> ~ is_prefix (encs (a :: l)) (v ++ encs ts).
Proof.
  intros Ht Ha Na E Nu Nv (w & P). rewrite encs_cons in P. destruct (enc_open a) as (ea & Ea). rewrite Ea in P.
  assert (V : (exists c v', v = c :: v' /\ sym_char c) \/ exists c, v = [c] /\ (c = 62 \/ c = 125 \/ c = 96)%N).
  { assert (G : forall o s cl, Forall sym_char s -> (cl = 62 \/ cl = 125 \/ cl = 96)%N -> o :: s ++ [cl] = u ++ v -> (exists c v', v = c :: v' /\ sym_char c) \/ exists c, v = [c] /\ (c = 62 \/ c = 125 \/ c = 96)%N).
    { intros o s cl Hs Hc G. destruct u as [|o' u]; [congruence|]. injection G as <- G. destruct v as [|c v _] using rev_ind; [congruence|]. rewrite app_assoc in G. apply app_inj_tail in G as [G <-].
      destruct v as [|d v]; [right; exists cl; split; [reflexivity|exact Hc]|]. left. exists d, (v ++ [cl]). split; [reflexivity|]. rewrite G in Hs. apply Forall_app in Hs as [_ Hs]. inversion Hs. assumption. }
    destruct t as [s|s|s|]; cbn [enc symbol] in *; cbn [app] in E; try (eapply G; [exact Ht| |exact E]; tauto). destruct u as [|o u]; [congruence|]. injection E as _ E. destruct u; [|discriminate E]. cbn in E. congruence. }
  destruct V as [(c & v' & -> & Hc)|(c & -> & Hc)]; cbn [app] in P.
  - injection P as -> _. exact (opening_not_sym a Hc).
  - injection P as -> P. destruct a as [s|s|s|]; cbn [opening] in Hc; try (destruct Hc as [Hc|[Hc|Hc]]; discriminate Hc). cbn [enc] in Ea. injection Ea as <-. cbn [symbol named] in Ha, Na.
    destruct Ha as [|c s Hc' Hs]; [congruence|]. rewrite <- app_assoc in P. cbn [app] in P. exact (encs_head _ _ _ P Hc').
Qed.

(** ** Scanning symbols *)
Section Scan.
Variable rs : list (list tok * list tok).
Hypothesis rs_ok : Forall symbol_rule rs.
Variables lc rc : str -> bool.
Variables p f : list tok -> Prop.
Hypothesis lc_ok : forall done, Forall symbol done -> (lc (rev (encs done)) = true <-> p done).
Hypothesis rc_ok : forall rest, Forall symbol rest -> (rc (encs rest) = true <-> f rest).
Let rules := map rule_of rs.

Inductive toks : list tok -> list tok -> list tok -> Prop :=
| tk_end done : toks done [] []
| tk_apply done l r rest out : In (l, r) rs -> p done -> f rest -> toks (done ++ r) rest out -> toks done (l ++ rest) (r ++ out)
| tk_copy done t rest out : (forall l r u, In (l, r) rs -> t :: rest = l ++ u -> f u -> ~ p done) -> toks (done ++ [t]) rest out -> toks done (t :: rest) (t :: out).

Lemma rules_inside t ts u v : symbol t -> enc t = u ++ v -> u <> [] -> v <> [] -> filter (applicable rc (v ++ encs ts)) rules = [].
Proof.
  intros Ht E Nu Nv. unfold rules. clear -rs_ok Ht E Nu Nv. induction rs_ok as [|[l r] rs0 H0 H IH]; [reflexivity|]. specialize (IH H). destruct H0 as (Hl & Hr & Hn). cbn [fst snd] in *. cbn [map filter].
  replace (applicable rc (v ++ encs ts) (rule_of (l, r))) with false; [exact IH|]. symmetry. unfold applicable. apply andb_false_intro1. apply prefixb_false. destruct l as [|a l]; [destruct Hn|]. inversion Hl; subst. cbn [rule_of lhs fst].
  apply (no_inside t ts a l u v); assumption.
Qed.
Lemma scan_copy t ts v : symbol t -> forall u outr, enc t = u ++ v -> u <> [] -> scan rules lc rc outr 0 (v ++ encs ts) = scan rules lc rc (rev v ++ outr) 0 (encs ts).
Proof.
  intros Ht. induction v as [|c v IH]; intros u outr E Nu; [reflexivity|]. cbn [app scan]. change (c :: v ++ encs ts) with ((c :: v) ++ encs ts). rewrite (rules_inside t ts u (c :: v)); [|exact Ht|exact E|exact Nu|discriminate].
  rewrite (IH (u ++ [c])); [|rewrite <- app_assoc; exact E|destruct u; discriminate]. cbn [rev]. rewrite <- app_assoc. reflexivity.
Qed.
Lemma applies l r ts : In (l, r) rs -> Forall symbol ts -> (applicable rc (encs ts) (rule_of (l, r)) = true <-> exists u, ts = l ++ u /\ f u).
Proof.
  intros H Hs. pose proof (proj1 (Forall_forall _ _) rs_ok _ H) as (Hl & _). cbn [fst] in Hl. unfold applicable. cbn [rule_of lhs fst]. rewrite andb_true_iff, prefixb_spec. split.
  - intros [(w & E) R]. symmetry in E. destruct (encs_prefix l Hl ts w Hs E) as (u & -> & ->). exists u. split; [reflexivity|]. rewrite encs_app, skipn_app, skipn_all, Nat.sub_diag in R. cbn in R.
    apply rc_ok; [apply Forall_app in Hs; tauto|exact R].
  - intros (u & -> & Hf). rewrite encs_app. split; [exists (encs u); reflexivity|]. rewrite skipn_app, skipn_all, Nat.sub_diag. cbn. apply rc_ok; [apply Forall_app in Hs; tauto|exact Hf].
Qed.
Lemma scan_toks n : forall ts done o, length ts <= n -> Forall symbol ts -> Forall symbol done ->
  (In o (scan rules lc rc (rev (encs done)) 0 (encs ts)) <-> exists out, toks done ts out /\ o = encs (done ++ out)).
Proof.
  induction n as [|n IH]; intros ts done o Hn Hs Hd.
  - destruct ts; [|cbn in Hn; lia]. cbn [encs flat_map scan]. rewrite rev_involutive. cbn [In]. split.
    + intros [<-|[]]. exists []. rewrite app_nil_r. split; [constructor|reflexivity].
    + intros (out & H & ->). remember [] as ts eqn:Et. destruct H; [rewrite app_nil_r; left; reflexivity| |discriminate Et].
      exfalso. pose proof (proj1 (Forall_forall _ _) rs_ok _ H) as (_ & _ & Hn'). apply app_eq_nil in Et as [-> _]. exact Hn'.
  - destruct ts as [|t ts]; [apply IH; [cbn; lia|constructor|exact Hd]|]. inversion Hs as [|x y Ht Hs']; subst. assert (Hall : Forall symbol (t :: ts)) by assumption.
    assert (CopyCase : scan rules lc rc (opening t :: rev (encs done)) 0 (tl (enc t) ++ encs ts) = scan rules lc rc (rev (encs (done ++ [t]))) 0 (encs ts)).
    { destruct (enc_open t) as (v & Ev). rewrite Ev. cbn [tl]. rewrite (scan_copy t ts v Ht [opening t]); [|exact Ev|discriminate]. f_equal. rewrite encs_app. cbn [encs flat_map]. rewrite app_nil_r, Ev, rev_app_distr. cbn [rev]. rewrite <- app_assoc. reflexivity. }
    assert (Hd' : Forall symbol (done ++ [t])) by (apply Forall_app; split; [exact Hd|constructor; [exact Ht|constructor]]).
    assert (CopyOut : (forall l r u, In (l, r) rs -> t :: ts = l ++ u -> f u -> ~ p done) ->
      ((exists out, toks (done ++ [t]) ts out /\ o = encs ((done ++ [t]) ++ out)) <-> exists out, toks done (t :: ts) out /\ o = encs (done ++ out))).
    { intros NA. split.
      - intros (out & T & ->). exists (t :: out). rewrite <- app_assoc. split; [constructor; assumption|reflexivity].
      - intros (out & T & ->). remember (t :: ts) as tts eqn:Et. destruct T as [done|done l r rest out I' P F T|done t' rest out NA' T]; [discriminate Et| |].
        + exfalso. exact (NA l r rest I' eq_refl F P).
        + injection Et as -> ->. exists out. rewrite <- app_assoc. split; [exact T|reflexivity]. }
    rewrite encs_cons. destruct (enc_open t) as (v & Ev). rewrite Ev. cbn [app scan]. rewrite Ev in CopyCase. cbn [tl] in CopyCase.
    assert (Es : opening t :: v ++ encs ts = encs (t :: ts)) by (rewrite encs_cons, Ev; reflexivity). rewrite Es.
    destruct (filter (applicable rc (encs (t :: ts))) rules) as [|m ms] eqn:F0.
    + rewrite CopyCase, (IH ts (done ++ [t]) o); [|cbn in Hn; lia|exact Hs'|exact Hd']. apply CopyOut. intros l r u I' E Fu _.
      assert (A : In (rule_of (l, r)) (filter (applicable rc (encs (t :: ts))) rules)); [|rewrite F0 in A; destruct A]. apply filter_In. split; [apply in_map; exact I'|]. apply applies; [exact I'|exact Hall|]. exists u. split; assumption.
    + rewrite <- F0. destruct (lc (rev (encs done))) eqn:L.
      * apply (lc_ok done Hd) in L. rewrite in_flat_map. split.
        -- intros (r0 & I' & H). apply filter_In in I' as [I' A]. apply in_map_iff in I' as ([l r] & <- & I'). apply (applies l r _ I' Hall) in A as (u & Eu & Fu).
           pose proof (proj1 (Forall_forall _ _) rs_ok _ I') as (Hl & Hr & Hn'). cbn [fst snd] in *. rewrite scan_skip in H. cbn [rule_of lhs rhs fst snd] in H.
           assert (Sk : skipn (length (encs l) - 1) (v ++ encs ts) = encs u).
           { destruct l as [|a l]; [destruct Hn'|]. assert (Ec : encs (a :: l) = opening a :: tl (encs (a :: l))) by (rewrite encs_cons; destruct (enc_open a) as (w & ->); reflexivity).
             rewrite Eu, encs_app, Ec in Es. cbn [app] in Es. injection Es as _ Es. rewrite Es, Ec. cbn [length]. rewrite Nat.sub_1_r. cbn [pred]. rewrite skipn_app, skipn_all, Nat.sub_diag. reflexivity. }
           rewrite Sk, <- rev_app_distr, <- encs_app in H. assert (Hu : Forall symbol u) by (rewrite Eu in Hall; apply Forall_app in Hall; tauto).
           apply IH in H; [|destruct l; [destruct Hn'|apply (f_equal (@length tok)) in Eu; cbn in Eu, Hn; rewrite app_length in Eu; lia]|exact Hu|apply Forall_app; split; assumption].
           destruct H as (out & T & ->). exists (r ++ out). rewrite app_assoc. split; [|reflexivity]. rewrite Eu. constructor; assumption.
        -- intros (out & T & ->). remember (t :: ts) as tts eqn:Et. destruct T as [done|done l r rest out I' P Fu T|done t' rest out NA T]; [discriminate Et| |].
           ++ exists (rule_of (l, r)). split; [apply filter_In; split; [apply in_map; exact I'|]; apply applies; [exact I'|exact Hall|exists rest; split; [reflexivity|exact Fu]]|].
              pose proof (proj1 (Forall_forall _ _) rs_ok _ I') as (Hl & Hr & Hn'). cbn [fst snd] in *. rewrite scan_skip. cbn [rule_of lhs rhs fst snd].
              assert (Sk : skipn (length (encs l) - 1) (v ++ encs ts) = encs rest).
              { destruct l as [|a l]; [destruct Hn'|]. assert (Ec : encs (a :: l) = opening a :: tl (encs (a :: l))) by (rewrite encs_cons; destruct (enc_open a) as (w & ->); reflexivity).
                rewrite encs_app, Ec in Es. cbn [app] in Es. injection Es as _ Es. rewrite Es, Ec. cbn [length]. rewrite Nat.sub_1_r. cbn [pred]. rewrite skipn_app, skipn_all, Nat.sub_diag. reflexivity. }
              rewrite Sk, <- rev_app_distr, <- encs_app. assert (Hu : Forall symbol rest) by (apply Forall_app in Hall; tauto).
              apply IH; [destruct l; [destruct Hn'|cbn in Hn; rewrite app_length in Hn; lia]|exact Hu|apply Forall_app; split; assumption|].
              exists out. rewrite <- app_assoc. split; [exact T|reflexivity].
           ++ exfalso. assert (A : In m (filter (applicable rc (encs (t' :: rest))) rules)) by (rewrite F0; left; reflexivity). apply filter_In in A as [A B]. apply in_map_iff in A as ([l r] & <- & A).
              apply (applies l r _ A Hall) in B as (u & Eu & Fu). exact (NA l r u A Eu Fu L).
      * assert (NP : ~ p done) by (intros P; apply (lc_ok done Hd) in P; congruence). destruct (filter (applicable rc (encs (t :: ts))) rules) as [|m' ms']; [discriminate F0|]. rewrite CopyCase, (IH ts (done ++ [t]) o); [|cbn in Hn; lia|exact Hs'|exact Hd'].
        apply CopyOut. intros l r u _ _ _. exact NP.
Qed.
End Scan.

(** ** Contexts *)
Lemma all_sym x : matches SYM x <-> Forall sym_char x.
Proof.
  assert (C : forall l c, matches (chars l) c <-> exists d, c = [d] /\ In d l).
  { intros l c. unfold chars. split.
    - intros H. inversion H; subst. match goal with K : In _ (map _ _) |- _ => apply in_map_iff in K as (d & <- & K); exists d; split; [reflexivity|exact K] end.
    - intros (d & -> & H). constructor. apply in_map_iff. exists d. split; [reflexivity|exact H]. }
  assert (S0 : forall d, In d letters \/ In d punctuation <-> sym_char d).
  { intros d. unfold sym_char, letters. rewrite map_app, in_app_iff. assert (R : forall a b, In d (map N.of_nat (seq a b)) <-> (N.of_nat a <= d < N.of_nat (a + b))%N).
    { intros a b. rewrite in_map_iff. split.
      - intros (k & <- & H). apply in_seq in H. lia.
      - intros H. exists (N.to_nat d). split; [lia|]. apply in_seq. lia. }
    rewrite !R. unfold punctuation. split; [intros [[H|H]|H]; [left|right; left|right; right]; try exact H; lia|]. intros [H|[H|H]]; [left; left|left; right|right]; try exact H; lia. }
  split.
  - intros H. remember SYM as r eqn:E. unfold SYM in E. revert E. induction H; intros E; try discriminate E; [constructor|]. injection E as ->. apply Forall_app. split; [|apply IHmatches2; reflexivity].
    match goal with K : matches (Alt _ _) _ |- _ => inversion K; subst end; match goal with K : matches (chars _) _ |- _ => apply C in K as (d & -> & K); constructor; [apply S0; tauto|constructor] end.
  - induction 1 as [|c x Hc Hx IH]; [constructor|]. change (c :: x) with ([c] ++ x). apply m_star_cons; [|exact IH]. apply S0 in Hc as [Hc|Hc]; [apply m_alt_l|apply m_alt_r]; apply C; exists c; split; try reflexivity; exact Hc.
Qed.
Lemma enclosed_iff l r x : matches (enclosed l r) x <-> exists y, Forall sym_char y /\ x = [l] ++ y ++ [r].
Proof.
  unfold enclosed. split.
  - intros H. inversion H; subst. match goal with K : matches (Cat _ _) _ |- _ => inversion K; subst end. repeat match goal with K : matches (Strs _) _ |- _ => inversion K; subst; clear K end.
    repeat match goal with K : In _ [_] |- _ => destruct K as [<-|[]] end. match goal with K : matches SYM _ |- _ => apply all_sym in K; eexists; split; [exact K|reflexivity] end.
  - intros (y & H & ->). apply m_cat; [constructor; left; reflexivity|]. apply m_cat; [apply all_sym; exact H|constructor; left; reflexivity].
Qed.
Lemma graphemes_iff x : matches GRAPHEMES x <-> exists g, forallb grapheme g = true /\ Forall symbol g /\ x = encs g.
Proof.
  unfold GRAPHEMES. split.
  - intros H. remember (Star GRAPHEME) as r eqn:E. revert E. induction H; intros E; try discriminate E; [exists []; repeat split; constructor|]. injection E as ->.
    destruct IHmatches2 as (g & G1 & G2 & ->); [reflexivity|]. apply enclosed_iff in H as (y & Hy & ->). exists (Gr y :: g). repeat split; [exact G1|constructor; assumption].
  - intros (g & G1 & G2 & ->). induction G2 as [|t g Ht G2 IH]; [constructor|]. cbn [forallb] in G1. apply andb_prop in G1 as [G0 G1]. rewrite encs_cons. apply m_star_cons; [|exact (IH G1)].
    destruct t; try discriminate G0. apply enclosed_iff. exists s. split; [exact Ht|reflexivity].
Qed.
Lemma r_syms_iff x : matches R_SYMS x <-> exists g, forallb right_symbol g = true /\ Forall symbol g /\ x = encs g.
Proof.
  unfold R_SYMS. split.
  - intros H. remember (Star (Alt PHONEME TRANSLIT)) as r eqn:E. revert E. induction H; intros E; try discriminate E; [exists []; repeat split; constructor|]. injection E as ->.
    destruct IHmatches2 as (g & G1 & G2 & ->); [reflexivity|]. inversion H; subst; match goal with K : matches _ s |- _ => apply enclosed_iff in K as (y & Hy & ->) end; [exists (Ph y :: g)|exists (Tr y :: g)]; (repeat split; [exact G1|constructor; assumption]).
  - intros (g & G1 & G2 & ->). induction G2 as [|t g Ht G2 IH]; [constructor|]. cbn [forallb] in G1. apply andb_prop in G1 as [G0 G1]. rewrite encs_cons. apply m_star_cons; [|exact (IH G1)].
    destruct t; try discriminate G0; [apply m_alt_l|apply m_alt_r]; apply enclosed_iff; exists s; (split; [exact Ht|reflexivity]).
Qed.
Lemma sign_iff x : matches ALIGN_SIGN x <-> x = encs [Eq].
Proof. split; [intros H; inversion H; subst; match goal with K : In _ _ |- _ => destruct K as [<-|[]]; reflexivity end|intros ->; constructor; left; reflexivity]. Qed.
Lemma left_side_iff x : matches SKIP_LEFT_SIDE x <-> exists l, (l = [] \/ exists g, l = g ++ [Eq] /\ forallb grapheme g = true) /\ Forall symbol l /\ x = encs l.
Proof.
  unfold SKIP_LEFT_SIDE. split.
  - intros H. inversion H; subst; [exists []; split; [left; reflexivity|]; split; [constructor|reflexivity]|]. match goal with K : matches (Cat _ _) _ |- _ => inversion K; subst end.
    match goal with K : matches GRAPHEMES _ |- _ => apply graphemes_iff in K as (g & G1 & G2 & ->) end. match goal with K : matches ALIGN_SIGN _ |- _ => apply sign_iff in K as -> end.
    exists (g ++ [Eq]). split; [right; exists g; split; [reflexivity|exact G1]|]. split; [apply Forall_app; split; [exact G2|repeat constructor]|rewrite encs_app; reflexivity].
  - intros (l & [->|(g & -> & G1)] & G2 & ->); [constructor|]. apply Forall_app in G2 as [G2 _]. rewrite encs_app. apply m_ques_some, m_cat; [apply graphemes_iff; exists g; repeat split; assumption|apply sign_iff; reflexivity].
Qed.
Lemma right_side_iff x : matches SKIP_RIGHT_SIDE x <-> exists l, (l = [] \/ exists g, l = Eq :: g /\ forallb right_symbol g = true) /\ Forall symbol l /\ x = encs l.
Proof.
  unfold SKIP_RIGHT_SIDE. split.
  - intros H. inversion H; subst; [exists []; split; [left; reflexivity|]; split; [constructor|reflexivity]|]. match goal with K : matches (Cat _ _) _ |- _ => inversion K; subst end.
    match goal with K : matches R_SYMS _ |- _ => apply r_syms_iff in K as (g & G1 & G2 & ->) end. match goal with K : matches ALIGN_SIGN _ |- _ => apply sign_iff in K as -> end.
    exists (Eq :: g). split; [right; exists g; split; [reflexivity|exact G1]|]. split; [constructor; [exact I|exact G2]|reflexivity].
  - intros (l & [->|(g & -> & G1)] & G2 & ->); [constructor|]. inversion G2; subst. rewrite encs_cons. apply m_ques_some, m_cat; [apply sign_iff; reflexivity|apply r_syms_iff; exists g; repeat split; assumption].
Qed.
Lemma skip_iff x : matches SKIP x <-> exists l, skipped l /\ Forall symbol l /\ x = encs l.
Proof.
  unfold SKIP, skipped. split.
  - intros H. inversion H; subst.
    + match goal with K : matches SKIP_LEFT_SIDE _ |- _ => apply left_side_iff in K as (l & [->|L] & K & ->) end; [exists []|exists l]; repeat split; tauto.
    + match goal with K : matches SKIP_RIGHT_SIDE _ |- _ => apply right_side_iff in K as (l & [->|L] & K & ->) end; [exists []|exists l]; repeat split; tauto.
  - intros (l & [->|[L|L]] & K & ->); [apply m_alt_l, left_side_iff; exists []; tauto|apply m_alt_l, left_side_iff; exists l; tauto|apply m_alt_r, right_side_iff; exists l; tauto].
Qed.
Lemma left_ok_iff edge r (s : str) : left_ok (Some (edge, r)) (rev s) = true <-> exists y x, s = y ++ x /\ matches r x /\ (edge = true -> y = []).
Proof.
  unfold left_ok. rewrite existsb_exists. split.
  - intros (k & K & H). apply in_seq in K. rewrite rev_length in *. assert (E : rev (firstn k (rev s)) = skipn (length s - k) s) by (rewrite firstn_rev, rev_involutive; reflexivity). rewrite E in H.
    exists (firstn (length s - k) s), (skipn (length s - k) s). split; [symmetry; apply firstn_skipn|]. destruct edge.
    + apply andb_prop in H as [H1 H2]. apply Nat.eqb_eq in H1. subst k. rewrite Nat.sub_diag in *. split; [apply accepts_spec; exact H2|reflexivity].
    + split; [apply accepts_spec; exact H|discriminate].
  - intros (y & x & -> & M & Ed). exists (length x). rewrite rev_length, app_length, rev_app_distr. split; [apply in_seq; lia|]. rewrite <- (rev_length x), firstn_app, firstn_all, Nat.sub_diag. cbn [firstn]. rewrite app_nil_r, rev_involutive.
    apply accepts_spec in M. rewrite M. destruct edge; [|reflexivity]. rewrite (Ed eq_refl). cbn [length]. rewrite rev_length, Nat.eqb_refl. reflexivity.
Qed.
Lemma right_ok_iff edge r (s : str) : right_ok (Some (edge, r)) s = true <-> exists x y, s = x ++ y /\ matches r x /\ (edge = true -> y = []).
Proof.
  unfold right_ok. rewrite existsb_exists. split.
  - intros (k & K & H). apply in_seq in K. exists (firstn k s), (skipn k s). split; [symmetry; apply firstn_skipn|]. destruct edge.
    + apply andb_prop in H as [H1 H2]. apply Nat.eqb_eq in H1. subst k. rewrite skipn_all. split; [apply accepts_spec; exact H2|reflexivity].
    + split; [apply accepts_spec; exact H|discriminate].
  - intros (x & y & -> & M & Ed). exists (length x). rewrite app_length. split; [apply in_seq; lia|]. rewrite firstn_app, firstn_all, Nat.sub_diag. cbn [firstn]. rewrite app_nil_r.
    apply accepts_spec in M. rewrite M. destruct edge; [|reflexivity]. rewrite (Ed eq_refl). cbn [length]. rewrite Nat.add_0_r, Nat.eqb_refl. reflexivity.
Qed.
Lemma ques_ques r x : matches (Ques (Ques r)) x <-> matches (Ques r) x.
Proof. split; [intros H; inversion H; subst; [constructor|assumption]|intros H; apply m_ques_some; exact H]. Qed.
Lemma before_ok c done : symbol_ctx c -> Forall symbol done -> (left_ok (option_map (fun '(b, r) => (b, Cat r SKIP)) (left_context c)) (rev (encs done)) = true <-> before c done).
Proof.
  intros Hc Hd. destruct c as [|l|]; cbn [left_context option_map before].
  - split; [exact (fun _ => I)|reflexivity].
  - rewrite left_ok_iff. cbn [symbol_ctx] in Hc. rewrite Forall_forall in Hc. split.
    + intros (y & x & E & M & _). inversion M; subst. match goal with K : matches (Strs _) _ |- _ => inversion K; subst end. match goal with K : In _ (map _ _) |- _ => apply in_map_iff in K as (a & <- & Ka) end.
      match goal with K : matches SKIP _ |- _ => apply skip_iff in K as (xt & X1 & X2 & ->) end. rewrite <- encs_app in E. symmetry in E.
      apply encs_suffix in E as (u & Eu & _); [|apply Forall_app; split; [exact (Hc _ Ka)|exact X2]|exact Hd]. exists a, u, xt. repeat split; assumption.
    + intros (a & u & x & Ha & Hx & ->). apply Forall_app in Hd as [_ Hd]. apply Forall_app in Hd as [_ Hd]. exists (encs u), (encs a ++ encs x). rewrite !encs_app. split; [reflexivity|]. split; [|discriminate].
      apply m_cat; [constructor; apply in_map; exact Ha|]. apply skip_iff. exists x. repeat split; assumption.
  - unfold BOW. cbn [option_map]. rewrite left_ok_iff. split.
    + intros (y & x & E & M & Ed). rewrite (Ed eq_refl) in E. cbn [app] in E. subst x. inversion M; subst. match goal with K : matches (Ques _) _ |- _ => apply (proj1 (ques_ques (Cat GRAPHEMES ALIGN_SIGN) _)) in K; apply left_side_iff in K as (a & A1 & A2 & ->) end.
      match goal with K : matches SKIP _ |- _ => apply skip_iff in K as (xt & X1 & X2 & ->) end. exists a, xt. split; [exact A1|]. split; [exact X1|]. apply encs_inj; [exact Hd|apply Forall_app; split; assumption|]. rewrite encs_app. congruence.
    + intros (x & y & Hx & Hy & ->). apply Forall_app in Hd as [D1 D2]. exists [], (encs x ++ encs y). rewrite encs_app. repeat split. apply m_cat; [apply m_ques_some; apply left_side_iff; exists x; repeat split; assumption|apply skip_iff; exists y; repeat split; assumption].
Qed.
Lemma after_ok c rest : symbol_ctx c -> Forall symbol rest -> (right_ok (option_map (fun '(b, r) => (b, Cat SKIP r)) (right_context c)) (encs rest) = true <-> after c rest).
Proof.
  intros Hc Hd. destruct c as [|l|]; cbn [right_context option_map after].
  - split; [exact (fun _ => I)|reflexivity].
  - rewrite right_ok_iff. cbn [symbol_ctx] in Hc. rewrite Forall_forall in Hc. split.
    + intros (x & y & E & M & _). inversion M; subst. match goal with K : matches (Strs _) _ |- _ => inversion K; subst end. match goal with K : In _ (map _ _) |- _ => apply in_map_iff in K as (a & <- & Ka) end.
      match goal with K : matches SKIP _ |- _ => apply skip_iff in K as (xt & X1 & X2 & ->) end. rewrite <- encs_app in E. symmetry in E.
      apply encs_prefix in E as (u & Eu & _); [|apply Forall_app; split; [exact X2|exact (Hc _ Ka)]|exact Hd]. exists a, u, xt. rewrite app_assoc. repeat split; assumption.
    + intros (a & u & x & Ha & Hx & ->). apply Forall_app in Hd as [D1 Hd]. exists (encs x ++ encs a), (encs u). rewrite !encs_app, app_assoc. split; [reflexivity|]. split; [|discriminate].
      apply m_cat; [apply skip_iff; exists x; repeat split; assumption|]. constructor. apply in_map. exact Ha.
  - unfold EOW. cbn [option_map]. rewrite right_ok_iff. split.
    + intros (x & y & E & M & Ed). rewrite (Ed eq_refl), app_nil_r in E. subst x. inversion M; subst. match goal with K : matches (Ques _) _ |- _ => apply (proj1 (ques_ques (Cat ALIGN_SIGN R_SYMS) _)) in K; apply right_side_iff in K as (a & A1 & A2 & ->) end.
      match goal with K : matches SKIP _ |- _ => apply skip_iff in K as (xt & X1 & X2 & ->) end. exists a, xt. split; [exact A1|]. split; [exact X1|]. apply encs_inj; [exact Hd|apply Forall_app; split; assumption|]. rewrite encs_app. congruence.
    + intros (x & y & Hx & Hy & ->). apply Forall_app in Hd as [D1 D2]. exists (encs y ++ encs x), []. rewrite encs_app, app_nil_r. repeat split. apply m_cat; [apply skip_iff; exists y; repeat split; assumption|apply m_ques_some; apply right_side_iff; exists x; repeat split; assumption].
Qed.
Lemma toks_rewrites rs p f done ts out : toks rs (before p) (after f) done ts out <-> rewrites rs p f done ts out.
Proof. split; induction 1; econstructor; eassumption. Qed.
Lemma rewrite_symbols rs p f ts o : Forall symbol_rule rs -> symbol_ctx p -> symbol_ctx f -> Forall symbol ts ->
  (In o (rewrite_op (map rule_of rs) (left_context p) (right_context f) (encs ts)) <-> exists out, rewrites rs p f [] ts out /\ o = encs out).
Proof.
  intros Hr Hp Hf Hs. unfold rewrite_op. change (@nil N) with (rev (encs [])).
  rewrite (scan_toks rs Hr _ _ (before p) (after f) (fun d H => before_ok p d Hp H) (fun d H => after_ok f d Hf H) (length ts) ts [] o); [|lia|exact Hs|constructor]. cbn [app].
  split; intros (out & T & E); exists out; (split; [apply toks_rewrites; exact T|exact E]).
Qed.
