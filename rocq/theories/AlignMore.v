From Verif Require Import Base RuleModel RegexModel RegexProofs RewriteProofs.
From Verif Require Import IsoModel IsoSpec IsoProofs AlignModel AlignSpec AlignProofs.
From Coq Require Import Lia.

(** ** Consequences for rules *)
Lemma rewrites_one rs p f : Forall symbol_rule rs -> apart rs -> forall done ts o1, rewrites rs p f done ts o1 -> forall o2, rewrites rs p f done ts o2 -> o1 = o2.
Proof.
  intros Hr Ha done ts o1 H. induction H as [done|done l r rest out I' P F T IH|done t rest out NA T IH]; intros o2 H2.
  - remember [] as z eqn:E. destruct H2; [reflexivity| |discriminate E]. pose proof (proj1 (Forall_forall _ _) Hr _ H) as (_ & _ & N). apply app_eq_nil in E as [-> _]. destruct N.
  - pose proof (proj1 (Forall_forall _ _) Hr _ I') as (_ & _ & N). cbn [fst] in N. remember (l ++ rest) as z eqn:E. destruct H2 as [done|done l' r' rest' out' I2 P2 F2 T2|done t' rest' out' NA2 T2].
    + symmetry in E. apply app_eq_nil in E as [-> _]. destruct N.
    + assert (Q : (l', r') = (l, r)).
      { destruct (Nat.le_ge_cases (length l) (length l')) as [L|L].
        - symmetry. apply (Ha (l, r) (l', r') (firstn (length l' - length l) rest)); try assumption. cbn [fst]. apply (f_equal (firstn (length l'))) in E. rewrite !firstn_app, firstn_all, Nat.sub_diag in E. cbn [firstn] in E. rewrite app_nil_r in E. rewrite (firstn_all2 l L) in E. exact E.
        - apply (Ha (l', r') (l, r) (firstn (length l - length l') rest')); try assumption. cbn [fst]. apply (f_equal (firstn (length l))) in E. rewrite !firstn_app, firstn_all, Nat.sub_diag in E. cbn [firstn] in E. rewrite app_nil_r in E. rewrite (firstn_all2 l' L) in E. symmetry. exact E. }
      injection Q as -> ->. apply app_inv_head in E as ->. f_equal. apply IH. exact T2.
    + exfalso. exact (NA2 l r rest I' E F P).
  - remember (t :: rest) as z eqn:E. destruct H2 as [done|done l' r' rest' out' I2 P2 F2 T2|done t' rest' out' NA2 T2]; [discriminate E| |].
    + exfalso. exact (NA l' r' rest' I2 eq_refl F2 P2).
    + injection E as -> ->. f_equal. apply IH. exact T2.
Qed.
Lemma rewrites_total rs p f ts : Forall symbol_rule rs -> symbol_ctx p -> symbol_ctx f -> Forall symbol ts -> forall done, Forall symbol done -> exists out, rewrites rs p f done ts out.
Proof.
  intros Hr Hp Hf. remember (length ts) as n eqn:En. assert (L : length ts <= n) by lia. clear En. revert ts L.
  induction n as [|n IH]; intros ts L Hs done Hd.
  - destruct ts; [exists []; constructor|cbn in L; lia].
  - destruct ts as [|t ts]; [exists []; constructor|].
    destruct (left_ok (option_map (fun '(b, r) => (b, Cat r SKIP)) (left_context p)) (rev (encs done))) eqn:Lo.
    + apply before_ok in Lo; try assumption. destruct (filter (applicable (right_ok (option_map (fun '(b, r) => (b, Cat SKIP r)) (right_context f))) (encs (t :: ts))) (map rule_of rs)) as [|m ms] eqn:F0.
      * inversion Hs; subst. destruct (IH ts) with (done := done ++ [t]) as (out & T); [cbn in L; lia|assumption|apply Forall_app; split; [assumption|constructor; [assumption|constructor]]|]. exists (t :: out). constructor; [|exact T].
        intros l r u I' E Fu _. assert (A : In (rule_of (l, r)) (filter (applicable (right_ok (option_map (fun '(b, r) => (b, Cat SKIP r)) (right_context f))) (encs (t :: ts))) (map rule_of rs))); [|rewrite F0 in A; destruct A].
        apply filter_In. split; [apply in_map; exact I'|]. eapply (applies rs Hr _ (after f) (fun d H => after_ok f d Hf H)); [exact I'|exact Hs|]. exists u. split; assumption.
      * assert (A : In m (m :: ms)) by (left; reflexivity). rewrite <- F0 in A. apply filter_In in A as [A B]. apply in_map_iff in A as ([l r] & <- & A).
        apply (applies rs Hr _ (after f) (fun d H => after_ok f d Hf H)) in B as (u & Eu & Fu); try assumption. pose proof (proj1 (Forall_forall _ _) Hr _ A) as (Hl & Hr' & N). cbn [fst snd] in *.
        destruct (IH u) with (done := done ++ r) as (out & T).
        -- destruct l as [|a l]; [destruct N|]. apply (f_equal (@length tok)) in Eu. cbn in Eu, L. rewrite app_length in Eu. lia.
        -- rewrite Eu in Hs. apply Forall_app in Hs. tauto.
        -- apply Forall_app. split; assumption.
        -- exists (r ++ out). rewrite Eu. constructor; assumption.
    + inversion Hs; subst. destruct (IH ts) with (done := done ++ [t]) as (out & T); [cbn in L; lia|assumption|apply Forall_app; split; [assumption|constructor; [assumption|constructor]]|]. exists (t :: out). constructor; [|exact T].
      intros l r u _ _ _ B. apply before_ok in B; try assumption. congruence.
Qed.
Lemma rewrite_total rs p f ts : Forall symbol_rule rs -> symbol_ctx p -> symbol_ctx f -> Forall symbol ts -> rewrite_op (map rule_of rs) (left_context p) (right_context f) (encs ts) <> [].
Proof.
  intros Hr Hp Hf Hs E. destruct (rewrites_total rs p f ts Hr Hp Hf Hs [] (Forall_nil _)) as (out & T). assert (A : In (encs out) (rewrite_op (map rule_of rs) (left_context p) (right_context f) (encs ts))); [|rewrite E in A; destruct A].
  apply rewrite_symbols; try assumption. exists out. split; [exact T|reflexivity].
Qed.
Lemma rewrite_apart rs p f ts : Forall symbol_rule rs -> apart rs -> symbol_ctx p -> symbol_ctx f -> Forall symbol ts ->
  exists out, rewrites rs p f [] ts out /\ forall o, In o (rewrite_op (map rule_of rs) (left_context p) (right_context f) (encs ts)) <-> o = encs out.
Proof.
  intros Hr Ha Hp Hf Hs. destruct (rewrites_total rs p f ts Hr Hp Hf Hs [] (Forall_nil _)) as (out & T). exists out. split; [exact T|]. intros o. rewrite rewrite_symbols by assumption. split.
  - intros (out' & T' & ->). f_equal. eapply rewrites_one; eassumption.
  - intros ->. exists out. split; [exact T|reflexivity].
Qed.
Lemma rewrites_symbols rs p f done ts out : Forall symbol_rule rs -> rewrites rs p f done ts out -> Forall symbol ts -> Forall symbol out.
Proof.
  intros Hr. induction 1 as [|done l r rest out I' P F T IH|done t rest out NA T IH]; intros Hs; [constructor| |].
  - apply Forall_app in Hs as [_ Hs]. apply Forall_app. split; [|exact (IH Hs)]. apply (proj1 (Forall_forall _ _) Hr _ I').
  - inversion Hs; subst. constructor; [assumption|apply IH; assumption].
Qed.
Lemma rewrites_graphemes rs p f done ts out : Forall keeps_graphemes rs -> rewrites rs p f done ts out -> filter grapheme out = filter grapheme ts.
Proof.
  intros Hk. induction 1 as [|done l r rest out I' P F T IH|done t rest out NA T IH]; [reflexivity| |].
  - rewrite !filter_app, IH. f_equal. symmetry. exact (proj1 (Forall_forall _ _) Hk _ I').
  - cbn [filter]. rewrite IH. reflexivity.
Qed.
Lemma rewrite_graphemes rs p f ts o : Forall symbol_rule rs -> Forall keeps_graphemes rs -> symbol_ctx p -> symbol_ctx f -> Forall symbol ts ->
  In o (rewrite_op (map rule_of rs) (left_context p) (right_context f) (encs ts)) -> exists out, o = encs out /\ Forall symbol out /\ filter grapheme out = filter grapheme ts.
Proof.
  intros Hr Hk Hp Hf Hs H. apply rewrite_symbols in H as (out & T & ->); try assumption. exists out. split; [reflexivity|]. split; [eapply rewrites_symbols; eassumption|eapply rewrites_graphemes; eassumption].
Qed.
Lemma align_encs l r : align (encs l) (encs r) = encs (l ++ Eq :: r).
Proof. rewrite encs_app. reflexivity. Qed.
Lemma filter_none (A : Type) (h : A -> bool) l : forallb (fun t => negb (h t)) l = true -> filter h l = [].
Proof. induction l as [|a l IH]; intros H; [reflexivity|]. cbn in *. apply andb_prop in H as [H1 H2]. destruct (h a); [discriminate|]. exact (IH H2). Qed.
Lemma rights_no_graphemes r : forallb right_symbol r = true -> filter grapheme r = [].
Proof. intros H. apply filter_none. apply forallb_forall. intros t Ht. apply (proj1 (forallb_forall _ _) H) in Ht. destruct t; [discriminate|reflexivity..]. Qed.
Lemma starts_app a t l : starts_named a -> named t -> match a ++ t :: l with [] => False | t :: _ => named t end.
Proof. destruct a; cbn; tauto. Qed.
Lemma reassign_graphemes left old new p f ts o : Forall symbol left -> starts_named left -> Forall symbol old -> Forall symbol new -> forallb right_symbol old = true -> forallb right_symbol new = true ->
  symbol_ctx p -> symbol_ctx f -> Forall symbol ts -> In o (reassign (encs left) (encs old) (encs new) (left_context p) (right_context f) (encs ts)) ->
  exists out, o = encs out /\ Forall symbol out /\ filter grapheme out = filter grapheme ts.
Proof.
  intros H1 N H2 H3 R1 R2 Hp Hf Hs H. unfold reassign, realign in H. rewrite !align_encs in H. apply (rewrite_graphemes [(left ++ Eq :: old, left ++ Eq :: new)] p f ts o); try assumption.
  - constructor; [|constructor]. split; [|split]; cbn [fst snd]; try (apply Forall_app; split; [|constructor; [exact I|]]; assumption). apply starts_app; [exact N|exact I].
  - constructor; [|constructor]. unfold keeps_graphemes. cbn [fst snd]. rewrite !filter_app. cbn [filter grapheme]. rewrite (rights_no_graphemes old R1), (rights_no_graphemes new R2). reflexivity.
Qed.
Lemma merge_graphemes l1 r1 l2 r2 nr p f ts o : Forall symbol l1 -> Forall symbol l2 -> Forall symbol r1 -> Forall symbol r2 -> Forall symbol nr -> starts_named l1 ->
  forallb right_symbol r1 = true -> forallb right_symbol r2 = true -> forallb right_symbol nr = true ->
  symbol_ctx p -> symbol_ctx f -> Forall symbol ts -> In o (merge (encs l1) (encs r1) (encs l2) (encs r2) (encs nr) (left_context p) (right_context f) (encs ts)) ->
  exists out, o = encs out /\ Forall symbol out /\ filter grapheme out = filter grapheme ts.
Proof.
  intros H1 H2 H3 H4 H5 N R1 R2 R3 Hp Hf Hs H. unfold merge, rewrite_one in H. set (new := match nr with [] => r1 ++ r2 | _ => nr end).
  assert (En : match encs nr with [] => encs r1 ++ encs r2 | _ => encs nr end = encs new) by (unfold new; destruct nr as [|t nr]; [rewrite encs_app; reflexivity|rewrite encs_cons; destruct (enc_open t) as (w & ->); reflexivity]).
  assert (Hn : Forall symbol new) by (unfold new; destruct nr; [apply Forall_app; split|]; assumption).
  assert (Rn : forallb right_symbol new = true) by (unfold new; destruct nr; [rewrite forallb_app; rewrite R1, R2; reflexivity|assumption]).
  assert (H' : In o (rewrite_op [Rule (align (encs l1) (encs r1) ++ align (encs l2) (encs r2)) (align (encs l1 ++ encs l2) (encs new))] (left_context p) (right_context f) (encs ts))) by (rewrite <- En; exact H).
  clear H En. rename H' into H. clearbody new. rewrite <- encs_app, !align_encs, <- encs_app in H.
  apply (rewrite_graphemes [((l1 ++ Eq :: r1) ++ l2 ++ Eq :: r2, (l1 ++ l2) ++ Eq :: new)] p f ts o); try assumption.
  - constructor; [|constructor]. split; [|split]; cbn [fst snd].
    + repeat (apply Forall_app; split); try assumption; (constructor; [exact I|assumption]).
    + repeat (apply Forall_app; split); try assumption; (constructor; [exact I|assumption]).
    + rewrite <- app_assoc. apply starts_app; [exact N|exact I].
  - constructor; [|constructor]. unfold keeps_graphemes. cbn [fst snd]. rewrite !filter_app. cbn [filter grapheme]. rewrite (rights_no_graphemes r1 R1), (rights_no_graphemes r2 R2), (rights_no_graphemes new Rn), !app_nil_r. reflexivity.
Qed.

(** ** Assigning *)
Lemma assigns_ok tab : table tab -> Forall symbol_rule (assigns tab).
Proof.
  intros [_ H]. unfold assigns. apply Forall_forall. intros q Hq. apply in_map_iff in Hq as (p & <- & Hp). apply (proj1 (Forall_forall _ _) H) in Hp as (N & S1 & S2). split; [|split]; cbn [fst snd].
  - constructor; [exact S1|constructor].
  - constructor; [exact S1|]. constructor; [exact I|]. exact S2.
  - exact N.
Qed.
Lemma nodup_fst (B : Type) (tab : list (str * B)) g a b : NoDup (map fst tab) -> In (g, a) tab -> In (g, b) tab -> a = b.
Proof.
  induction tab as [|p tab IH]; intros N H1 H2; [destruct H1|]. cbn in N. inversion N; subst. destruct H1 as [->|H1], H2 as [E|H2].
  - congruence.
  - cbn in *. exfalso. match goal with K : ~ _ |- _ => apply K end. apply in_map_iff. exists (g, b). split; [reflexivity|exact H2].
  - subst p. cbn in *. exfalso. match goal with K : ~ _ |- _ => apply K end. apply in_map_iff. exists (g, a). split; [reflexivity|exact H1].
  - apply IH; assumption.
Qed.
Lemma assign_all tab ps : table tab -> (forall p, In p ps -> In p tab) -> forall o,
  In o (rewrite_ls (map rule_of (assigns tab)) None None (encs (map (fun p => Gr (fst p)) ps))) <-> o = encs (flat_map (fun p => [Gr (fst p); Eq] ++ snd p) ps).
Proof.
  intros Ht Hps o. assert (Hs : Forall symbol (map (fun p => Gr (fst p)) ps)).
  { apply Forall_forall. intros t Hq. apply in_map_iff in Hq as (p & <- & Hp). apply Hps in Hp. destruct Ht as [_ Ht]. apply (proj1 (Forall_forall _ _) Ht) in Hp as (_ & S1 & _). exact S1. }
  assert (K : forall done, rewrites (assigns tab) Anywhere Anywhere done (map (fun p => Gr (fst p)) ps) (flat_map (fun p => [Gr (fst p); Eq] ++ snd p) ps)).
  { clear o Hs. induction ps as [|p ps IH]; intros done; [constructor|]. cbn [map flat_map]. apply (rw_apply _ _ _ _ [Gr (fst p)] ([Gr (fst p); Eq] ++ snd p)); [|exact I|exact I|].
    - apply in_map_iff. exists p. split; [reflexivity|]. apply Hps. left. reflexivity.
    - apply IH. intros q Hq. apply Hps. right. exact Hq. }
  assert (Ap : apart (assigns tab)).
  { intros a b u Ha Hb E. apply in_map_iff in Ha as ([g r] & <- & Ha). apply in_map_iff in Hb as ([g' r'] & <- & Hb). cbn [fst snd] in *. injection E as -> _. destruct Ht as [N _]. rewrite (nodup_fst _ tab g r r' N Ha Hb). reflexivity. }
  unfold rewrite_ls. change (@None (bool * re)) with (left_context Anywhere) at 1. change (@None (bool * re)) with (right_context Anywhere). rewrite (rewrite_symbols _ Anywhere Anywhere _ _ (assigns_ok tab Ht) I I Hs). split.
  - intros (out & T & ->). f_equal. eapply rewrites_one; [exact (assigns_ok tab Ht)|exact Ap|exact T|apply K].
  - intros ->. eexists. split; [apply K|reflexivity].
Qed.

(** ** Extracting *)
Lemma stripped_total s : exists t, stripped s t.
Proof.
  remember (length s) as n eqn:En. assert (L : length s <= n) by lia. clear En. revert s L. induction n as [|n IH]; intros s L.
  - destruct s; [exists []; constructor|cbn in L; lia].
  - destruct s as [|c s]; [exists []; constructor|]. cbn in L. destruct (N.eq_dec c 61) as [->|N].
    + destruct (IH s) as (t & T); [lia|]. exists t. constructor. exact T.
    + assert (D : (exists y u, Forall sym_char y /\ c :: s = 60%N :: y ++ 62%N :: u) \/ forall y u, Forall sym_char y -> c :: s <> 60%N :: y ++ 62%N :: u).
      { destruct (N.eq_dec c 60) as [->|N']; [|right; intros y u _ E; congruence].
        assert (G : (exists y u, Forall sym_char y /\ s = y ++ 62%N :: u) \/ forall y u, Forall sym_char y -> s <> y ++ 62%N :: u).
        { clear. induction s as [|c s IH]; [right; intros [|? ?] u _; discriminate|]. destruct (N.eq_dec c 62) as [->|N]; [left; exists [], s; split; [constructor|reflexivity]|].
          assert (Dc : sym_char c \/ ~ sym_char c).
          { unfold sym_char. cbn [In]. destruct (N.le_gt_cases 65 c), (N.le_gt_cases c 90), (N.le_gt_cases 97 c), (N.le_gt_cases c 122); try (left; lia); destruct (in_dec N.eq_dec c [95; 43; 46; 42; 45; 38; 33; 58]%N) as [J|J]; try (left; right; right; exact J); right; intros [K|[K|K]]; try lia; exact (J K). }
          destruct Dc as [Dc|Dc]; [|right; intros [|d y] u F E; [injection E as -> _; congruence|injection E as -> _; inversion F; subst; contradiction]].
          destruct IH as [(y & u & F & ->)|IH]; [left; exists (c :: y), u; split; [constructor; assumption|reflexivity]|]. right. intros [|d y] u F E; [injection E as -> _; congruence|]. injection E as -> E. apply Forall_inv_tail in F. exact (IH y u F E). }
        destruct G as [(y & u & F & ->)|G]; [left; exists y, u; split; [exact F|reflexivity]|right; intros y u F E; injection E as E; exact (G y u F E)]. }
      destruct D as [(y & u & F & E)|D].
      * injection E as -> ->. destruct (IH u) as (t & T); [rewrite app_length in L; cbn in L; lia|]. exists t. constructor; assumption.
      * destruct (IH s) as (t & T); [lia|]. exists (c :: t). constructor; assumption.
Qed.
Lemma stripped_one s t : stripped s t -> forall t', stripped s t' -> t = t'.
Proof.
  induction 1 as [|s t T IH|y s t F T IH|c s t N D T IH]; intros t' H.
  - inversion H. reflexivity.
  - inversion H; subst; [apply IH; assumption|congruence].
  - remember (60%N :: y ++ 62%N :: s) as z eqn:E. destruct H as [|z t' H|y' z t' F' H|c z t' N D H]; [discriminate E|discriminate E| |exfalso; exact (D y s F E)].
    injection E as E. apply run_prefix in E as (_ & _ & ->); [apply IH; exact H|assumption|assumption|notsym|notsym].
  - remember (c :: s) as z eqn:E. destruct H as [|z t' H|y' z t' F' H|c' z t' N' D' H]; [discriminate E|injection E as <- _; congruence|exfalso; exact (D y' z F' eq_refl)|]. injection E as -> ->. f_equal. apply IH. exact H.
Qed.
Lemma stripped_graphemes g s t : forallb grapheme g = true -> Forall symbol g -> (stripped (encs g ++ s) t <-> stripped s t).
Proof.
  intros G H. induction H as [|a g Ha H IH]; [reflexivity|]. cbn in G. apply andb_prop in G as [G0 G]. specialize (IH G). destruct a; try discriminate G0. rewrite encs_cons, <- app_assoc. cbn [enc]. rewrite <- !app_assoc. cbn [app]. rewrite <- IH. split.
  - intros T. destruct (stripped_total (encs g ++ s)) as (t' & T'). replace t with t'; [exact T'|]. eapply stripped_one; [|exact T]. constructor; assumption.
  - intros T. constructor; assumption.
Qed.
Definition ER : re := Alt GRAPHEMES ALIGN_SIGN.
Lemma er_iff x : matches ER x <-> x = [61%N] \/ exists g, forallb grapheme g = true /\ Forall symbol g /\ x = encs g.
Proof.
  unfold ER. split.
  - intros H. inversion H; subst; [right; apply graphemes_iff; assumption|left; match goal with K : matches ALIGN_SIGN _ |- _ => apply sign_iff in K; exact K end].
  - intros [->|H]; [apply m_alt_r, sign_iff; reflexivity|apply m_alt_l, graphemes_iff; exact H].
Qed.
Lemma lengths_iff r s k : In k (match_lengths r s) <-> exists x y, s = x ++ y /\ length x = k /\ x <> [] /\ matches r x.
Proof.
  unfold match_lengths. rewrite filter_In, in_seq, accepts_spec. split.
  - intros [K M]. exists (firstn k s), (skipn k s). split; [symmetry; apply firstn_skipn|]. assert (E : length (firstn k s) = k) by (apply firstn_length_le; lia). split; [exact E|]. split; [|exact M]. intros Z. rewrite Z in E. cbn in E. lia.
  - intros (x & y & -> & <- & N & M). rewrite app_length, firstn_app, firstn_all, Nat.sub_diag. cbn [firstn]. rewrite app_nil_r. split; [|exact M]. destruct x; [congruence|]. cbn. lia.
Qed.
Lemma delete_skip b r o k s : delete_scan b r o k s = delete_scan b r o 0 (skipn k s).
Proof. revert o k; induction s as [|c s IH]; intros o k; [destruct k; reflexivity|]. destruct k as [|k]; [reflexivity|]. cbn [skipn]. rewrite <- IH. reflexivity. Qed.
Lemma delete_after b r o x y : x <> [] -> delete_scan b r o (length x - 1) (tl (x ++ y)) = delete_scan b r o 0 y.
Proof. intros N. destruct x as [|c x]; [congruence|]. cbn [app tl length]. rewrite delete_skip, Nat.sub_1_r. cbn [pred]. rewrite skipn_app, skipn_all, Nat.sub_diag. reflexivity. Qed.
(** What a match at the start deletes *)
Lemma er_match s k : In k (match_lengths ER s) -> exists x y, s = x ++ y /\ length x = k /\ x <> [] /\ (forall t, stripped s t <-> stripped y t).
Proof.
  intros H. apply lengths_iff in H as (x & y & -> & L & N & M). exists x, y. repeat (split; [first [reflexivity|assumption]|]). intros t. apply er_iff in M as [->|(g & G1 & G2 & ->)].
  - cbn [app]. split; [|constructor; assumption]. intros T. inversion T; subst; [assumption|congruence].
  - apply stripped_graphemes; assumption.
Qed.
Lemma no_match s t : match_lengths ER s = [] -> stripped s t -> s = [] \/ exists c s' t', s = c :: s' /\ t = c :: t' /\ stripped s' t'.
Proof.
  intros E T. destruct T as [|s t T|y s t F T|c s t N D T]; [left; reflexivity| | |right; eauto 6].
  - exfalso. assert (A : In 1 (match_lengths ER (61%N :: s))); [|rewrite E in A; destruct A]. apply lengths_iff. exists [61%N], s. repeat split; [discriminate|]. apply er_iff. left. reflexivity.
  - exfalso. assert (A : In (length (enc (Gr y))) (match_lengths ER (60%N :: y ++ 62%N :: s))); [|rewrite E in A; destruct A]. apply lengths_iff. exists (enc (Gr y)), s. repeat split.
    + cbn. rewrite <- app_assoc. reflexivity.
    + discriminate.
    + apply er_iff. right. exists [Gr y]. repeat split; [constructor; [exact F|constructor]|]. cbn [encs flat_map]. rewrite app_nil_r. reflexivity.
Qed.
Lemma extract_scan n : forall s outr o, length s <= n -> (In o (delete_scan false ER outr 0 s) <-> exists t, stripped s t /\ o = rev outr ++ t).
Proof.
  induction n as [|n IH]; intros s outr o L.
  - destruct s; [|cbn in L; lia]. cbn. split; [intros [<-|[]]; exists []; split; [constructor|rewrite app_nil_r; reflexivity]|intros (t & T & ->); inversion T; rewrite app_nil_r; left; reflexivity].
  - destruct s as [|c s]; [apply IH; cbn; lia|]. cbn [delete_scan andb]. destruct (match_lengths ER (c :: s)) as [|k ks] eqn:E.
    + cbn in L. rewrite IH by lia. destruct (stripped_total (c :: s)) as (t & T). destruct (no_match _ _ E T) as [Z|(c' & s' & t' & Es & -> & T')]; [discriminate Z|]. injection Es as <- <-. cbn [rev]. split.
      * intros (t & Ht & ->). rewrite (stripped_one _ _ Ht _ T'). exists (c :: t'). split; [exact T|]. rewrite <- app_assoc. reflexivity.
      * intros (t & Ht & ->). rewrite (stripped_one _ _ Ht _ T). exists t'. split; [exact T'|]. rewrite <- app_assoc. reflexivity.
    + rewrite app_nil_r, <- E, in_flat_map. split.
      * intros (j & J & H). apply er_match in J as (x & y & Ex & <- & Nx & Tx). change s with (tl (c :: s)) in H. rewrite Ex, delete_after in H by exact Nx.
        apply IH in H as (t & T & ->); [|apply (f_equal (@length N)) in Ex; rewrite app_length in Ex; destruct x; [congruence|]; cbn in Ex, L; lia]. exists t. split; [apply Tx; exact T|reflexivity].
      * intros (t & T & ->). exists k. assert (J : In k (match_lengths ER (c :: s))) by (rewrite E; left; reflexivity). split; [exact J|]. apply er_match in J as (x & y & Ex & <- & Nx & Tx). change s with (tl (c :: s)). rewrite Ex, delete_after by exact Nx.
        apply IH; [apply (f_equal (@length N)) in Ex; rewrite app_length in Ex; destruct x; [congruence|]; cbn in Ex, L; lia|]. exists t. split; [apply Tx; exact T|reflexivity].
Qed.
Lemma delete_more r n : forall s outr o, length s <= n -> In o (delete_scan false r outr 0 s) -> In o (delete_scan true r outr 0 s).
Proof.
  induction n as [|n IH]; intros s outr o L H.
  - destruct s; [exact H|cbn in L; lia].
  - destruct s as [|c s]; [exact H|]. cbn in L. cbn [delete_scan andb] in *. destruct (match_lengths r (c :: s)) as [|k ks]; [apply IH; [lia|exact H]|]. rewrite app_nil_r in H. apply in_or_app. left. apply in_flat_map in H as (j & J & H). apply in_flat_map. exists j. split; [exact J|].
    rewrite delete_skip in *. apply IH; [rewrite skipn_length; lia|exact H].
Qed.
Lemma extract_text s : exists t, stripped s t /\ (forall o, In o (EXTRACT_RIGHT_SIDE false s) <-> o = t) /\ In t (EXTRACT_RIGHT_SIDE true s).
Proof.
  destruct (stripped_total s) as (t & T). exists t. split; [exact T|]. assert (K : forall o, In o (EXTRACT_RIGHT_SIDE false s) <-> o = t).
  { intros o. unfold EXTRACT_RIGHT_SIDE, delete_lang. fold ER. rewrite (extract_scan (length s)) by lia. cbn [rev app]. split; [intros (t' & T' & ->); eapply stripped_one; eassumption|intros ->; exists t; split; [exact T|reflexivity]]. }
  split; [exact K|]. apply (delete_more _ (length s)); [lia|]. apply K. reflexivity.
Qed.
Lemma stripped_run o s t : Forall (fun c => c <> 61%N /\ c <> 60%N) o -> stripped s t -> stripped (o ++ s) (o ++ t).
Proof. induction 1 as [|c o [N1 N2] H IH]; intros T; [exact T|]. cbn [app]. constructor; [exact N1|intros y u _ E; congruence|exact (IH T)]. Qed.
Lemma sym_not_marks c : sym_char c -> c <> 61%N /\ c <> 60%N.
Proof. intros H. split; intros ->; revert H; apply not_sym; cbn; tauto. Qed.
Lemma right_no_marks t : symbol t -> right_symbol t = true -> Forall (fun c => c <> 61%N /\ c <> 60%N) (enc t).
Proof.
  intros H R. destruct t as [s|s|s|]; try discriminate R; cbn [enc symbol] in *; (apply Forall_app; split; [constructor; [split; discriminate|constructor]|]; apply Forall_app; split; [eapply Forall_impl; [|exact H]; intros c Hc; apply sym_not_marks; exact Hc|constructor; [split; discriminate|constructor]]).
Qed.
Lemma stripped_encs ts : Forall symbol ts -> stripped (encs ts) (encs (filter right_symbol ts)).
Proof.
  induction 1 as [|t ts Ht H IH]; [constructor|]. rewrite encs_cons. destruct (right_symbol t) eqn:R.
  - cbn [filter]. rewrite R, encs_cons. apply stripped_run; [apply right_no_marks; assumption|exact IH].
  - cbn [filter]. rewrite R. destruct t; try discriminate R; cbn [enc]; [rewrite <- !app_assoc; cbn [app]; constructor; assumption|cbn [app]; constructor; exact IH].
Qed.
Lemma scan_prefix b r n : forall s outr o, length s <= n -> In o (delete_scan b r outr 0 s) -> exists u, o = rev outr ++ u.
Proof.
  induction n as [|n IH]; intros s outr o L H.
  - destruct s; [|cbn in L; lia]. destruct H as [<-|[]]. exists []. rewrite app_nil_r. reflexivity.
  - destruct s as [|c s]; [destruct H as [<-|[]]; exists []; rewrite app_nil_r; reflexivity|]. cbn in L. cbn [delete_scan] in H.
    assert (Copy : In o (delete_scan b r (c :: outr) 0 s) -> exists u, o = rev outr ++ u).
    { intros K. apply IH in K as (u & ->); [|lia]. cbn [rev]. rewrite <- app_assoc. eexists. reflexivity. }
    destruct (match_lengths r (c :: s)) as [|k ks]; [exact (Copy H)|]. apply in_app_or in H as [H|H].
    + apply in_flat_map in H as (j & J & H). rewrite delete_skip in H. apply IH in H as (u & ->); [eexists; reflexivity|rewrite skipn_length; lia].
    + destruct (b && accepts r []); [exact (Copy H)|destruct H].
Qed.
Lemma scan_run b v s : Forall (fun c => c <> 61%N /\ c <> 60%N) v -> forall outr, delete_scan b ER outr 0 (v ++ s) = delete_scan b ER (rev v ++ outr) 0 s.
Proof.
  induction 1 as [|c v [N1 N2] H IH]; intros outr; [reflexivity|]. cbn [app delete_scan]. destruct (match_lengths ER (c :: v ++ s)) as [|k ks] eqn:E.
  - rewrite IH. cbn [rev]. rewrite <- app_assoc. reflexivity.
  - exfalso. assert (J : In k (match_lengths ER (c :: v ++ s))) by (rewrite E; left; reflexivity). apply lengths_iff in J as (x & y & Ex & _ & Nx & M). destruct x as [|d x]; [congruence|]. injection Ex as <- _.
    apply er_iff in M as [M|([|g gs] & G1 & _ & M)]; [congruence|discriminate M|]. rewrite encs_cons in M. destruct g; try discriminate G1. cbn in M. congruence.
Qed.
Lemma scan_clean b n : forall ts outr o, length ts <= n -> Forall symbol ts -> In o (delete_scan b ER outr 0 (encs ts)) -> Forall (fun c => c <> 61%N /\ c <> 60%N) o -> o = rev outr ++ encs (filter right_symbol ts).
Proof.
  induction n as [|n IH]; intros ts outr o L Hs H C.
  - destruct ts; [|cbn in L; lia]. destruct H as [<-|[]]. cbn. rewrite app_nil_r. reflexivity.
  - destruct ts as [|t ts]; [destruct H as [<-|[]]; cbn; rewrite app_nil_r; reflexivity|]. cbn in L. inversion Hs as [|x y Ht Hs']; subst. destruct (right_symbol t) eqn:R.
    + rewrite encs_cons, scan_run in H by (apply right_no_marks; assumption). apply IH in H; [|lia|exact Hs'|exact C]. rewrite H, rev_app_distr, rev_involutive, <- app_assoc. cbn [filter]. rewrite R, encs_cons. reflexivity.
    + assert (Hd : exists c s', encs (t :: ts) = c :: s' /\ (c = 61%N \/ c = 60%N)) by (rewrite encs_cons; destruct t; try discriminate R; cbn [enc app]; eexists; eexists; (split; [reflexivity|tauto])).
      destruct Hd as (c & s' & Es & Ec). rewrite Es in H. cbn [delete_scan] in H. rewrite <- Es in H.
      assert (NC : In o (delete_scan b ER (c :: outr) 0 s') -> False).
      { intros K. apply (scan_prefix b ER (length s')) in K as (u & ->); [|lia]. cbn [rev] in C. apply Forall_app in C as [C _]. apply Forall_app in C as [_ C]. inversion C; subst. destruct Ec; intuition. }
      destruct (match_lengths ER (encs (t :: ts))) as [|k ks] eqn:E; [destruct (NC H)|]. apply in_app_or in H as [H|H]; [|destruct (b && accepts ER []); [destruct (NC H)|destruct H]]. rewrite <- E in H. apply in_flat_map in H as (j & J & H).
      apply lengths_iff in J as (x & y & Ex & <- & Nx & M). replace s' with (tl (encs (t :: ts))) in H by (rewrite Es; reflexivity). rewrite Ex, delete_after in H by exact Nx.
      assert (Q : exists g u, t :: ts = g ++ u /\ y = encs u /\ g <> [] /\ filter right_symbol g = []).
      { apply er_iff in M as [->|(g & G1 & G2 & ->)].
        - change [61%N] with (encs [Eq]) in Ex. symmetry in Ex. apply encs_prefix in Ex as (u & Eu & Ey); [|repeat constructor|exact Hs]. exists [Eq], u. repeat split; [exact Eu|exact Ey|discriminate].
        - symmetry in Ex. apply encs_prefix in Ex as (u & Eu & Ey); [|exact G2|exact Hs]. exists g, u. repeat split; [exact Eu|exact Ey|intros ->; apply Nx; reflexivity|]. apply filter_none. apply forallb_forall. intros a Ha. apply (proj1 (forallb_forall _ _) G1) in Ha. destruct a; try discriminate Ha. reflexivity. }
      destruct Q as (g & u & Eu & -> & Ng & Fg). rewrite Eu, filter_app, Fg. cbn [app]. apply (IH u); [|rewrite Eu in Hs; apply Forall_app in Hs; tauto|exact H|exact C].
      apply (f_equal (@length tok)) in Eu. rewrite app_length in Eu. destruct g; [congruence|]. cbn in Eu. lia.
Qed.
Lemma extract_symbols b ts : Forall symbol ts -> In (encs (filter right_symbol ts)) (EXTRACT_RIGHT_SIDE b (encs ts)) /\
  (forall o, In o (EXTRACT_RIGHT_SIDE b (encs ts)) -> o = encs (filter right_symbol ts) \/ (b = true /\ exists c, In c [61; 60]%N /\ In c o)).
Proof.
  intros Hs. destruct (extract_text (encs ts)) as (t & T & Hf & Ht). rewrite (stripped_one _ _ T _ (stripped_encs ts Hs)) in *. split; [destruct b; [exact Ht|apply Hf; reflexivity]|].
  intros o H. destruct b; [|left; apply Hf; exact H]. destruct (in_dec N.eq_dec 61%N o) as [J|J]; [right; split; [reflexivity|]; exists 61%N; cbn; tauto|]. destruct (in_dec N.eq_dec 60%N o) as [K|K]; [right; split; [reflexivity|]; exists 60%N; cbn; tauto|]. left.
  apply (scan_clean true (length ts) ts [] o); [lia|exact Hs|exact H|]. apply Forall_forall. intros c Hc. split; intros ->; contradiction.
Qed.

(** ** Printing *)
Lemma rel_pairs_units l i o w : rel (WStar (WPairs l)) i o w <-> w = 0%N /\ exists ps, (forall p, In p ps -> In p l) /\ i = flat_map fst ps /\ o = flat_map snd ps.
Proof.
  split.
  - intros H. remember (WStar (WPairs l)) as r eqn:E. revert E. induction H; intros E; try discriminate E.
    + split; [reflexivity|]. exists []. repeat split. intros p [].
    + injection E as ->. destruct IHrel2 as (-> & ps & P & -> & ->); [reflexivity|]. inversion H; subst. split; [reflexivity|]. exists ((i, o) :: ps). repeat split. intros p [<-|Hp]; [assumption|apply P; exact Hp].
  - intros (-> & ps & P & -> & ->). induction ps as [|p ps IH]; [constructor|]. cbn [flat_map]. change 0%N with (0 + 0)%N. apply R_more; [destruct p; constructor; apply P; left; reflexivity|]. apply IH. intros q Hq. apply P. right. exact Hq.
Qed.
Lemma pairs_star_ok l : Forall (fun p : str * str => fst p <> []) l -> star_ok (WStar (WPairs l)) = true.
Proof.
  intros H. cbn. rewrite andb_true_r || idtac. induction H as [|[i o] l N H IH]; [reflexivity|]. cbn in *. destruct i; [congruence|]. exact IH.
Qed.
Lemma outs_pairs l s o : Forall (fun p : str * str => fst p <> []) l -> (In o (map fst (outs (WStar (WPairs l)) s)) <-> exists ps, (forall p, In p ps -> In p l) /\ s = flat_map fst ps /\ o = flat_map snd ps).
Proof.
  intros H. rewrite in_map_iff. split.
  - intros ([o' w] & E & K). cbn in E. subst o'. apply outs_rel in K; [|apply pairs_star_ok; exact H]. apply rel_pairs_units in K as (_ & K). exact K.
  - intros K. exists (o, 0%N). split; [reflexivity|]. apply outs_rel; [apply pairs_star_ok; exact H|]. apply rel_pairs_units. split; [reflexivity|exact K].
Qed.
(** Pairs of one right side symbol and its text *)
Lemma print_pairs b (tab : list (tok * str)) ts o : Forall (fun p : tok * str => symbol (fst p) /\ right_symbol (fst p) = true) tab -> Forall symbol ts ->
  (In o (print_only b (WStar (WPairs (map (fun p : tok * str => (enc (fst p), snd p)) tab))) (encs ts)) <->
   exists ps, (forall p, In p ps -> In p tab) /\ filter right_symbol ts = map fst ps /\ o = flat_map snd ps).
Proof.
  intros Ht Hs. assert (NE : Forall (fun p : str * str => fst p <> []) (map (fun p : tok * str => (enc (fst p), snd p)) tab)).
  { apply Forall_forall. intros p Hp. apply in_map_iff in Hp as (q & <- & _). cbn. destruct (enc_open (fst q)) as (v & ->). discriminate. }
  assert (Enc : forall ps : list (tok * str), flat_map fst (map (fun p : tok * str => (enc (fst p), snd p)) ps) = encs (map fst ps)) by (induction ps as [|p ps IH]; [reflexivity|]; cbn [map flat_map fst]; rewrite IH, encs_cons; reflexivity).
  assert (Snd : forall ps : list (tok * str), flat_map snd (map (fun p : tok * str => (enc (fst p), snd p)) ps) = flat_map snd ps) by (induction ps as [|p ps IH]; [reflexivity|]; cbn [map flat_map snd]; rewrite IH; reflexivity).
  assert (Sy : forall ps : list (tok * str), (forall p, In p ps -> In p tab) -> Forall symbol (map fst ps) /\ Forall (fun c => c <> 61%N /\ c <> 60%N) (encs (map fst ps))).
  { induction ps as [|p ps IH]; intros P; [split; constructor|]. destruct IH as [I1 I2]; [intros q Hq; apply P; right; exact Hq|]. assert (Hp : In p tab) by (apply P; left; reflexivity). apply (proj1 (Forall_forall _ _) Ht) in Hp as [Hp1 Hp2]. cbn [map]. split; [constructor; assumption|].
    rewrite encs_cons. apply Forall_app. split; [apply right_no_marks; assumption|exact I2]. }
  unfold print_only. rewrite in_flat_map. destruct (extract_symbols b ts Hs) as [X1 X2]. split.
  - intros (t & T & H). apply outs_pairs in H as (qs & Q & -> & ->); [|exact NE]. assert (E : exists ps, (forall p, In p ps -> In p tab) /\ qs = map (fun p : tok * str => (enc (fst p), snd p)) ps).
    { clear -Q. induction qs as [|q qs IH]; [exists []; split; [intros p []|reflexivity]|]. destruct IH as (ps & P & ->); [intros p Hp; apply Q; right; exact Hp|]. assert (A : In q (map (fun p : tok * str => (enc (fst p), snd p)) tab)) by (apply Q; left; reflexivity). apply in_map_iff in A as (p & <- & A). exists (p :: ps). split; [intros p' [<-|Hp]; [exact A|apply P; exact Hp]|reflexivity]. }
    destruct E as (ps & P & ->). exists ps. split; [exact P|]. rewrite Snd. split; [|reflexivity]. rewrite Enc in T. destruct (Sy ps P) as [S1 S2]. apply X2 in T as [T|(_ & c & C1 & C2)].
    + apply encs_inj in T; [symmetry; exact T|exact S1|]. clear -Hs. induction Hs as [|t ts Ht H IH]; [constructor|]. cbn [filter]. destruct (right_symbol t); [constructor|]; assumption.
    + exfalso. apply (proj1 (Forall_forall _ _) S2) in C2 as [C2 C3]. cbn in C1. intuition congruence.
  - intros (ps & P & E & ->). exists (encs (filter right_symbol ts)). split; [exact X1|]. apply outs_pairs; [exact NE|]. exists (map (fun p : tok * str => (enc (fst p), snd p)) ps). rewrite Enc, Snd, E. repeat split. intros p Hp. apply in_map_iff in Hp as (q & <- & Hq). apply in_map_iff. exists q. split; [reflexivity|apply P; exact Hq].
Qed.
Lemma print_glyphs b l cs ts o : char_table l -> Forall symbol ts -> (forall c, In c cs -> In c l) -> filter right_symbol ts = map (fun c => Tr (typ c)) cs -> (In o (print_only_glyph b l (encs ts)) <-> o = flat_map glyph cs).
Proof.
  intros [N T] Hs Hc E. unfold print_only_glyph, print_glyph. replace (map (fun c => (tr c, glyph c)) l) with (map (fun p : tok * str => (enc (fst p), snd p)) (map (fun c => (Tr (typ c), glyph c)) l)) by (rewrite map_map; reflexivity).
  rewrite (print_pairs b (map (fun c => (Tr (typ c), glyph c)) l) ts o); [|apply Forall_forall; intros p Hp; apply in_map_iff in Hp as (c & <- & Hp); apply (proj1 (Forall_forall _ _) T) in Hp as [_ Hp]; split; [exact Hp|reflexivity]|exact Hs]. rewrite E. split.
  - intros (ps & P & E2 & ->). clear E. revert ps P E2. induction cs as [|c cs IH]; intros [|p ps] P E2; try discriminate E2; [reflexivity|]. cbn [map] in E2. injection E2 as E1 E2. cbn [flat_map]. f_equal.
    + assert (A : In p (map (fun c => (Tr (typ c), glyph c)) l)) by (apply P; left; reflexivity). apply in_map_iff in A as (d & <- & A). cbn in *. injection E1 as E1. f_equal. assert (B : In c l) by (apply Hc; left; reflexivity). clear -N A B E1. induction l as [|x l IH]; [destruct A|]. cbn in N. inversion N; subst. destruct A as [->|A], B as [->|B]; [reflexivity| | |apply IH; assumption]; exfalso; match goal with K : ~ _ |- _ => apply K end; [rewrite <- E1|rewrite E1]; apply in_map; assumption.
    + apply IH; [intros d Hd; apply Hc; right; exact Hd|intros q Hq; apply P; right; exact Hq|exact E2].
  - intros ->. exists (map (fun c => (Tr (typ c), glyph c)) cs). split; [intros p Hp; apply in_map_iff in Hp as (c & <- & Hp); apply in_map_iff; exists c; split; [reflexivity|apply Hc; exact Hp]|]. rewrite map_map. split; [reflexivity|]. clear. induction cs as [|c cs IH]; [reflexivity|]. cbn. rewrite IH. reflexivity.
Qed.
Lemma reads l s o : Forall (fun c => glyph c <> []) l -> (In o (map fst (outs (read_glyph l) s)) <-> exists cs, (forall c, In c cs -> In c l) /\ s = flat_map glyph cs /\ o = encs (map (fun c => Gr (typ c)) cs)).
Proof.
  intros H. unfold read_glyph. rewrite outs_pairs by (apply Forall_forall; intros p Hp; apply in_map_iff in Hp as (c & <- & Hp); apply (proj1 (Forall_forall _ _) H) in Hp; exact Hp). split.
  - intros (ps & P & -> & ->). induction ps as [|p ps IH]; [exists []; repeat split; intros c []|]. destruct IH as (ds & D & E1 & E2); [intros q Hq; apply P; right; exact Hq|]. assert (A : In p (map (fun c => (glyph c, gr c)) l)) by (apply P; left; reflexivity). apply in_map_iff in A as (c & <- & A).
    exists (c :: ds). split; [intros d [<-|Hd]; [exact A|apply D; exact Hd]|]. cbn [flat_map map fst snd]. rewrite E1, E2. split; reflexivity.
  - intros (ds & D & -> & ->). exists (map (fun c => (glyph c, gr c)) ds). split; [intros p Hp; apply in_map_iff in Hp as (c & <- & Hp); apply in_map_iff; exists c; split; [reflexivity|apply D; exact Hp]|]. clear. split; (induction ds as [|c ds IH]; [reflexivity|]; cbn; rewrite ?IH; try reflexivity). unfold encs. cbn [flat_map map]. unfold encs in IH. rewrite IH. reflexivity.
Qed.
(** Reading, assigning transliterations and printing gives back the text *)
Lemma round_trip b l s o : char_table l -> Forall (fun c => glyph c <> []) l ->
  (exists u v, In u (map fst (outs (read_glyph l) s)) /\ In v (rewrite_ls (map (fun c => assign (gr c) (tr c)) l) None None u) /\ In o (print_only_glyph b l v)) <->
  o = s /\ exists cs, (forall c, In c cs -> In c l) /\ s = flat_map glyph cs.
Proof.
  intros Hl Hg. assert (Ht : table (spelled l)).
  { destruct Hl as [N T]. split; [unfold spelled; rewrite map_map; exact N|]. apply Forall_forall. intros p Hp. apply in_map_iff in Hp as (c & <- & Hp). apply (proj1 (Forall_forall _ _) T) in Hp as [T1 T2]. cbn. repeat split; try assumption. constructor; [exact T2|constructor]. }
  assert (Er : map (fun c => assign (gr c) (tr c)) l = map rule_of (assigns (spelled l))).
  { unfold assigns, spelled. rewrite !map_map. apply map_ext. intros c. unfold assign, rule_of, align, gr, tr. cbn [fst snd encs flat_map app enc]. unfold enclose_grapheme, enclose_translit, enclose. rewrite !app_nil_r. cbn [app]. rewrite <- !app_assoc. reflexivity. }
  assert (Step : forall cs, (forall c, In c cs -> In c l) -> forall v, In v (rewrite_ls (map (fun c => assign (gr c) (tr c)) l) None None (encs (map (fun c => Gr (typ c)) cs))) <-> v = encs (flat_map (fun c => [Gr (typ c); Eq; Tr (typ c)]) cs)).
  { intros cs Hc v. rewrite Er. replace (map (fun c => Gr (typ c)) cs) with (map (fun p : str * list tok => Gr (fst p)) (spelled cs)) by (unfold spelled; rewrite map_map; reflexivity). rewrite (assign_all (spelled l) (spelled cs) Ht).
    - replace (flat_map (fun p : str * list tok => [Gr (fst p); Eq] ++ snd p) (spelled cs)) with (flat_map (fun c => [Gr (typ c); Eq; Tr (typ c)]) cs); [reflexivity|]. unfold spelled. clear. induction cs as [|c cs IH]; [reflexivity|]. cbn. rewrite IH. reflexivity.
    - intros p Hp. apply in_map_iff in Hp as (c & <- & Hp). apply in_map_iff. exists c. split; [reflexivity|apply Hc; exact Hp]. }
  assert (Prt : forall cs, (forall c, In c cs -> In c l) -> forall w, In w (print_only_glyph b l (encs (flat_map (fun c => [Gr (typ c); Eq; Tr (typ c)]) cs))) <-> w = flat_map glyph cs).
  { intros cs Hc w. apply print_glyphs; [exact Hl| |exact Hc|].
    - destruct Hl as [_ T]. apply Forall_forall. intros t Hq. apply in_flat_map in Hq as (c & Hcc & Hq). apply Hc in Hcc. apply (proj1 (Forall_forall _ _) T) in Hcc as [_ T2]. destruct Hq as [<-|[<-|[<-|[]]]]; [exact T2|exact I|exact T2].
    - clear. induction cs as [|c cs IH]; [reflexivity|]. cbn. rewrite IH. reflexivity. }
  split.
  - intros (u & v & U & V & O). apply reads in U as (cs & Hc & -> & ->); [|exact Hg]. apply (Step cs Hc) in V as ->. apply (Prt cs Hc) in O as ->. split; [reflexivity|]. exists cs. split; [exact Hc|reflexivity].
  - intros (-> & cs & Hc & ->). exists (encs (map (fun c => Gr (typ c)) cs)), (encs (flat_map (fun c => [Gr (typ c); Eq; Tr (typ c)]) cs)). split; [apply reads; [exact Hg|exists cs; repeat split; exact Hc]|]. split; [apply Step; [exact Hc|reflexivity]|apply Prt; [exact Hc|reflexivity]].
Qed.

(** ** Concatenation across alignments *)
Lemma cat_strs a r b x : matches (Cat (Strs [a]) (Cat r (Strs [b]))) x <-> exists y, matches r y /\ x = a ++ y ++ b.
Proof.
  split.
  - intros H. inversion H; subst. match goal with K : matches (Cat r _) _ |- _ => inversion K; subst end. repeat match goal with K : matches (Strs _) _ |- _ => inversion K; subst; clear K end.
    repeat match goal with K : In _ [_] |- _ => destruct K as [<-|[]] end. eexists. split; [eassumption|reflexivity].
  - intros (y & H & ->). apply m_cat; [constructor; left; reflexivity|]. apply m_cat; [exact H|constructor; left; reflexivity].
Qed.
Lemma concat_r_iff a b ts : Forall symbol a -> Forall symbol b -> Forall symbol ts ->
  (accepts (concat_r (encs a) (encs b)) (encs ts) = true <-> exists x, (x = [] \/ exists g, x = g ++ [Eq] /\ forallb grapheme g = true) /\ ts = a ++ x ++ b).
Proof.
  intros Ha Hb Hs. rewrite accepts_spec. unfold concat_r. rewrite cat_strs. split.
  - intros (y & M & E). apply (proj1 (ques_ques (Cat GRAPHEMES ALIGN_SIGN) _)) in M. apply left_side_iff in M as (x & X & Hx & ->). exists x. split; [exact X|]. apply encs_inj; [exact Hs|apply Forall_app; split; [exact Ha|apply Forall_app; split; assumption]|]. rewrite !encs_app. exact E.
  - intros (x & X & ->). apply Forall_app in Hs as [_ Hs]. apply Forall_app in Hs as [Hs _]. exists (encs x). rewrite !encs_app. split; [|reflexivity]. apply m_ques_some, left_side_iff. exists x. repeat split; assumption.
Qed.
Lemma concat_l_iff a b ts : Forall symbol a -> Forall symbol b -> Forall symbol ts ->
  (accepts (concat_l (encs a) (encs b)) (encs ts) = true <-> exists x, (x = [] \/ exists r, x = Eq :: r /\ forallb right_symbol r = true) /\ ts = a ++ x ++ b).
Proof.
  intros Ha Hb Hs. rewrite accepts_spec. unfold concat_l. rewrite cat_strs. split.
  - intros (y & M & E). apply right_side_iff in M as (x & X & Hx & ->). exists x. split; [exact X|]. apply encs_inj; [exact Hs|apply Forall_app; split; [exact Ha|apply Forall_app; split; assumption]|]. rewrite !encs_app. exact E.
  - intros (x & X & ->). apply Forall_app in Hs as [_ Hs]. apply Forall_app in Hs as [Hs _]. exists (encs x). rewrite !encs_app. split; [|reflexivity]. apply right_side_iff. exists x. repeat split; assumption.
Qed.
Lemma extract_idem ts t : Forall symbol ts -> In t (EXTRACT_RIGHT_SIDE false (encs ts)) -> forall o, In o (EXTRACT_RIGHT_SIDE false t) <-> o = t.
Proof.
  intros Hs H. destruct (extract_symbols false ts Hs) as [_ X]. apply X in H as [->|[H _]]; [|discriminate H]. assert (Hf : Forall symbol (filter right_symbol ts)) by (clear -Hs; induction Hs as [|t ts Ht H IH]; [constructor|]; cbn [filter]; destruct (right_symbol t); [constructor|]; assumption).
  destruct (extract_text (encs (filter right_symbol ts))) as (t & T & K & _). rewrite (stripped_one _ _ T _ (stripped_encs _ Hf)) in K. replace (filter right_symbol (filter right_symbol ts)) with (filter right_symbol ts) in K; [exact K|].
  clear. induction ts as [|t ts IH]; [reflexivity|]. cbn [filter]. destruct (right_symbol t) eqn:R; [cbn [filter]; rewrite R, <- IH; reflexivity|exact IH].
Qed.

Lemma unnamed : exists rs ts o, Forall (fun p : list tok * list tok => Forall symbol (fst p) /\ Forall symbol (snd p) /\ fst p <> []) rs /\ Forall symbol ts /\
  In o (rewrite_op (map rule_of rs) None None (encs ts)) /\ forall out, Forall symbol out -> o <> encs out.
Proof.
  exists [([Tr []], [Eq])], [Tr [97%N]; Tr [98%N]], [96; 97; 61; 98; 96]%N. assert (Sa : Forall sym_char [97%N] /\ Forall sym_char [98%N]) by (unfold sym_char; split; constructor; try lia; constructor). split; [|split; [|split]].
  - constructor; [|constructor]. cbn. split; [repeat constructor|]. split; [repeat constructor|discriminate].
  - constructor; [apply Sa|]. constructor; [apply Sa|constructor].
  - vm_compute. left. reflexivity.
  - intros out Ho E. destruct out as [|t out]; [discriminate E|]. rewrite encs_cons in E. inversion Ho as [|a b Ht Ho']; subst. destruct t as [s|s|s|]; cbn [enc app] in E; try discriminate E. injection E as E. rewrite <- app_assoc in E. cbn [app] in E.
    change [97; 61; 98; 96]%N with ([97] ++ 61 :: [98; 96])%N in E. apply run_prefix in E as (_ & E & _); [discriminate E|apply Sa|exact Ht|notsym|notsym].
Qed.
Lemma extract_again : exists s t u, EXTRACT_RIGHT_SIDE false s = [t] /\ EXTRACT_RIGHT_SIDE false t = [u] /\ t <> u.
Proof. exists [60; 97; 60; 98; 62; 99; 62]%N, [60; 97; 99; 62]%N, []. split; [vm_compute; reflexivity|]. split; [vm_compute; reflexivity|discriminate]. Qed.
Lemma repeated_left : exists l s o, remove_repeated_glyph l s = [o] /\ exists c a b, In c l /\ glyph c <> [] /\ o = a ++ glyph c ++ glyph c ++ b.
Proof. exists [Char [97%N] [97%N]], [97; 97; 97]%N, [97; 97]%N. split; [vm_compute; reflexivity|]. exists (Char [97%N] [97%N]), [], []. split; [left; reflexivity|]. split; [discriminate|reflexivity]. Qed.
