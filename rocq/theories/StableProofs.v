(** Which visual normalizers are stable. *)
From Verif Require Import Base RuleModel RuleSpec RuleProofs RewriteProofs IdemProofs CleanCheck
  VisualModel VisualSpec VisualProofs ScriptData ScriptTables ScriptModel ScriptChecks
  RegexModel RegexProofs WellformedModel MarkTables StableSpec.

(** ** Mark de-duplication brings no new neighbours *)

Definition short (p : str) : bool := (length p <=? 2)%nat.

Lemma pair_infix a b s : is_infix [a; b] s <-> exists x y, s = x ++ a :: b :: y.
Proof. split; intros (x & y & E); exists x, y; exact E. Qed.

Lemma shrink_head l r c s :
  expand (shrink l r) = c :: s -> exists s', expand r = c :: s'.
Proof.
  destruct r as [|[d n] r]; simpl; [discriminate|].
  destruct (memN d l); intro H; injection H as -> _; eauto.
Qed.

Lemma shrink_run l d n r :
  exists m, (m = 0 \/ m = n)%nat /\
    expand (shrink l ((d, n) :: r)) = d :: repeat d m ++ expand (shrink l r).
Proof.
  unfold shrink. cbn [map fst]. destruct (memN d l).
  - exists 0%nat. split; [now left|]. reflexivity.
  - exists n. split; [now right|]. reflexivity.
Qed.

Lemma shrink_members l r c : In c (expand (shrink l r)) -> In c (expand r).
Proof.
  induction r as [|[d n] r IH]; [auto|].
  destruct (shrink_run l d n r) as (m & Hm & ->). rewrite expand_cons.
  intros [H|H]; [now left|]. right. apply in_app_iff in H. apply in_app_iff.
  destruct H as [H|H]; [|auto]. left. destruct Hm as [ -> | -> ]; [destruct H|exact H].
Qed.

(** A pair in a run followed by other text. *)
Lemma pair_in_run d m s a b :
  is_infix [a; b] (d :: repeat d m ++ s) ->
  (a = d /\ b = d /\ (0 < m)%nat) \/ (a = d /\ exists s', s = b :: s') \/ is_infix [a; b] s.
Proof.
  induction m as [|m IH]; intro H; apply pair_infix in H as ([|x xs] & y & E).
  - simpl in E. injection E as E1 E2. right. left. split; [now symmetry|]. exists y. exact E2.
  - simpl in E. injection E as E1 E2. right. right. exists xs, y. exact E2.
  - cbn [repeat app] in E. injection E as E1 E2 E3. subst. left. split; [reflexivity|].
    split; [reflexivity|lia].
  - cbn [repeat app] in E. injection E as E1 E2.
    assert (K : is_infix [a; b] (d :: repeat d m ++ s)) by (exists xs, y; exact E2).
    destruct (IH K) as [(H1 & H2 & H3)|H1]; [|auto]. left. split; [assumption|].
    split; [assumption|lia].
Qed.

Lemma run_pair d n s : (0 < n)%nat -> is_infix [d; d] (d :: repeat d n ++ s).
Proof. destruct n as [|n]; [lia|]. intros _. exists [], (repeat d n ++ s). reflexivity. Qed.

Lemma run_boundary d n b s : is_infix [d; b] (d :: repeat d n ++ b :: s).
Proof.
  exists (repeat d n), s. induction n as [|n IH]; [reflexivity|].
  simpl. f_equal. exact IH.
Qed.

Lemma infix_behind (p x s : str) : is_infix p s -> is_infix p (x ++ s).
Proof. intros (a & b & ->). exists (x ++ a), b. now rewrite <- app_assoc. Qed.

Lemma shrink_pairs l r a b :
  is_infix [a; b] (expand (shrink l r)) -> is_infix [a; b] (expand r).
Proof.
  induction r as [|[d n] r IH]; [auto|].
  destruct (shrink_run l d n r) as (m & Hm & ->). rewrite expand_cons. intro H.
  apply pair_in_run in H. destruct H as [(-> & -> & H)|[(-> & s' & H)|H]].
  - destruct Hm as [ -> | -> ]; [lia|]. now apply run_pair.
  - apply shrink_head in H as (s'' & ->). apply run_boundary.
  - apply IH in H. change (d :: repeat d n ++ expand r) with ((d :: repeat d n) ++ expand r).
    now apply infix_behind.
Qed.

Lemma shrink_short l r p :
  short p = true -> is_infix p (expand (shrink l r)) -> is_infix p (expand r).
Proof.
  unfold short. rewrite Nat.leb_le. destruct p as [|a [|b [|c p]]]; simpl; intros Hl H; try lia.
  - exists [], (expand r). reflexivity.
  - destruct H as (x & y & E).
    assert (K : In a (expand (shrink l r))) by (rewrite E; apply in_app_iff; right; now left).
    apply shrink_members in K. apply in_split in K as (x' & y' & ->). exists x', y'. reflexivity.
  - now apply shrink_pairs in H.
Qed.

(** ** Neighbours in well-formed text *)

Fixpoint starts_with (r : re) (c : N) : bool :=
  match r with
  | Strs l => existsb (fun s => match s with d :: _ => N.eqb d c | [] => false end) l
  | Cat a b => if starts_with a c then true else if nullable a then starts_with b c else false
  | Alt a b => if starts_with a c then true else starts_with b c
  | Ques a | Star a => starts_with a c
  end.

Fixpoint last_is (s : str) (c : N) : bool :=
  match s with [] => false | [d] => N.eqb d c | _ :: s' => last_is s' c end.

Fixpoint stops_with (r : re) (c : N) : bool :=
  match r with
  | Strs l => existsb (fun s => last_is s c) l
  | Cat a b => if stops_with b c then true else if nullable b then stops_with a c else false
  | Alt a b => if stops_with a c then true else stops_with b c
  | Ques a | Star a => stops_with a c
  end.

Fixpoint neighbours (r : re) (x y : N) : bool :=
  match r with
  | Strs l => existsb (infixb [x; y]) l
  | Cat a b => if neighbours a x y then true else if neighbours b x y then true
               else if stops_with a x then starts_with b y else false
  | Alt a b => if neighbours a x y then true else neighbours b x y
  | Ques a => neighbours a x y
  | Star a => if neighbours a x y then true
              else if stops_with a x then starts_with a y else false
  end.

Fixpoint mentions (r : re) (c : N) : bool :=
  match r with
  | Strs l => existsb (memN c) l
  | Cat a b | Alt a b => if mentions a c then true else mentions b c
  | Ques a | Star a => mentions a c
  end.

Lemma if_true (a b : bool) : (if a then true else b) = true <-> a = true \/ b = true.
Proof. destruct a; intuition discriminate. Qed.
Lemma if_false (a b : bool) : (if a then b else false) = true <-> a = true /\ b = true.
Proof. destruct a; intuition discriminate. Qed.

Lemma matches_nil_nullable r : matches r [] -> nullable r = true.
Proof. intro H. change (accepts r [] = true). now apply accepts_spec. Qed.

Lemma starts_sound r w : matches r w -> forall c s, w = c :: s -> starts_with r c = true.
Proof.
  induction 1 as [l s H|a b s t H1 IH1 H2 IH2|a b s H IH|a b s H IH|a|a s H IH|a|a s t H1 IH1 H2 IH2];
    intros c u E; simpl.
  - apply existsb_exists. exists s. split; [assumption|]. subst s. apply N.eqb_refl.
  - rewrite if_true, if_false. destruct s as [|d s].
    + right. split; [now apply matches_nil_nullable|]. eapply IH2; exact E.
    + left. injection E as -> E. eapply IH1; reflexivity.
  - rewrite if_true. left. eapply IH; eassumption.
  - rewrite if_true. right. eapply IH; eassumption.
  - discriminate.
  - eapply IH; eassumption.
  - discriminate.
  - destruct s as [|d s]; [exact (IH2 _ _ E)|]. injection E as -> E. eapply IH1; reflexivity.
Qed.

Lemma last_is_app s c : last_is (s ++ [c]) c = true.
Proof.
  induction s as [|d s IH]; simpl; [apply N.eqb_refl|].
  destruct (s ++ [c]) eqn:E; [destruct s; discriminate|]. exact IH.
Qed.

Lemma app_last (x y : str) u c : x ++ y = u ++ [c] ->
  (y = [] /\ x = u ++ [c]) \/ exists y', y = y' ++ [c].
Proof.
  destruct y as [|d y] using rev_ind; intro E.
  - left. rewrite app_nil_r in E. auto.
  - right. rewrite app_assoc in E. apply app_inj_tail in E as [_ <-]. eauto.
Qed.

Lemma stops_sound r w : matches r w -> forall c s, w = s ++ [c] -> stops_with r c = true.
Proof.
  induction 1 as [l s H|a b s t H1 IH1 H2 IH2|a b s H IH|a b s H IH|a|a s H IH|a|a s t H1 IH1 H2 IH2];
    intros c u E; simpl.
  - apply existsb_exists. exists s. split; [assumption|]. subst s. apply last_is_app.
  - rewrite if_true, if_false. apply app_last in E as [[-> E]|(t' & E)].
    + right. split; [now apply matches_nil_nullable|]. eapply IH1; exact E.
    + left. eapply IH2; exact E.
  - rewrite if_true. left. eapply IH; eassumption.
  - rewrite if_true. right. eapply IH; eassumption.
  - destruct u; discriminate.
  - eapply IH; eassumption.
  - destruct u; discriminate.
  - apply app_last in E as [[-> E]|(t' & E)]; [eapply IH1; exact E|eapply IH2; exact E].
Qed.

Lemma pair_app (s t : str) x y : is_infix [x; y] (s ++ t) ->
  is_infix [x; y] s \/ is_infix [x; y] t \/
  exists s' t', s = s' ++ [x] /\ t = y :: t'.
Proof.
  induction s as [|d s IH]; simpl; intro H; [auto|].
  apply pair_infix in H as ([|e xs] & ys & E); simpl in E; injection E as -> E.
  - destruct s as [|d s].
    + right. right. exists [], ys. simpl in *. auto.
    + simpl in E. injection E as -> E. left. exists [], s. reflexivity.
  - destruct IH as [H|[H|(s' & t' & H1 & H2)]].
    + apply pair_infix. eauto.
    + left. exact (infix_behind [x; y] [e] s H).
    + right. left. exact H.
    + right. right. exists (e :: s'), t'. rewrite H1, H2. auto.
Qed.

Lemma nil_no_pair (x y : N) : ~ is_infix [x; y] [].
Proof. intros (a & b & E). destruct a; discriminate. Qed.

Lemma neighbours_sound r w x y :
  matches r w -> is_infix [x; y] w -> neighbours r x y = true.
Proof.
  induction 1 as [l s H|a b s t H1 IH1 H2 IH2|a b s H IH|a b s H IH|a|a s H IH|a|a s t H1 IH1 H2 IH2];
    intro E; simpl.
  - apply existsb_exists. exists s. split; [assumption|]. now apply infixb_spec.
  - rewrite !if_true, if_false. apply pair_app in E as [E|[E|(s' & t' & -> & ->)]]; auto.
    right. right. split; [eapply stops_sound; eauto|eapply starts_sound; eauto].
  - rewrite if_true. auto.
  - rewrite if_true. auto.
  - now apply nil_no_pair in E.
  - auto.
  - now apply nil_no_pair in E.
  - rewrite if_true, if_false. apply pair_app in E as [E|[E|(s' & t' & -> & ->)]].
    + left. auto.
    + specialize (IH2 E). simpl in IH2. now rewrite if_true, if_false in IH2.
    + right. split; [eapply stops_sound; eauto|].
      exact (starts_sound (Star a) _ H2 _ _ eq_refl).
Qed.

Lemma memN_In c l : memN c l = true <-> In c l.
Proof.
  unfold memN. rewrite existsb_exists. split.
  - intros (x & Hx & E). apply N.eqb_eq in E. now subst.
  - intro H. exists c. split; [assumption|]. apply N.eqb_refl.
Qed.

Lemma mentions_sound r w c : matches r w -> In c w -> mentions r c = true.
Proof.
  induction 1 as [l s H|a b s t H1 IH1 H2 IH2|a b s H IH|a b s H IH|a|a s H IH|a|a s t H1 IH1 H2 IH2];
    intro E; simpl; rewrite ?if_true.
  - apply existsb_exists. exists s. split; [assumption|]. now apply memN_In.
  - apply in_app_iff in E as [E|E]; auto.
  - auto.
  - auto.
  - destruct E.
  - auto.
  - destruct E.
  - apply in_app_iff in E as [E|E]; [auto|]. exact (IH2 E).
Qed.

(** Whether [p] may occur in a word of [r], by its characters and neighbours. *)
Fixpoint may_occur (r : re) (p : str) : bool :=
  match p with
  | [] => true
  | c :: p' =>
      if mentions r c then
        match p' with
        | [] => true
        | d :: _ => if neighbours r c d then may_occur r p' else false
        end
      else false
  end.

Lemma infix_tail (c : N) (p s : str) : is_infix (c :: p) s -> is_infix p s.
Proof.
  intros (x & y & ->). exists (x ++ [c]), y. rewrite <- app_assoc. reflexivity.
Qed.

Lemma may_occur_sound r w p : matches r w -> is_infix p w -> may_occur r p = true.
Proof.
  intro H. induction p as [|c p IH]; intro E; [reflexivity|]. simpl.
  rewrite (mentions_sound r w c H).
  2:{ destruct E as (x & y & ->). apply in_app_iff. right. now left. }
  destruct p as [|d p]; [reflexivity|].
  rewrite (neighbours_sound r w c d H).
  2:{ destruct E as (x & y & ->). exists x, (p ++ y). reflexivity. }
  apply IH. eapply infix_tail; exact E.
Qed.

(** ** The strings that visual normalization leaves nowhere *)

Definition layers_of (rs : list rule) : list (list rule) :=
  match partition_unordered rs with Layers ls => ls | _ => [] end.
Definition joiner_strs : list str := map (fun c => [c]) joiners.
Definition after_nfc (d : script_data) : list str := absent joiner_strs (layers_of (sd_nfc d)).
Definition marks_of (d : script_data) : list N :=
  nodup N.eq_dec (mark_chars (script_chars d) is_mark).
Definition doubles (d : script_data) : list str := map (fun c => [c; c]) (marks_of d).
Definition after_dedup (d : script_data) : list str :=
  filter short (after_nfc d) ++ doubles d.
Definition after_rewrite (d : script_data) : list str :=
  absent (after_dedup d) (layers_of (sd_visual_rewrite d)).
Definition targets (d : script_data) : list str :=
  map lhs (sd_nfc d) ++ map lhs (sd_visual_rewrite d) ++ doubles d.

Definition excluded (F : list str) (p : str) : bool := existsb (fun f => infixb f p) F.

Definition no_empty_rhs (d : script_data) : bool :=
  forallb (fun r => negb (str_eqb (rhs r) [])) (sd_nfc d ++ sd_visual_rewrite d).

Definition settles (d : script_data) : bool :=
  if no_empty_rhs d then
    let F := after_rewrite d in
    if forallb (excluded F) joiner_strs then forallb (excluded F) (targets d) else false
  else false.

Definition settles_well_formed (d : script_data) : bool :=
  if no_empty_rhs d then
    let F := after_rewrite d in
    if forallb (excluded F) joiner_strs
    then forallb (fun p => if excluded F p then true
                           else negb (may_occur (accept_well_formed d) p)) (targets d)
    else false
  else false.

Definition well_formed_settled (d : script_data) : bool :=
  forallb (fun p => if excluded joiner_strs p then true
                    else negb (may_occur (accept_well_formed d) p)) (targets d).

Lemma excluded_sound F p t :
  (forall f, In f F -> ~ is_infix f t) -> excluded F p = true -> ~ is_infix p t.
Proof.
  intros HF H K. apply existsb_exists in H as (f & Hf & Hi). apply infixb_spec in Hi.
  exact (HF f Hf (is_infix_trans _ _ _ Hi K)).
Qed.

Lemma joiner_free_strs t :
  joiner_free t <-> forall f, In f joiner_strs -> ~ is_infix f t.
Proof.
  split.
  - intros H f Hf (x & y & E). apply in_map_iff in Hf as (c & <- & Hc).
    apply (H c); [|assumption]. rewrite E. apply in_app_iff. right. now left.
  - intros H c Hc Hj. apply (H [c]); [apply (in_map (fun x => [x])); exact Hj|].
    apply in_split in Hc as (x & y & ->). exists x, y. reflexivity.
Qed.

Lemma no_empty_rhs_sound d r : no_empty_rhs d = true ->
  In r (sd_nfc d) \/ In r (sd_visual_rewrite d) -> rhs r <> [].
Proof.
  intros H Hr. unfold no_empty_rhs in H. rewrite forallb_forall in H.
  assert (K : In r (sd_nfc d ++ sd_visual_rewrite d)) by (apply in_app_iff; exact Hr).
  apply H in K. apply negb_true_iff, str_eqb_neq in K. exact K.
Qed.

(** One set of rules as the passes of its layers. *)
Lemma rules_passes ns rs sigma : rules_ok rs sigma = true ->
  exists f, fst_from_rules ns rs sigma = Some f /\
    (forall s, over sigma s = true ->
       exists t, f s = [t] /\ over sigma t = true /\ passes (layers_of rs) s t) /\
    (forall s, over sigma s = true -> (forall r, In r rs -> ~ is_infix (lhs r) s) -> f s = [s]) /\
    (forall l r, In l (layers_of rs) -> In r l -> In r rs).
Proof.
  intros H. apply andb_true_iff in H as [H H3]. apply andb_true_iff in H as [H1 H2].
  rewrite forallb_forall in H1, H2.
  assert (Hne : nonempty_lhs rs).
  { intros r Hr. apply H1 in Hr. apply negb_true_iff, str_eqb_neq in Hr. exact Hr. }
  pose proof (fst_from_rules_spec ns rs sigma Hne H2) as HS.
  pose proof (no_lhs_identity ns rs sigma) as HI.
  pose proof (partition_sound rs) as HP. unfold layers_of.
  destruct (partition_unordered rs) as [ls| |]; try discriminate.
  destruct HS as (f & Hf & Hs & _). exists f. split; [exact Hf|]. split; [|split].
  - intros s Ho. destruct (Hs s Ho) as (t & E & Ho' & Hp & _). eauto.
  - exact (HI f Hne H2 Hf).
  - destruct (HP ls eq_refl) as (_ & Hiff & _). intros l r Hl Hr.
    apply Hiff, in_concat. eauto.
Qed.

Section Script.
  Variables (ns : fst_t -> nat) (d : script_data).
  Hypothesis Hnfc : rules_ok (sd_nfc d) (script_sigma d) = true.
  Hypothesis Hvis : rules_ok (sd_visual_rewrite d) (script_sigma d) = true.
  Hypothesis Hgood : good_preserve (sd_preserve d) (script_sigma d).
  Hypothesis Hfree : prefix_free (spans (sd_preserve d)).
  Hypothesis Hjoin : forall it, In it (sd_preserve d) -> exists j, In j joiners /\ In j (pseq it).

  Lemma mark_list : mark_chars (script_chars d) is_mark <> [].
  Proof. discriminate. Qed.

  Lemma marks_of_spec c : In c (marks_of d) <-> In c (mark_chars (script_chars d) is_mark).
  Proof. unfold marks_of. apply nodup_In. Qed.

  (** The last steps leave text without joiners alone. *)
  Lemma last_steps f :
    script_visual_norm ns is_mark d = Some f ->
    forall s a b u, over (script_sigma d) u = true -> joiner_free u ->
    (exists nfc dd rw,
       fst_from_rules ns (sd_nfc d) (script_sigma d) = Some nfc /\
       dedup_chars ns (mark_chars (script_chars d) is_mark) (script_sigma d) = Some dd /\
       fst_from_rules ns (sd_visual_rewrite d) (script_sigma d) = Some rw /\
       nfc s = [a] /\ dd a = [b] /\ rw b = [u]) ->
    over (script_sigma d) s = true ->
    f s = [u].
  Proof.
    intros Hf s a b u Hu Hju (nfc & dd & rw & E1 & E2 & E3 & Ea & Eb & Eu) Hs.
    destruct (visual_norm_total ns is_mark d Hnfc Hvis Hgood Hfree) as (f' & Hf' & Ht).
    rewrite Hf in Hf'. injection Hf' as <-.
    destruct (Ht s Hs) as (t & Et & _).
    unfold script_visual_norm, script_nfc, script_dedup in Hf. rewrite E1, E2, E3 in Hf.
    destruct (visual_norm_spec ns nfc dd rw (sd_preserve d) (inputs (sd_consonant d))
                (script_sigma d)) as (f'' & Hf'' & Hrun).
    rewrite Hf in Hf''. injection Hf'' as <-.
    pose proof (Hrun s) as R. rewrite Ea in R. cbn [flat_map] in R. rewrite app_nil_r, Eb in R.
    cbn [flat_map] in R. rewrite app_nil_r, Eu in R. cbn [flat_map] in R. rewrite app_nil_r in R.
    rewrite Et in R |- *.
    assert (K : In t (joiner_steps (sd_preserve d) (inputs (sd_consonant d)) (script_sigma d) u))
      by (rewrite <- R; now left).
    apply (no_joiner_identity _ _ _ u Hgood Hu Hjoin Hju) in K. now rewrite K.
  Qed.

  Lemma settled_stays f :
    script_visual_norm ns is_mark d = Some f ->
    forall t, over (script_sigma d) t = true -> joiner_free t -> settled d t -> f t = [t].
  Proof.
    intros Hf t Ht Hj (S1 & S2 & S3).
    destruct (rules_passes ns _ _ Hnfc) as (nfc & E1 & _ & I1 & _).
    destruct (rules_passes ns _ _ Hvis) as (rw & E3 & _ & I3 & _).
    destruct (dedup_chars_spec ns _ (script_sigma d) mark_list) as (dd & E2 & I2 & _).
    apply (last_steps f Hf t t t t Ht Hj); [|exact Ht].
    exists nfc, dd, rw. split; [exact E1|]. split; [exact E2|]. split; [exact E3|].
    split; [now apply I1|]. split; [|now apply I3].
    destruct (dedup_result ns _ _ dd mark_list E2 t Ht) as (t' & Et & _ & _).
    destruct (runs_exist t) as (r & Hm & <-). rewrite (I2 r Hm Ht). f_equal. clear Et t'.
    assert (D : forall c, In c (mark_chars (script_chars d) is_mark) ->
                ~ is_infix [c; c] (expand r)).
    { intros c Hc. unfold mark_chars in Hc. apply in_app_iff in Hc as [Hc|Hc].
      - intros (x & y & E). apply (Hj c).
        + rewrite E. apply in_app_iff. right. now left.
        + unfold joiners. simpl in *. tauto.
      - apply filter_In in Hc as [H1 H2]. now apply S3. }
    clear - D. generalize dependent (mark_chars (script_chars d) is_mark). intros l D.
    induction r as [|[c n] r IH]; [reflexivity|].
    destruct (memN c l) eqn:Ec.
    - destruct n as [|n].
      + cbn [shrink map fst]. rewrite Ec. rewrite !expand_cons. cbn [repeat app]. f_equal.
        apply IH. intros e He K. apply (D e He). rewrite expand_cons.
        exact (infix_behind _ [c] _ K).
      + exfalso. apply (D c); [now apply memN_In|]. rewrite expand_cons.
        apply run_pair. lia.
    - cbn [shrink map fst]. rewrite Ec. rewrite !expand_cons. f_equal. f_equal. apply IH.
      intros e He K. apply (D e He). rewrite expand_cons.
      exact (infix_behind _ (c :: repeat c n) _ K).
  Qed.

  (** What the grammar makes of text without joiners. *)
  Lemma plain_result f :
    script_visual_norm ns is_mark d = Some f -> no_empty_rhs d = true ->
    forallb (excluded (after_rewrite d)) joiner_strs = true ->
    forall s, over (script_sigma d) s = true -> joiner_free s ->
    exists t, f s = [t] /\ over (script_sigma d) t = true /\ joiner_free t /\
              forall p, In p (after_rewrite d) -> ~ is_infix p t.
  Proof.
    intros Hf Hr Hex s Hs Hj.
    destruct (rules_passes ns _ _ Hnfc) as (nfc & E1 & P1 & _ & L1).
    destruct (rules_passes ns _ _ Hvis) as (rw & E3 & P3 & _ & L3).
    destruct (dedup_chars_spec ns _ (script_sigma d) mark_list) as (dd & E2 & I2 & _).
    destruct (dedup_total ns _ (script_sigma d) mark_list) as (dd' & E2' & T2).
    rewrite E2 in E2'. injection E2' as <-.
    destruct (P1 s Hs) as (a & Ea & Oa & Pa).
    destruct (T2 a Oa) as (b & Eb & Ob).
    destruct (P3 b Ob) as (u & Eu & Ou & Pu).
    assert (A1 : forall p, In p (after_nfc d) -> ~ is_infix p a).
    { apply (absent_sound (layers_of (sd_nfc d)) joiner_strs s a); [|now apply joiner_free_strs|exact Pa].
      intros l r Hl Hr'. apply (no_empty_rhs_sound d r Hr). left. exact (L1 l r Hl Hr'). }
    assert (A2 : forall p, In p (after_dedup d) -> ~ is_infix p b).
    { destruct (runs_exist a) as (r & Hm & E). subst a. rewrite (I2 r Hm Oa) in Eb.
      injection Eb as <-. intros p Hp. apply in_app_iff in Hp as [Hp|Hp].
      - apply filter_In in Hp as [Hp Hsh]. intro K. apply (A1 p Hp). eapply shrink_short; eassumption.
      - apply in_map_iff in Hp as (c & <- & Hc). apply shrunk_no_double; [exact Hm|].
        now apply marks_of_spec. }
    assert (A3 : forall p, In p (after_rewrite d) -> ~ is_infix p u).
    { apply (absent_sound (layers_of (sd_visual_rewrite d)) (after_dedup d) b u); [|exact A2|exact Pu].
      intros l r Hl Hr'. apply (no_empty_rhs_sound d r Hr). right. exact (L3 l r Hl Hr'). }
    assert (Ju : joiner_free u).
    { apply joiner_free_strs. intros p Hp. rewrite forallb_forall in Hex.
      apply (excluded_sound (after_rewrite d)); [exact A3|now apply Hex]. }
    exists u. split; [|now repeat split].
    apply (last_steps f Hf s a b u Ou Ju); [|exact Hs].
    exists nfc, dd, rw. repeat split; assumption.
  Qed.

  Lemma targets_settled t : (forall p, In p (targets d) -> ~ is_infix p t) -> settled d t.
  Proof.
    intro H. split; [|split].
    - intros r Hr. apply H. unfold targets. rewrite !in_app_iff. left. now apply in_map.
    - intros r Hr. apply H. unfold targets. rewrite !in_app_iff. right. left. now apply in_map.
    - intros c Hc Hm. apply H. unfold targets. rewrite !in_app_iff. right. right.
      unfold doubles. apply (in_map (fun x => [x; x])). apply marks_of_spec. unfold mark_chars.
      apply in_app_iff. right. now apply filter_In.
  Qed.

  Lemma settles_sound f : script_visual_norm ns is_mark d = Some f -> settles d = true ->
    forall s, over (script_sigma d) s = true -> joiner_free s ->
    exists t, f s = [t] /\ f t = [t] /\ settled d t.
  Proof.
    intros Hf H s Hs Hj. unfold settles in H. rewrite !if_false in H. destruct H as (H1 & H2 & H3).
    destruct (plain_result f Hf H1 H2 s Hs Hj) as (t & Et & Ot & Jt & At).
    assert (St : settled d t).
    { apply targets_settled. intros p Hp. rewrite forallb_forall in H3.
      apply (excluded_sound (after_rewrite d)); [exact At|now apply H3]. }
    exists t. split; [exact Et|]. split; [|exact St]. now apply settled_stays.
  Qed.

  Lemma settles_well_formed_sound f :
    script_visual_norm ns is_mark d = Some f -> settles_well_formed d = true ->
    forall s t, over (script_sigma d) s = true -> joiner_free s -> In t (f s) ->
    matches (accept_well_formed d) t -> f t = [t] /\ settled d t.
  Proof.
    intros Hf H s t Hs Hj Ht Hw. unfold settles_well_formed in H. rewrite !if_false in H.
    destruct H as (H1 & H2 & H3).
    destruct (plain_result f Hf H1 H2 s Hs Hj) as (t' & Et & Ot & Jt & At).
    rewrite Et in Ht. destruct Ht as [->|[]].
    assert (St : settled d t).
    { apply targets_settled. intros p Hp. rewrite forallb_forall in H3. specialize (H3 p Hp).
      apply if_true in H3 as [H3|H3].
      - now apply (excluded_sound (after_rewrite d)).
      - intro K. rewrite (may_occur_sound _ _ _ Hw K) in H3. discriminate. }
    split; [|exact St]. now apply settled_stays.
  Qed.

  Lemma well_formed_settled_sound f :
    script_visual_norm ns is_mark d = Some f -> well_formed_settled d = true ->
    forall t, over (script_sigma d) t = true -> joiner_free t ->
    matches (accept_well_formed d) t -> f t = [t] /\ settled d t.
  Proof.
    intros Hf H t Ht Hj Hw.
    assert (St : settled d t).
    { apply targets_settled. intros p Hp. unfold well_formed_settled in H.
      rewrite forallb_forall in H. specialize (H p Hp). apply if_true in H as [H|H].
      - apply (excluded_sound joiner_strs); [now apply joiner_free_strs|exact H].
      - intro K. rewrite (may_occur_sound _ _ _ Hw K) in H. discriminate. }
    split; [|exact St]. now apply settled_stays.
  Qed.
End Script.

(** ** The shipped scripts *)

Lemma shipped_parts d : In d all_scripts ->
  rules_ok (sd_nfc d) (script_sigma d) = true /\
  rules_ok (sd_visual_rewrite d) (script_sigma d) = true.
Proof.
  intro Hd. pose proof all_scripts_ok as H. rewrite forallb_forall in H. specialize (H d Hd).
  unfold script_ok in H. apply andb_true_iff in H as [H _]. now apply andb_true_iff in H.
Qed.

Lemma settling_shipped : incl settling_scripts all_scripts.
Proof. unfold settling_scripts, all_scripts. intros d H. simpl in *. tauto. Qed.
Lemma settled_shipped : incl settled_scripts all_scripts.
Proof. unfold settled_scripts, all_scripts. intros d H. simpl in *. tauto. Qed.
Lemma careful_shipped : incl careful_scripts all_scripts.
Proof. unfold careful_scripts, all_scripts. intros d H. simpl in *. tauto. Qed.

Lemma all_settling : forallb settles settling_scripts = true.
Proof. vm_compute. reflexivity. Qed.
Lemma all_careful : forallb settles_well_formed careful_scripts = true.
Proof. vm_compute. reflexivity. Qed.
Lemma all_settled : forallb well_formed_settled settled_scripts = true.
Proof. vm_compute. reflexivity. Qed.

Lemma plain_stable ns d f : In d settling_scripts -> script_visual_norm ns is_mark d = Some f ->
  forall s, over (script_sigma d) s = true -> joiner_free s ->
  exists t, f s = [t] /\ f t = [t] /\ settled d t.
Proof.
  intros Hd Hf. pose proof (settling_shipped d Hd) as Ha.
  destruct (shipped_parts d Ha) as (H1 & H2). destruct (shipped_preserve d Ha) as (Hg & Hp & Hj).
  apply (settles_sound ns d H1 H2 Hg Hp Hj f Hf).
  pose proof all_settling as K. rewrite forallb_forall in K. exact (K d Hd).
Qed.

Lemma well_formed_result_stable ns d f : In d careful_scripts ->
  script_visual_norm ns is_mark d = Some f ->
  forall s t, over (script_sigma d) s = true -> joiner_free s -> In t (f s) ->
  well_formed d t = true -> f t = [t] /\ settled d t.
Proof.
  intros Hd Hf s t Hs Hjs Ht Hw. pose proof (careful_shipped d Hd) as Ha.
  destruct (shipped_parts d Ha) as (H1 & H2). destruct (shipped_preserve d Ha) as (Hg & Hp & Hj).
  pose proof all_careful as K. rewrite forallb_forall in K.
  apply accepts_spec in Hw.
  exact (settles_well_formed_sound ns d H1 H2 Hg Hp Hj f Hf (K d Hd) s t Hs Hjs Ht Hw).
Qed.

Lemma well_formed_fixed ns d f : In d settled_scripts ->
  script_visual_norm ns is_mark d = Some f ->
  forall t, over (script_sigma d) t = true -> joiner_free t ->
  well_formed d t = true -> f t = [t] /\ settled d t.
Proof.
  intros Hd Hf t Ht Hjt Hw. pose proof (settled_shipped d Hd) as Ha.
  destruct (shipped_parts d Ha) as (H1 & H2). destruct (shipped_preserve d Ha) as (Hg & Hp & Hj).
  pose proof all_settled as K. rewrite forallb_forall in K.
  apply accepts_spec in Hw.
  exact (well_formed_settled_sound ns d H1 H2 Hg Hp Hj f Hf (K d Hd) t Ht Hjt Hw).
Qed.

Lemma settled_fixed ns d f : In d all_scripts -> script_visual_norm ns is_mark d = Some f ->
  forall t, over (script_sigma d) t = true -> joiner_free t -> settled d t -> f t = [t].
Proof.
  intros Ha Hf.
  destruct (shipped_parts d Ha) as (H1 & H2). destruct (shipped_preserve d Ha) as (Hg & Hp & Hj).
  exact (settled_stays ns d H1 H2 Hg Hp Hj f Hf).
Qed.

(** ** Texts that are not stable *)

(** The grammar does not depend on the sizes that choose the order of
    composition. *)
Lemma same_rules ns ns' rs sigma f f' : rules_ok rs sigma = true ->
  fst_from_rules ns rs sigma = Some f -> fst_from_rules ns' rs sigma = Some f' ->
  forall s, over sigma s = true -> f s = f' s.
Proof.
  intros H Hf Hf' s Hs. apply andb_true_iff in H as [H H3]. apply andb_true_iff in H as [H1 H2].
  rewrite forallb_forall in H1, H2.
  assert (Hne : nonempty_lhs rs).
  { intros r Hr. apply H1 in Hr. apply negb_true_iff, str_eqb_neq in Hr. exact Hr. }
  pose proof (fst_from_rules_spec ns rs sigma Hne H2) as HS.
  pose proof (fst_from_rules_spec ns' rs sigma Hne H2) as HS'.
  destruct (partition_unordered rs) as [ls| |]; try discriminate.
  destruct HS as (g & Hg & Hs1 & _). destruct HS' as (g' & Hg' & Hs1' & _).
  rewrite Hf in Hg. rewrite Hf' in Hg'. injection Hg as <-. injection Hg' as <-.
  destruct (Hs1 s Hs) as (t & E & _ & Hp & _). destruct (Hs1' s Hs) as (t' & E' & _ & Hp' & U).
  rewrite E, E'. now rewrite (U t Hp).
Qed.

Lemma same_grammar ns ns' d f f' : In d all_scripts ->
  script_visual_norm ns is_mark d = Some f -> script_visual_norm ns' is_mark d = Some f' ->
  forall s, over (script_sigma d) s = true -> f s = f' s.
Proof.
  intros Ha Hf Hf' s Hs. destruct (shipped_parts d Ha) as (H1 & H2).
  destruct (rules_ok_total ns _ _ H1) as (nfc & En & Tn).
  destruct (rules_ok_total ns' _ _ H1) as (nfc' & En' & _).
  destruct (rules_ok_total ns _ _ H2) as (rw & Er & Tr).
  destruct (rules_ok_total ns' _ _ H2) as (rw' & Er' & _).
  destruct (dedup_chars_spec ns _ (script_sigma d) (mark_list d)) as (dd & Ed & Hd & _).
  destruct (dedup_chars_spec ns' _ (script_sigma d) (mark_list d)) as (dd' & Ed' & Hd' & _).
  destruct (dedup_total ns _ (script_sigma d) (mark_list d)) as (dd2 & Ed2 & Td).
  rewrite Ed in Ed2. injection Ed2 as <-.
  unfold script_visual_norm, script_nfc, script_dedup in Hf, Hf'.
  rewrite En, Ed, Er in Hf. rewrite En', Ed', Er' in Hf'.
  destruct (visual_norm_spec ns nfc dd rw (sd_preserve d) (inputs (sd_consonant d))
              (script_sigma d)) as (g & Hg & R).
  destruct (visual_norm_spec ns' nfc' dd' rw' (sd_preserve d) (inputs (sd_consonant d))
              (script_sigma d)) as (g' & Hg' & R').
  rewrite Hf in Hg. rewrite Hf' in Hg'. injection Hg as <-. injection Hg' as <-.
  rewrite R, R'. rewrite <- (same_rules ns ns' _ _ nfc nfc' H1 En En' s Hs).
  destruct (Tn s Hs) as (a & Ea & Oa). rewrite Ea. cbn [flat_map]. rewrite !app_nil_r.
  assert (E : dd' a = dd a).
  { destruct (runs_exist a) as (r & Hm & <-). now rewrite (Hd r Hm Oa), (Hd' r Hm Oa). }
  rewrite E. destruct (Td a Oa) as (b & Eb & Ob). rewrite Eb. cbn [flat_map]. rewrite !app_nil_r.
  now rewrite (same_rules ns ns' _ _ rw rw' H2 Er Er' b Ob).
Qed.

(** [s] becomes [t], which becomes [u]. *)
Definition moves (d : script_data) (s t u : str) : bool :=
  if over (script_sigma d) s then
  if over (script_sigma d) t then
  match script_visual_norm (fun _ => 1) is_mark d with
  | Some f =>
      match f s, f t with
      | [t'], [u'] => if str_eqb t t' then str_eqb u u' else false
      | _, _ => false
      end
  | None => false
  end
  else false else false.

Lemma moves_sound ns d s t u f : In d all_scripts -> moves d s t u = true ->
  script_visual_norm ns is_mark d = Some f ->
  over (script_sigma d) s = true /\ over (script_sigma d) t = true /\ f s = [t] /\ f t = [u].
Proof.
  intros Ha H Hf. unfold moves in H. rewrite !if_false in H. destruct H as (Os & Ot & H).
  destruct (script_visual_norm (fun _ => 1) is_mark d) as [f'|] eqn:Ef; [|discriminate].
  rewrite (same_grammar ns (fun _ => 1) d f f' Ha Hf Ef s Os).
  rewrite (same_grammar ns (fun _ => 1) d f f' Ha Hf Ef t Ot).
  destruct (f' s) as [|t' [|]]; try discriminate. destruct (f' t) as [|u' [|]]; try discriminate.
  apply if_false in H as [E1 E2]. apply str_eqb_eq in E1, E2. now subst.
Qed.

Definition trace : Type := script_data * (str * (str * str)).

Definition is_trace (x : trace) : bool :=
  let '(d, (s, (t, u))) := x in if str_eqb t u then false else moves d s t u.

Definition plainb (s : str) : bool := forallb (fun c => negb (memN c joiners)) s.
Lemma plainb_sound s : plainb s = true -> joiner_free s.
Proof.
  intros H c Hc Hj. unfold plainb in H. rewrite forallb_forall in H. apply H in Hc.
  apply memN_In in Hj. rewrite Hj in Hc. discriminate.
Qed.

Open Scope N_scope.

Definition joiner_traces : list trace :=
  [(data_Beng, ([2437; 8203; 2494], ([2437; 2494], [2438])));
   (data_Bugi, ([6679; 8203; 6679], ([6679; 6679], [6679])));
   (data_Deva, ([2309; 8203; 2374], ([2309; 2374], [2308])));
   (data_Gujr, ([2693; 8203; 2750], ([2693; 2750], [2694])));
   (data_Guru, ([2565; 8203; 2622], ([2565; 2622], [2566])));
   (data_Knda, ([3209; 8203; 3262], ([3209; 3262], [3210])));
   (data_Lepc, ([7213; 8203; 7213], ([7213; 7213], [7213])));
   (data_Limb, ([6457; 8203; 6457], ([6457; 6457], [6457])));
   (data_Mlym, ([3335; 8203; 3415], ([3335; 3415], [3336])));
   (data_Mtei, ([44013; 8203; 44013], ([44013; 44013], [44013])));
   (data_Newa, ([70656; 8203; 70709], ([70656; 70709], [70657])));
   (data_Orya, ([2821; 8203; 2878], ([2821; 2878], [2822])));
   (data_Sinh, ([3461; 8203; 3535], ([3461; 3535], [3462])));
   (data_Sylo, ([43019; 8203; 43019], ([43019; 43019], [43019])));
   (data_Takr, ([71296; 8203; 71341], ([71296; 71341], [71297])));
   (data_Taml, ([2949; 8203; 3010], ([2949; 3010], [2950])));
   (data_Telu, ([3090; 8203; 3157], ([3090; 3157], [3091])));
   (data_Tglg, ([5908; 8203; 5908], ([5908; 5908], [5908])));
   (data_Thaa, ([1958; 8203; 1958], ([1958; 1958], [1958])));
   (data_Tirh, ([70785; 8203; 70832], ([70785; 70832], [70786])))].

Definition plain_traces : list trace :=
  [(data_Deva, ([784; 2305], ([2305; 2305], [2305])));
   (data_Gujr, ([2693; 2760; 2759], ([2704; 2759], [2704])));
   (data_Knda, ([3260; 3262; 3260], ([3260; 3260; 3262], [3260; 3262])));
   (data_Newa, ([70660; 70718; 70709], ([70660; 70720], [70668])));
   (data_Orya, ([2835; 2893; 2835; 2893; 2860], ([2835; 2893; 2929], [2929])));
   (data_Taml, ([2949; 3009; 3006], ([2949; 3010], [2950])));
   (data_Telu, ([3135; 3157; 3136], ([3136; 3136], [3136])))].

Definition well_formed_traces : list trace :=
  [(data_Deva, ([2418; 784], ([2418; 2305], [2309; 2305])));
   (data_Taml, ([3000; 3021; 3006; 3008], ([3000; 3021; 2992; 3008], [2998; 3021; 2992; 3008])))].

Definition deleted_joiner_traces : list trace :=
  [(data_Deva, ([2418; 8203; 2306], ([2418; 2306], [2309; 2305])));
   (data_Gujr, ([2709; 2748; 8203; 2748], ([2709; 2748; 2748], [2709; 2748])));
   (data_Mlym, ([3368; 8203; 3405; 3377], ([3368; 3405; 3377], [3451; 3405; 3377])));
   (data_Orya, ([2849; 2876; 8203; 2876], ([2849; 2876; 2876], [2849; 2876])));
   (data_Taml, ([3000; 8203; 3021; 2992; 3008],
                ([3000; 3021; 2992; 3008], [2998; 3021; 2992; 3008])));
   (data_Tirh, ([70826; 8203; 70837], ([70826; 70837], [70793])))].

Definition changed_texts : list trace :=
  [(data_Deva, ([2418; 2306], ([2309; 2305], [2309; 2305])));
   (data_Gujr, ([2709; 2748; 2748], ([2709; 2748], [2709; 2748])));
   (data_Guru, ([2614], ([2616; 2620], [2616; 2620])));
   (data_Mlym, ([3368; 3405; 3377], ([3451; 3405; 3377], [3451; 3405; 3377])));
   (data_Orya, ([2849; 2876; 2876], ([2849; 2876], [2849; 2876])));
   (data_Taml, ([3000; 3021; 2992; 3008], ([2998; 3021; 2992; 3008], [2998; 3021; 2992; 3008])));
   (data_Tirh, ([70826; 70837], ([70793], [70793])))].

Close Scope N_scope.

Definition changes (x : trace) : bool :=
  let '(d, (s, (t, u))) := x in
  if str_eqb s t then false else if plainb s then if well_formed d s then moves d s t u else false
  else false.

Definition plain_trace (x : trace) : bool :=
  let '(d, (s, (t, u))) := x in if plainb s then is_trace x else false.
Definition well_formed_trace (x : trace) : bool :=
  let '(d, (s, (t, u))) := x in if well_formed d t then is_trace x else false.
Definition plain_well_formed_trace (x : trace) : bool :=
  let '(d, (s, (t, u))) := x in if plainb s then well_formed_trace x else false.

Lemma joiner_traces_ok : forallb is_trace joiner_traces = true.
Proof. vm_compute. reflexivity. Qed.
Lemma plain_traces_ok : forallb plain_trace plain_traces = true.
Proof. vm_compute. reflexivity. Qed.
Lemma well_formed_traces_ok : forallb plain_well_formed_trace well_formed_traces = true.
Proof. vm_compute. reflexivity. Qed.
Lemma deleted_joiner_traces_ok : forallb well_formed_trace deleted_joiner_traces = true.
Proof. vm_compute. reflexivity. Qed.
Lemma changed_texts_ok : forallb changes changed_texts = true.
Proof. vm_compute. reflexivity. Qed.

(** The witness listed for a script. *)
Lemma trace_of (l : list trace) (p : trace -> bool) : forallb p l = true ->
  forall d, In d (map fst l) -> exists s t u, p (d, (s, (t, u))) = true.
Proof.
  intros H d Hd. apply in_map_iff in Hd as ([d' (s & t & u)] & <- & Hd).
  rewrite forallb_forall in H. exists s, t, u. exact (H _ Hd).
Qed.

Lemma is_trace_sound ns d s t u f : In d all_scripts -> is_trace (d, (s, (t, u))) = true ->
  script_visual_norm ns is_mark d = Some f ->
  over (script_sigma d) s = true /\ f s = [t] /\ f t = [u] /\ t <> u.
Proof.
  intros Ha H Hf. cbn [is_trace] in H. destruct (str_eqb t u) eqn:E; [discriminate|].
  apply str_eqb_neq in E. destruct (moves_sound ns d s t u f Ha H Hf) as (H1 & _ & H2 & H3). auto.
Qed.

Lemma is_trace_over d s t u : is_trace (d, (s, (t, u))) = true ->
  over (script_sigma d) s = true.
Proof.
  cbn [is_trace]. destruct (str_eqb t u); [discriminate|]. unfold moves.
  destruct (over (script_sigma d) s); [reflexivity|discriminate].
Qed.

Lemma is_trace_neq d s t u : is_trace (d, (s, (t, u))) = true -> t <> u.
Proof.
  cbn [is_trace]. destruct (str_eqb t u) eqn:E; [discriminate|]. intros _.
  now apply str_eqb_neq in E.
Qed.

Lemma joiners_unstable d : In d all_scripts ->
  exists s t u, over (script_sigma d) s = true /\ t <> u /\
    forall ns f, script_visual_norm ns is_mark d = Some f -> f s = [t] /\ f t = [u].
Proof.
  intro Ha. destruct (trace_of _ _ joiner_traces_ok d Ha) as (s & t & u & H).
  exists s, t, u. split; [exact (is_trace_over d s t u H)|]. split; [exact (is_trace_neq d s t u H)|].
  intros ns f Hf. destruct (is_trace_sound ns d s t u f Ha H Hf) as (_ & H1 & H2 & _). auto.
Qed.

Lemma plain_shipped : incl (map fst plain_traces) all_scripts.
Proof. unfold plain_traces, all_scripts. intros d H. simpl in *. tauto. Qed.

Lemma plain_unstable d : In d (map fst plain_traces) ->
  exists s t u, over (script_sigma d) s = true /\ joiner_free s /\ t <> u /\
    forall ns f, script_visual_norm ns is_mark d = Some f -> f s = [t] /\ f t = [u].
Proof.
  intro Hd. pose proof (plain_shipped d Hd) as Ha.
  destruct (trace_of _ _ plain_traces_ok d Hd) as (s & t & u & H).
  cbn [plain_trace] in H. apply if_false in H as [Hp H].
  exists s, t, u. split; [exact (is_trace_over d s t u H)|]. split; [now apply plainb_sound|].
  split; [exact (is_trace_neq d s t u H)|].
  intros ns f Hf. destruct (is_trace_sound ns d s t u f Ha H Hf) as (_ & H1 & H2 & _). auto.
Qed.

Lemma well_formed_traces_shipped : incl (map fst well_formed_traces) all_scripts.
Proof. unfold well_formed_traces, all_scripts. intros d H. simpl in *. tauto. Qed.

Lemma well_formed_unstable d : In d (map fst well_formed_traces) ->
  exists s t u, over (script_sigma d) s = true /\ joiner_free s /\ well_formed d t = true /\ t <> u /\
    forall ns f, script_visual_norm ns is_mark d = Some f -> f s = [t] /\ f t = [u].
Proof.
  intro Hd. pose proof (well_formed_traces_shipped d Hd) as Ha.
  destruct (trace_of _ _ well_formed_traces_ok d Hd) as (s & t & u & H).
  cbn [plain_well_formed_trace well_formed_trace] in H.
  apply if_false in H as [Hp H]. apply if_false in H as [Hw H].
  exists s, t, u. split; [exact (is_trace_over d s t u H)|]. split; [now apply plainb_sound|].
  split; [exact Hw|]. split; [exact (is_trace_neq d s t u H)|].
  intros ns f Hf. destruct (is_trace_sound ns d s t u f Ha H Hf) as (_ & H1 & H2 & _). auto.
Qed.

Lemma deleted_joiner_shipped : incl (map fst deleted_joiner_traces) all_scripts.
Proof. unfold deleted_joiner_traces, all_scripts. intros d H. simpl in *. tauto. Qed.

Lemma deleted_joiner_unstable d : In d (map fst deleted_joiner_traces) ->
  exists s t u, over (script_sigma d) s = true /\ well_formed d t = true /\ t <> u /\
    forall ns f, script_visual_norm ns is_mark d = Some f -> f s = [t] /\ f t = [u].
Proof.
  intro Hd. pose proof (deleted_joiner_shipped d Hd) as Ha.
  destruct (trace_of _ _ deleted_joiner_traces_ok d Hd) as (s & t & u & H).
  cbn [well_formed_trace] in H. apply if_false in H as [Hw H].
  exists s, t, u. split; [exact (is_trace_over d s t u H)|].
  split; [exact Hw|]. split; [exact (is_trace_neq d s t u H)|].
  intros ns f Hf. destruct (is_trace_sound ns d s t u f Ha H Hf) as (_ & H1 & H2 & _). auto.
Qed.

Lemma changed_shipped : incl (map fst changed_texts) all_scripts.
Proof. unfold changed_texts, all_scripts. intros d H. simpl in *. tauto. Qed.

Lemma well_formed_changed d : In d (map fst changed_texts) ->
  exists s t, over (script_sigma d) s = true /\ joiner_free s /\ well_formed d s = true /\ s <> t /\
    forall ns f, script_visual_norm ns is_mark d = Some f -> f s = [t].
Proof.
  intro Hd. pose proof (changed_shipped d Hd) as Ha.
  destruct (trace_of _ _ changed_texts_ok d Hd) as (s & t & u & H).
  cbn [changes] in H. destruct (str_eqb s t) eqn:E; [discriminate|]. apply str_eqb_neq in E.
  apply if_false in H as [Hp H]. apply if_false in H as [Hw H].
  exists s, t. split.
  - unfold moves in H. now apply if_false in H as [H _].
  - split; [now apply plainb_sound|]. split; [exact Hw|]. split; [exact E|].
    intros ns f Hf. destruct (moves_sound ns d s t u f Ha H Hf) as (_ & _ & H1 & _). exact H1.
Qed.

Lemma shipped_norm_exists ns d : In d all_scripts ->
  exists f, script_visual_norm ns is_mark d = Some f.
Proof.
  intro Hd. destruct (shipped_visual_total ns is_mark d Hd) as (f & Hf & _). eauto.
Qed.
