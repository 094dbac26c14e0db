(** Normalizers that keep text well-formed. *)
From Verif Require Import Base RuleModel RuleSpec RuleProofs RewriteProofs IdemProofs VisualModel VisualSpec
  VisualProofs ScriptData ScriptTables ScriptModel ScriptChecks RegexModel RegexProofs
  WellformedModel MarkTables StableSpec StableProofs ResidualCheck ResidualProofs KeepSpec.

Definition pairs (rs : list rule) : list (str * str) := map (fun r => (lhs r, rhs r)) rs.

(** ** One language, one alphabet, one list of replacements *)
Section Language.
  Variables (R : re) (sigma : list N) (rs : list (str * str)).
  Hypothesis Hkeep : keeps R sigma rs = true.
  Hypothesis Hrhs : forall l r, In (l, r) rs -> within sigma l -> within sigma r.

  Lemma within_app x y : within sigma (x ++ y) <-> within sigma x /\ within sigma y.
  Proof.
    unfold within. split.
    - intro H. split; intros c Hc; apply H; apply in_app_iff; auto.
    - intros [H1 H2] c Hc. apply in_app_iff in Hc as [Hc|Hc]; auto.
  Qed.

  Lemma replace l r x y : In (l, r) rs -> within sigma (x ++ l ++ y) ->
    matches R (x ++ l ++ y) -> matches R (x ++ r ++ y) /\ within sigma (x ++ r ++ y).
  Proof.
    intros H Hw Hm. rewrite !within_app in Hw. destruct Hw as (W1 & W2 & W3). split.
    - exact (keeps_sound R sigma rs Hkeep x y l r H W1 W3 Hm).
    - rewrite !within_app. repeat split; auto. exact (Hrhs l r H W2).
  Qed.

  Lemma cut_keeps gs : forall x, (forall r, In (Sub r) gs -> In (lhs r, rhs r) rs) ->
    within sigma (x ++ ins gs) -> matches R (x ++ ins gs) ->
    matches R (x ++ outs gs) /\ within sigma (x ++ outs gs).
  Proof.
    induction gs as [|[c|r] gs IH]; intros x Hin Hw Hm; [auto| |].
    - change (ins (Copy c :: gs)) with ([c] ++ ins gs) in *.
      change (outs (Copy c :: gs)) with ([c] ++ outs gs). rewrite app_assoc in Hw, Hm |- *.
      apply IH; [intros r Hr; apply Hin; now right|exact Hw|exact Hm].
    - change (ins (Sub r :: gs)) with (lhs r ++ ins gs) in *.
      change (outs (Sub r :: gs)) with (rhs r ++ outs gs).
      destruct (replace (lhs r) (rhs r) x (ins gs) (Hin r (or_introl eq_refl)) Hw Hm) as (H1 & H2).
      rewrite app_assoc in H1, H2 |- *.
      apply IH; [intros r' Hr; apply Hin; now right|exact H2|exact H1].
  Qed.

  Lemma cut_rules l s gs : leftmost_cut l s gs -> forall r, In (Sub r) gs -> In r l.
  Proof.
    induction 1 as [|c s gs _ _ IH|r s gs Hr _ IH]; intros r' Hr'.
    - destruct Hr'.
    - destruct Hr' as [Hr'|Hr']; [discriminate|auto].
    - destruct Hr' as [Hr'|Hr']; [injection Hr' as <-; exact Hr|auto].
  Qed.

  Lemma passes_keep layers : forall s t,
    (forall l r, In l layers -> In r l -> In (lhs r, rhs r) rs) ->
    passes layers s t -> within sigma s -> matches R s -> matches R t /\ within sigma t.
  Proof.
    induction layers as [|l layers IH]; intros s t Hl Hp Hw Hm.
    - simpl in Hp. subst. auto.
    - destruct Hp as (gs & Hgs & Hp). pose proof (leftmost_cut_ins _ _ _ Hgs) as E. subst s.
      destruct (cut_keeps gs [] (fun r Hr => Hl l r (or_introl eq_refl) (cut_rules _ _ _ Hgs r Hr)) Hw Hm)
        as (H1 & H2).
      apply (IH (outs gs) t); [intros l' r Hl' Hr; apply (Hl l' r); [now right|exact Hr]
                              |exact Hp|exact H2|exact H1].
  Qed.

  Lemma run_keeps c n : forall x y, In ([c; c], [c]) rs ->
    within sigma (x ++ (c :: repeat c n) ++ y) -> matches R (x ++ (c :: repeat c n) ++ y) ->
    matches R (x ++ [c] ++ y) /\ within sigma (x ++ [c] ++ y).
  Proof.
    induction n as [|n IH]; intros x y Hc Hw Hm; [auto|].
    cbn [repeat] in Hw, Hm.
    change (x ++ (c :: c :: repeat c n) ++ y) with (x ++ [c; c] ++ (repeat c n ++ y)) in Hw, Hm.
    destruct (replace [c; c] [c] x (repeat c n ++ y) Hc Hw Hm) as (H1 & H2).
    apply IH; [exact Hc|exact H2|exact H1].
  Qed.

  Lemma shrink_keeps ms r : forall x, (forall c, In c ms -> In ([c; c], [c]) rs) ->
    within sigma (x ++ expand r) -> matches R (x ++ expand r) ->
    matches R (x ++ expand (shrink ms r)) /\ within sigma (x ++ expand (shrink ms r)).
  Proof.
    induction r as [|[c n] r IH]; intros x Hms Hw Hm; [auto|].
    rewrite expand_cons in Hw, Hm.
    change (c :: repeat c n ++ expand r) with ((c :: repeat c n) ++ expand r) in Hw, Hm.
    unfold shrink. cbn [map fst]. fold (shrink ms r). destruct (memN c ms) eqn:E.
    - apply memN_In in E. destruct (run_keeps c n x (expand r) (Hms c E) Hw Hm) as (H1 & H2).
      rewrite expand_cons. cbn [repeat app].
      change (x ++ c :: expand (shrink ms r)) with (x ++ [c] ++ expand (shrink ms r)).
      rewrite app_assoc in H1, H2 |- *. apply IH; assumption.
    - rewrite expand_cons. change (c :: repeat c n ++ expand (shrink ms r)) with
        ((c :: repeat c n) ++ expand (shrink ms r)).
      rewrite app_assoc in Hw, Hm |- *. apply IH; assumption.
  Qed.

  Lemma kept_keeps gs : forall x, (forall c, In c joiners -> In ([c], []) rs) ->
    within sigma (x ++ ins gs) -> matches R (x ++ ins gs) ->
    matches R (x ++ flat_map kept gs) /\ within sigma (x ++ flat_map kept gs).
  Proof.
    induction gs as [|[c|r] gs IH]; intros x Hj Hw Hm; [auto| |]; cbn [flat_map kept].
    - change (ins (Copy c :: gs)) with ([c] ++ ins gs) in *. destruct (memN c joiners) eqn:E.
      + apply memN_In in E. destruct (replace [c] [] x (ins gs) (Hj c E) Hw Hm) as (H1 & H2).
        apply IH; assumption.
      + rewrite app_assoc in Hw, Hm |- *. apply IH; assumption.
    - change (ins (Sub r :: gs)) with (lhs r ++ ins gs) in *.
      rewrite app_assoc in Hw, Hm |- *. apply IH; assumption.
  Qed.
End Language.

(** ** The checks for a script *)
Definition alphabet (d : script_data) : list N := nodup N.eq_dec (script_sigma d).
Definition withinb (sigma : list N) (s : str) : bool := forallb (fun c => memN c sigma) s.
Definition closed_rhs (sigma : list N) (rs : list (str * str)) : bool :=
  forallb (fun r => if withinb sigma (fst r) then withinb sigma (snd r) else true) rs.
Definition keeps_all (d : script_data) (sigma : list N) (rs : list (str * str)) : bool :=
  if closed_rhs sigma rs then keeps (accept_well_formed d) sigma rs else false.

Definition mark_pairs (d : script_data) : list (str * str) :=
  map (fun c => ([c; c], [c])) (marks_of d).
Definition joiner_pairs : list (str * str) := map (fun c => ([c], [])) joiners.
Definition visual_pairs (d : script_data) : list (str * str) :=
  pairs (sd_nfc d) ++ mark_pairs d ++ pairs (sd_visual_rewrite d).

Lemma withinb_spec sigma s : withinb sigma s = true <-> within sigma s.
Proof.
  unfold withinb, within. rewrite forallb_forall. split; intros H c Hc; apply memN_In; auto.
Qed.

Lemma closed_rhs_sound sigma rs : closed_rhs sigma rs = true ->
  forall l r, In (l, r) rs -> within sigma l -> within sigma r.
Proof.
  intros H l r Hr Hl. unfold closed_rhs in H. rewrite forallb_forall in H. specialize (H _ Hr).
  cbn [fst snd] in H. apply withinb_spec in Hl. rewrite Hl in H. now apply withinb_spec.
Qed.

Lemma alphabet_over d s : over (script_sigma d) s = true <-> within (alphabet d) s.
Proof.
  unfold over, within, alphabet. rewrite forallb_forall. split.
  - intros H c Hc. apply nodup_In. apply memN_In. now apply H.
  - intros H c Hc. apply memN_In. apply (nodup_In N.eq_dec). now apply H.
Qed.

Lemma pairs_In rs r : In r rs -> In (lhs r, rhs r) (pairs rs).
Proof. intro H. apply (in_map (fun r => (lhs r, rhs r))). exact H. Qed.

(** Rules of one table *)
Lemma rules_keep ns d rs all f : rules_ok rs (script_sigma d) = true ->
  fst_from_rules ns rs (script_sigma d) = Some f ->
  keeps_all d (alphabet d) all = true -> incl (pairs rs) all ->
  forall s t, over (script_sigma d) s = true -> well_formed d s = true -> In t (f s) ->
  well_formed d t = true.
Proof.
  intros Hok Hf Hk Hin s t Hs Hw Ht. unfold keeps_all in Hk. apply if_false in Hk as [Hr Hk].
  destruct (rules_passes ns _ _ Hok) as (f' & Hf' & HP & _ & HL). rewrite Hf in Hf'.
  injection Hf' as <-. destruct (HP s Hs) as (u & Eu & _ & Hp). rewrite Eu in Ht.
  destruct Ht as [<-|[]]. apply accepts_spec in Hw. apply accepts_spec.
  refine (proj1 (passes_keep _ _ _ Hk (closed_rhs_sound _ _ Hr) (layers_of rs) s u _ Hp _ Hw)).
  - intros l r Hl Hr'. apply Hin. apply pairs_In. exact (HL l r Hl Hr').
  - now apply alphabet_over.
Qed.

(** ** A wider language for the text while the joiners are treated

    Joiners may stand between syllables, and a preserved sequence may also stand
    where a virama may.  A preserved sequence between consonants is first
    replaced by a symbol that may stand in both places ([half]), then by its own
    symbol, which may only stand where the sequence may. *)
Definition with_sets (d : script_data) (standalone virama : string_file)
    (preserve : list preserve_item) : script_data :=
  ScriptData (sd_accept d) (sd_coda d) (sd_consonant d) (sd_dead_consonant d) (sd_inherent_vowel d)
    standalone (sd_subjoined_consonant d) virama (sd_vowel d) (sd_vowel_length_sign d)
    (sd_vowel_sign d) (sd_nfc d) (sd_reading_norm d) (sd_visual_rewrite d) preserve
    (sd_no_inherent_vowel d).
Definition half (p : preserve_item) : N := (psym p + 1000)%N.
Definition symbols (d : script_data) : list preserve_item :=
  map (fun p => Preserve [psym p] (psym p)) (sd_preserve d).
Definition halves (d : script_data) : list preserve_item :=
  map (fun p => Preserve [half p] (psym p)) (sd_preserve d).
Definition alone (s : str) : str * option str := (s, None).
Definition with_symbols (d : script_data) : re :=
  accept_well_formed (with_sets d (sd_standalone d) (sd_virama d) (sd_preserve d ++ symbols d)).
Definition wide (d : script_data) : re :=
  accept_well_formed (with_sets d
    (sd_standalone d ++ map (fun c => alone [c]) joiners)
    (sd_virama d ++ map (fun p => alone (pseq p)) (sd_preserve d ++ halves d))
    (sd_preserve d ++ symbols d ++ halves d)).
Definition psyms (d : script_data) : list N := map psym (sd_preserve d).
Definition wide_alphabet (d : script_data) : list N := alphabet d ++ psyms d.
Definition gone (d : script_data) : list N := joiners ++ map half (sd_preserve d).
Definition marking (d : script_data) : list (str * str) :=
  flat_map (fun p => flat_map (fun k =>
    [(k ++ pseq p, k ++ [half p]); ([half p] ++ k, [psym p] ++ k)]) (inputs (sd_consonant d)))
    (sd_preserve d).
Definition unmarking (d : script_data) : list (str * str) :=
  map (fun p => ([psym p], pseq p)) (sd_preserve d).

Definition keeps_widely (d : script_data) : bool :=
  if re_below (accept_well_formed d) (wide d) then
  if closed_rhs (alphabet d) (visual_pairs d) then
  if keeps (wide d) (alphabet d) (visual_pairs d) then
  if keeps (wide d) (wide_alphabet d) (marking d ++ joiner_pairs) then
  if lacks (map half (sd_preserve d)) (wide_alphabet d) then
  if lacks joiners (psyms d) then
  if lacks (psyms d) (alphabet d) then
  if re_below (lacking (gone d) (wide d)) (with_symbols d) then
  if keeps (with_symbols d) (wide_alphabet d) (unmarking d) then
     re_below (lacking (psyms d) (with_symbols d)) (accept_well_formed d)
  else false else false else false else false else false else false else false else false else false.

Section Visual.
  Variables (ns : fst_t -> nat) (d : script_data) (f : fst_t).
  Hypothesis Hd : In d all_scripts.
  Hypothesis Hf : script_visual_norm ns is_mark d = Some f.

  (** The text before the joiners are treated *)
  Lemma visual_stages s t : over (script_sigma d) s = true -> In t (f s) ->
    exists a r u gs, passes (layers_of (sd_nfc d)) s a /\ a = expand r /\
      passes (layers_of (sd_visual_rewrite d)) (expand (shrink (mark_chars (script_chars d) is_mark) r)) u /\
      ins gs = u /\ t = flat_map kept gs /\
      ctx_cut (spans (sd_preserve d)) (after_consonant (inputs (sd_consonant d)))
              (before_consonant (inputs (sd_consonant d))) [] u gs.
  Proof.
    intros Hs Ht. destruct (shipped_parts d Hd) as (H1 & H2).
    destruct (shipped_preserve d Hd) as (Hg & _ & _).
    destruct (rules_passes ns _ _ H1) as (nfc & E1 & P1 & _ & _).
    destruct (rules_passes ns _ _ H2) as (rw & E3 & P3 & _ & _).
    destruct (dedup_chars_spec ns _ (script_sigma d) (mark_list d)) as (dd & E2 & I2 & _).
    destruct (dedup_total ns _ (script_sigma d) (mark_list d)) as (dd' & E2' & T2).
    rewrite E2 in E2'. injection E2' as <-.
    unfold script_visual_norm, script_nfc, script_dedup in Hf. rewrite E1, E2, E3 in Hf.
    destruct (visual_norm_spec ns nfc dd rw (sd_preserve d) (inputs (sd_consonant d))
                (script_sigma d)) as (g & Hg' & Hrun).
    rewrite Hf in Hg'. injection Hg' as <-. rewrite Hrun in Ht.
    destruct (P1 s Hs) as (a & Ea & Oa & Pa). rewrite Ea in Ht. cbn [flat_map] in Ht.
    rewrite app_nil_r in Ht. destruct (runs_exist a) as (r & Hm & E). subst a.
    destruct (T2 _ Oa) as (b & Eb & Ob). rewrite Eb in Ht. rewrite (I2 r Hm Oa) in Eb.
    injection Eb as <-. cbn [flat_map] in Ht. rewrite app_nil_r in Ht.
    destruct (P3 _ Ob) as (u & Eu & Ou & Pu). rewrite Eu in Ht. cbn [flat_map] in Ht.
    rewrite app_nil_r in Ht. apply joiner_steps_spec in Ht; [|exact Hg|exact Ou].
    destruct Ht as (gs & Hgs & ->). exists (expand r), r, u, gs.
    split; [exact Pa|]. split; [reflexivity|]. split; [exact Pu|].
    split; [exact (ctx_cut_ins _ _ _ _ _ _ Hgs)|]. split; [reflexivity|exact Hgs].
  Qed.

  Lemma layer_pairs rs : rules_ok rs (script_sigma d) = true ->
    forall l r, In l (layers_of rs) -> In r l -> In (lhs r, rhs r) (pairs rs).
  Proof.
    intros Hok l r Hl Hr. destruct (rules_passes ns _ _ Hok) as (g & _ & _ & _ & HL).
    apply pairs_In. exact (HL l r Hl Hr).
  Qed.

  Lemma before_joiners_keep R sigma all s a r u :
    closed_rhs sigma all = true -> keeps R sigma all = true -> incl (visual_pairs d) all ->
    passes (layers_of (sd_nfc d)) s a -> a = expand r ->
    passes (layers_of (sd_visual_rewrite d)) (expand (shrink (mark_chars (script_chars d) is_mark) r)) u ->
    within sigma s -> matches R s ->
    matches R u /\ within sigma u.
  Proof.
    intros Hr Hk Hin Pa -> Pu Ws Ms. destruct (shipped_parts d Hd) as (H1 & H2).
    pose proof (closed_rhs_sound _ _ Hr) as HR.
    destruct (passes_keep _ _ _ Hk HR (layers_of (sd_nfc d)) s (expand r)) as (Ma & Wa); [|exact Pa|exact Ws|exact Ms|].
    { intros l q Hl Hq. apply Hin. unfold visual_pairs. rewrite !in_app_iff. left.
      exact (layer_pairs _ H1 l q Hl Hq). }
    destruct (shrink_keeps _ _ _ Hk HR (mark_chars (script_chars d) is_mark) r []) as (Mb & Wb);
      [|exact Wa|exact Ma|].
    { intros c Hc. apply Hin. unfold visual_pairs. rewrite !in_app_iff. right. left.
      unfold mark_pairs. apply (in_map (fun c => ([c; c], [c]))). now apply marks_of_spec. }
    apply (passes_keep _ _ _ Hk HR (layers_of (sd_visual_rewrite d)) _ u) with (2 := Pu); [|exact Wb|exact Mb].
    intros l q Hl Hq. apply Hin. unfold visual_pairs. rewrite !in_app_iff. right. right.
    exact (layer_pairs _ H2 l q Hl Hq).
  Qed.

  Lemma visual_keeps all : keeps_all d (alphabet d) all = true ->
    incl (visual_pairs d) all -> incl joiner_pairs all ->
    forall s t, over (script_sigma d) s = true -> well_formed d s = true -> In t (f s) ->
    well_formed d t = true.
  Proof.
    intros Hk I1 I2 s t Hs Hw Ht. apply accepts_spec in Hw. apply accepts_spec.
    destruct (visual_stages s t Hs Ht) as (a & r & u & gs & Pa & Ea & Pu & <- & -> & _).
    unfold keeps_all in Hk. apply if_false in Hk as [Hr Hk].
    destruct (before_joiners_keep _ _ _ s a r _ Hr Hk I1 Pa Ea Pu) as (Mu & Wu);
      [now apply alphabet_over|exact Hw|].
    refine (proj1 (kept_keeps _ _ _ Hk (closed_rhs_sound _ _ Hr) gs [] _ Wu Mu)).
    intros c Hc. apply I2. now apply (in_map (fun c => ([c], @nil N))).
  Qed.

  (** The marks *)
  Definition unjoined (g : seg) : str :=
    match g with Copy c => if memN c joiners then [] else [c] | Sub r => rhs r end.

  Lemma mark_keeps : keeps (wide d) (wide_alphabet d) (marking d ++ joiner_pairs) = true ->
    forall o s gs, ctx_cut (spans (sd_preserve d)) (after_consonant (inputs (sd_consonant d)))
              (before_consonant (inputs (sd_consonant d))) o s gs ->
    within (wide_alphabet d) (rev o ++ s) -> matches (wide d) (rev o ++ s) ->
    within (wide_alphabet d) (rev o ++ outs gs) /\ matches (wide d) (rev o ++ outs gs).
  Proof.
    intros Hk o s gs H. induction H as [o|o c s gs _ _ IH|o r s gs Hr Hl Hc _ IH]; intros Hw Hm.
    - auto.
    - change (outs (Copy c :: gs)) with ([c] ++ outs gs).
      cbn [rev] in IH. rewrite <- !app_assoc in IH. apply IH; assumption.
    - change (outs (Sub r :: gs)) with (rhs r ++ outs gs).
      rewrite rev_app_distr, rev_involutive, <- !app_assoc in IH.
      unfold spans in Hr. apply in_map_iff in Hr as (p & <- & Hp). cbn [lhs rhs] in *.
      unfold after_consonant in Hl. apply existsb_exists in Hl as (k & Hk1 & Hl).
      apply prefixb_spec in Hl as (o' & ->).
      unfold before_consonant in Hc. apply existsb_exists in Hc as (k' & Hk2 & Hc).
      apply prefixb_spec in Hc as (s' & ->).
      rewrite rev_app_distr, rev_involutive, <- !app_assoc in *.
      rewrite !(within_app (wide_alphabet d)) in Hw. destruct Hw as (W1 & W2 & W3 & W4 & W5).
      assert (Wp : within (wide_alphabet d) [psym p]).
      { intros c [<-|[]]. apply in_app_iff. right. now apply in_map. }
      assert (M1 : matches (wide d) (rev o' ++ (k ++ [half p]) ++ (k' ++ s'))).
      { apply (keeps_sound _ _ _ Hk (rev o') (k' ++ s') (k ++ pseq p) (k ++ [half p])).
        - apply in_app_iff. left. unfold marking. apply in_flat_map. exists p. split; [exact Hp|].
          apply in_flat_map. exists k. split; [exact Hk1|now left].
        - exact W1.
        - apply within_app. auto.
        - rewrite <- !app_assoc. exact Hm. }
      assert (M2 : matches (wide d) ((rev o' ++ k) ++ ([psym p] ++ k') ++ s')).
      { apply (keeps_sound _ _ _ Hk (rev o' ++ k) s' ([half p] ++ k') ([psym p] ++ k')).
        - apply in_app_iff. left. unfold marking. apply in_flat_map. exists p. split; [exact Hp|].
          apply in_flat_map. exists k'. split; [exact Hk2|right; now left].
        - apply within_app. auto.
        - exact W5.
        - rewrite <- !app_assoc in M1 |- *. exact M1. }
      rewrite <- !app_assoc in M2. apply IH; [|exact M2].
      rewrite !(within_app (wide_alphabet d)). auto.
  Qed.

  Lemma delete_keeps : keeps (wide d) (wide_alphabet d) (marking d ++ joiner_pairs) = true ->
    forall s x, within (wide_alphabet d) (x ++ s) -> matches (wide d) (x ++ s) ->
    within (wide_alphabet d) (x ++ without_joiners s) /\ matches (wide d) (x ++ without_joiners s).
  Proof.
    intro Hk. induction s as [|c s IH]; intros x Hw Hm; [auto|].
    unfold without_joiners. cbn [filter]. fold (without_joiners s). destruct (memN c joiners) eqn:E; cbn [negb].
    - change (x ++ c :: s) with (x ++ [c] ++ s) in Hw, Hm.
      rewrite !(within_app (wide_alphabet d)) in Hw. destruct Hw as (W1 & W2 & W3).
      apply IH; [apply within_app; auto|].
      apply (keeps_sound _ _ _ Hk x s [c] []); [|exact W1|exact W3|exact Hm].
      apply in_app_iff. right. unfold joiner_pairs. apply (in_map (fun c => ([c], @nil N))).
      now apply memN_In.
    - change (x ++ c :: s) with (x ++ [c] ++ s) in Hw, Hm.
      change (x ++ c :: without_joiners s) with (x ++ [c] ++ without_joiners s).
      rewrite app_assoc in Hw, Hm |- *. apply IH; assumption.
  Qed.

  Lemma unmark_keeps : keeps (with_symbols d) (wide_alphabet d) (unmarking d) = true ->
    forall gs x, (forall r, In (Sub r) gs -> In r (spans (sd_preserve d))) ->
    within (wide_alphabet d) x -> within (wide_alphabet d) (flat_map unjoined gs) ->
    within (wide_alphabet d) (flat_map kept gs) ->
    matches (with_symbols d) (x ++ flat_map unjoined gs) ->
    matches (with_symbols d) (x ++ flat_map kept gs).
  Proof.
    intro Hk. induction gs as [|g gs IH]; intros x Hin Wx Wu Wk Hm; [exact Hm|].
    cbn [flat_map] in *. apply within_app in Wu as (Wu1 & Wu2). apply within_app in Wk as (Wk1 & Wk2).
    assert (Hin' : forall r, In (Sub r) gs -> In r (spans (sd_preserve d))) by (intros r Hr; apply Hin; now right).
    destruct g as [c|r].
    - cbn [unjoined kept] in *. rewrite app_assoc in Hm |- *.
      apply IH; [exact Hin'| |exact Wu2|exact Wk2|exact Hm]. apply within_app. auto.
    - cbn [unjoined kept] in *. rewrite app_assoc.
      apply IH; [exact Hin'| |exact Wu2|exact Wk2|]. { apply within_app. auto. }
      rewrite <- app_assoc. specialize (Hin r (or_introl eq_refl)). unfold spans in Hin.
      apply in_map_iff in Hin as (p & <- & Hp). cbn [lhs rhs] in *.
      apply (keeps_sound _ _ _ Hk x _ [psym p] (pseq p)); [|exact Wx|exact Wu2|exact Hm].
      unfold unmarking. apply (in_map (fun p => ([psym p], pseq p))). exact Hp.
  Qed.

  Lemma kept_within sigma gs : within sigma (ins gs) -> within sigma (flat_map kept gs).
  Proof.
    induction gs as [|g gs IH]; intro H; [exact H|]. cbn [flat_map].
    change (ins (g :: gs)) with (seg_in g ++ ins gs) in H. apply within_app in H as (H1 & H2).
    apply within_app. split; [|auto]. destruct g as [c|r]; [|exact H1].
    cbn [kept seg_in] in *. destruct (memN c joiners); [intros e []|exact H1].
  Qed.

  Lemma lacks_iff z s : lacks z s = true <-> forall c, In c s -> ~ In c z.
  Proof.
    unfold lacks. rewrite forallb_forall. split; intros H c Hc.
    - specialize (H c Hc). intro K. apply memN_In in K. now rewrite K in H.
    - destruct (memN c z) eqn:E; [|reflexivity]. apply memN_In in E. destruct (H c Hc E).
  Qed.

  Lemma unjoined_outs gs : lacks joiners (psyms d) = true ->
    (forall r, In (Sub r) gs -> In r (spans (sd_preserve d))) ->
    without_joiners (outs gs) = flat_map unjoined gs.
  Proof.
    intros Hl. induction gs as [|g gs IH]; intro Hin; [reflexivity|].
    change (outs (g :: gs)) with (seg_out g ++ outs gs). cbn [flat_map].
    unfold without_joiners. rewrite filter_app. fold (without_joiners (outs gs)).
    rewrite IH by (intros r Hr; apply Hin; now right). f_equal. destruct g as [c|r].
    - cbn [seg_out filter unjoined]. destruct (memN c joiners); reflexivity.
    - specialize (Hin r (or_introl eq_refl)). unfold spans in Hin.
      apply in_map_iff in Hin as (p & <- & Hp). cbn [seg_out filter unjoined rhs].
      destruct (memN (psym p) joiners) eqn:E; [|reflexivity]. exfalso. apply memN_In in E.
      rewrite lacks_iff in Hl. apply (Hl (psym p)); [|exact E]. unfold psyms. now apply in_map.
  Qed.

  Lemma visual_keeps_widely : keeps_widely d = true ->
    forall s t, over (script_sigma d) s = true -> well_formed d s = true -> In t (f s) ->
    well_formed d t = true.
  Proof.
    intros K s t Hs Hw Ht. apply accepts_spec in Hw. apply accepts_spec. unfold keeps_widely in K.
    apply if_false in K as [K1 K]. apply if_false in K as [K2 K]. apply if_false in K as [K3 K].
    apply if_false in K as [K4 K]. apply if_false in K as [K5 K]. apply if_false in K as [K6 K].
    apply if_false in K as [K7 K]. apply if_false in K as [K8 K]. apply if_false in K as [K9 K].
    destruct (visual_stages s t Hs Ht) as (a & r & u & gs & Pa & Ea & Pu & Eu & -> & Hc).
    destruct (before_joiners_keep _ _ _ s a r u K2 K3 (incl_refl _) Pa Ea Pu) as (Mu & Wu);
      [now apply alphabet_over|exact (re_below_sound _ _ K1 _ Hw)|].
    assert (Wu' : within (wide_alphabet d) u) by (intros c Hcu; apply in_app_iff; left; auto).
    assert (Hin : forall r, In (Sub r) gs -> In r (spans (sd_preserve d))).
    { intros q Hq. exact (proj1 (ctx_cut_facts _ _ _ _ _ _ Hc) q Hq). }
    destruct (mark_keeps K4 [] u gs Hc Wu' Mu) as (Wo & Mo).
    destruct (delete_keeps K4 (outs gs) [] Wo Mo) as (Wd & Md). cbn [rev app] in Wo, Mo, Wd, Md.
    assert (Ms : matches (with_symbols d) (without_joiners (outs gs))).
    { apply (re_below_sound _ _ K8). apply lacking_sound; [exact Md|].
      apply lacks_iff. intros c Hcd Hg. unfold gone in Hg. apply in_app_iff in Hg as [Hg|Hg].
      - unfold without_joiners in Hcd. apply filter_In in Hcd as [_ Hn]. apply memN_In in Hg.
        now rewrite Hg in Hn.
      - rewrite lacks_iff in K5. exact (K5 c (Wd c Hcd) Hg). }
    rewrite (unjoined_outs gs K6 Hin) in Ms, Wd.
    assert (Wt : within (alphabet d) (flat_map kept gs)) by (apply kept_within; rewrite Eu; exact Wu).
    apply (re_below_sound _ _ K). apply lacking_sound.
    - apply (unmark_keeps K9 gs []); [exact Hin|intros c []|exact Wd| |exact Ms].
      intros c Hct. apply in_app_iff. left. auto.
    - apply lacks_iff. intros c Hct Hp. rewrite lacks_iff in K7. exact (K7 c (Wt c Hct) Hp).
  Qed.
End Visual.

(** ** The shipped scripts *)
Definition other_pairs (d : script_data) : list (str * str) :=
  pairs (sd_nfc d) ++ pairs (sd_reading_norm d).
Definition all_pairs (d : script_data) : list (str * str) :=
  visual_pairs d ++ joiner_pairs ++ pairs (sd_reading_norm d).
Definition keeps_everything (d : script_data) : bool := keeps_all d (alphabet d) (all_pairs d).
Definition keeps_in_parts (d : script_data) : bool :=
  if keeps_all d (alphabet d) (other_pairs d) then keeps_widely d else false.

(** Here the language itself is kept by each step, in the others the wider one. *)
Definition steady_scripts : list script_data :=
  [data_Beng; data_Bugi; data_Gujr; data_Guru; data_Knda; data_Lepc; data_Limb; data_Mtei;
   data_Newa; data_Orya; data_Sinh; data_Sylo; data_Takr; data_Telu; data_Tglg; data_Thaa].
Definition parted_scripts : list script_data := [data_Deva; data_Taml; data_Tirh].

Lemma steady_ok : forallb keeps_everything steady_scripts = true.
Proof. vm_cast_no_check (eq_refl true). Qed.
Lemma parted_ok : forallb keeps_in_parts parted_scripts = true.
Proof. vm_cast_no_check (eq_refl true). Qed.

Lemma faithful_shipped : incl faithful_scripts all_scripts.
Proof. unfold faithful_scripts, all_scripts. intros d H. simpl in *. tauto. Qed.
Lemma steady_shipped : incl steady_scripts all_scripts.
Proof. unfold steady_scripts, all_scripts. intros d H. simpl in *. tauto. Qed.
Lemma faithful_cases d : In d faithful_scripts -> In d steady_scripts \/ In d parted_scripts.
Proof. unfold faithful_scripts, steady_scripts, parted_scripts. intro H. simpl in *. tauto. Qed.

Lemma faithful_nfc_reading d : In d faithful_scripts ->
  exists all, keeps_all d (alphabet d) all = true /\
    incl (pairs (sd_nfc d)) all /\ incl (pairs (sd_reading_norm d)) all.
Proof.
  intro Hd. destruct (faithful_cases d Hd) as [H|H].
  - exists (all_pairs d). pose proof steady_ok as K. rewrite forallb_forall in K.
    split; [exact (K d H)|]. unfold all_pairs, visual_pairs.
    split; intros x Hx; rewrite !in_app_iff; auto.
  - exists (other_pairs d). pose proof parted_ok as K. rewrite forallb_forall in K.
    specialize (K d H). unfold keeps_in_parts in K. apply if_false in K as [K _].
    split; [exact K|]. unfold other_pairs. split; intros x Hx; rewrite !in_app_iff; auto.
Qed.

Lemma shipped_reading_ok d : In d all_scripts ->
  rules_ok (sd_reading_norm d) (script_sigma d) = true.
Proof.
  intro Hd. pose proof all_scripts_ok as H. rewrite forallb_forall in H. specialize (H d Hd).
  unfold script_ok in H. now apply andb_true_iff in H as [_ H].
Qed.

Lemma nfc_keeps ns d f : In d faithful_scripts -> script_nfc ns d = Some f ->
  forall s t, over (script_sigma d) s = true -> well_formed d s = true -> In t (f s) ->
  well_formed d t = true.
Proof.
  intros Hd Hf. destruct (faithful_nfc_reading d Hd) as (all & K & I1 & _).
  apply (rules_keep ns d (sd_nfc d) all f); [|exact Hf|exact K|exact I1].
  exact (proj1 (shipped_parts d (faithful_shipped d Hd))).
Qed.

Lemma reading_keeps ns d f : In d faithful_scripts -> script_reading_norm ns d = Some f ->
  forall s t, over (script_sigma d) s = true -> well_formed d s = true -> In t (f s) ->
  well_formed d t = true.
Proof.
  intros Hd Hf. destruct (faithful_nfc_reading d Hd) as (all & K & _ & I2).
  apply (rules_keep ns d (sd_reading_norm d) all f); [|exact Hf|exact K|exact I2].
  exact (shipped_reading_ok d (faithful_shipped d Hd)).
Qed.

Lemma steady_keeps ns d f : In d steady_scripts -> script_visual_norm ns is_mark d = Some f ->
  forall s t, over (script_sigma d) s = true -> well_formed d s = true -> In t (f s) ->
  well_formed d t = true.
Proof.
  intros Hd Hf. pose proof steady_ok as K. rewrite forallb_forall in K.
  apply (visual_keeps ns d f (steady_shipped d Hd) Hf (all_pairs d) (K d Hd));
    unfold all_pairs; intros x Hx; rewrite !in_app_iff; auto.
Qed.

Lemma visual_norm_keeps ns d f : In d faithful_scripts -> script_visual_norm ns is_mark d = Some f ->
  forall s t, over (script_sigma d) s = true -> well_formed d s = true -> In t (f s) ->
  well_formed d t = true.
Proof.
  intros Hd Hf s t Hs Hw Ht. destruct (faithful_cases d Hd) as [H|H].
  - exact (steady_keeps ns d f H Hf s t Hs Hw Ht).
  - pose proof parted_ok as K. rewrite forallb_forall in K. specialize (K d H).
    unfold keeps_in_parts in K. apply if_false in K as [_ K].
    exact (visual_keeps_widely ns d f (faithful_shipped d Hd) Hf K s t Hs Hw Ht).
Qed.

(** ** Malayalam *)

(** Chillu N with the sign E and the sign AA with anusvara are accepted side by
    side, but the two signs become the sign O. *)
Definition mlym_text : str := [3451; 3398; 3390; 3330]%N.
Definition mlym_result : str := [3451; 3402; 3330]%N.
(** The sign U with virama is accepted, virama alone is not. *)
Definition mlym_sign : str := [3393; 3405]%N.
Definition mlym_virama : str := [3405]%N.

Definition gives (f : option fst_t) (s t : str) : bool :=
  match f with Some g => match g s with [u] => str_eqb t u | _ => false end | None => false end.

Lemma rules_give ns d rs s t f : rules_ok rs (script_sigma d) = true ->
  over (script_sigma d) s = true -> gives (fst_from_rules (fun _ => 1) rs (script_sigma d)) s t = true ->
  fst_from_rules ns rs (script_sigma d) = Some f -> f s = [t].
Proof.
  intros Hok Hs H Hf. unfold gives in H.
  destruct (fst_from_rules (fun _ => 1) rs (script_sigma d)) as [g|] eqn:Eg; [|discriminate].
  rewrite (same_rules ns (fun _ => 1) rs _ f g Hok Hf Eg s Hs).
  destruct (g s) as [|u [|]]; try discriminate. apply str_eqb_eq in H. now subst.
Qed.

Lemma mlym_shipped : In data_Mlym all_scripts.
Proof. unfold all_scripts. simpl. tauto. Qed.

Lemma mlym_nfc : exists s t, over (script_sigma data_Mlym) s = true /\ joiner_free s /\
  well_formed data_Mlym s = true /\ well_formed data_Mlym t = false /\
  (forall ns f, script_nfc ns data_Mlym = Some f -> f s = [t]) /\
  (forall ns f, script_visual_norm ns is_mark data_Mlym = Some f -> f s = [t]).
Proof.
  assert (O : over (script_sigma data_Mlym) mlym_text = true) by (vm_compute; reflexivity).
  assert (P : plainb mlym_text = true) by (vm_compute; reflexivity).
  assert (W1 : well_formed data_Mlym mlym_text = true) by (vm_compute; reflexivity).
  assert (W2 : well_formed data_Mlym mlym_result = false) by (vm_compute; reflexivity).
  assert (G : gives (fst_from_rules (fun _ => 1) (sd_nfc data_Mlym) (script_sigma data_Mlym))
                mlym_text mlym_result = true) by (vm_compute; reflexivity).
  assert (V : moves data_Mlym mlym_text mlym_result mlym_result = true) by (vm_compute; reflexivity).
  exists mlym_text, mlym_result. split; [exact O|]. split; [exact (plainb_sound _ P)|].
  split; [exact W1|]. split; [exact W2|]. split.
  - intros ns f Hf.
    exact (rules_give ns data_Mlym (sd_nfc data_Mlym) mlym_text mlym_result f
             (proj1 (shipped_parts data_Mlym mlym_shipped)) O G Hf).
  - intros ns f Hf.
    exact (proj1 (proj2 (proj2 (moves_sound ns data_Mlym _ _ _ f mlym_shipped V Hf)))).
Qed.

Lemma mlym_reading : exists s t, over (script_sigma data_Mlym) s = true /\ joiner_free s /\
  well_formed data_Mlym s = true /\ well_formed data_Mlym t = false /\
  forall ns f, script_reading_norm ns data_Mlym = Some f -> f s = [t].
Proof.
  assert (O : over (script_sigma data_Mlym) mlym_sign = true) by (vm_compute; reflexivity).
  assert (P : plainb mlym_sign = true) by (vm_compute; reflexivity).
  assert (W1 : well_formed data_Mlym mlym_sign = true) by (vm_compute; reflexivity).
  assert (W2 : well_formed data_Mlym mlym_virama = false) by (vm_compute; reflexivity).
  assert (G : gives (fst_from_rules (fun _ => 1) (sd_reading_norm data_Mlym) (script_sigma data_Mlym))
                mlym_sign mlym_virama = true) by (vm_compute; reflexivity).
  exists mlym_sign, mlym_virama. split; [exact O|]. split; [exact (plainb_sound _ P)|].
  split; [exact W1|]. split; [exact W2|].
  intros ns f Hf.
  exact (rules_give ns data_Mlym (sd_reading_norm data_Mlym) mlym_sign mlym_virama f
           (shipped_reading_ok data_Mlym mlym_shipped) O G Hf).
Qed.
