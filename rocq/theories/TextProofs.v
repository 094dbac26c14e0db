(** Line normalization and literal text. *)
From Verif Require Import Base RuleModel VisualModel ScriptData WellformedModel ScriptModel ScriptTables
  Utf8Model ByteModel TextModel TextSpec.

(** ** The pattern *)
Definition tk (c : N) : tok := if memN c re_special then Esc c else Plain c.

Lemma special_not_alnum c : memN c re_special = true -> alnum c = false.
Proof.
  intros H. apply memN_spec in H. unfold re_special in H. cbn [In] in H.
  repeat (destruct H as [<-|H]; [reflexivity|]). contradiction.
Qed.

Lemma tk_literal c : literal (tk c) = Some c.
Proof.
  unfold tk. destruct (memN c re_special) eqn:E; cbn [literal]; auto.
  rewrite special_not_alnum by auto. reflexivity.
Qed.

Lemma tk_plain c d : memN d re_special = true -> is_plain d (tk c) = false.
Proof.
  intros H. unfold tk. destruct (memN c re_special) eqn:E; cbn [is_plain]; auto.
  apply N.eqb_neq. intros ->. congruence.
Qed.

Lemma tokens_escape s rest : tokens false (re_escape s ++ rest)
  = option_map (app (map tk s)) (tokens false rest).
Proof.
  induction s as [|c s IH].
  - cbn [re_escape flat_map app map]. destruct (tokens false rest); reflexivity.
  - unfold re_escape in *. cbn [flat_map map]. unfold tk at 1. rewrite <- app_assoc.
    destruct (memN c re_special) eqn:E.
    + cbn [app tokens]. change (92 =? 92)%N with true. cbv iota. rewrite IH.
      destruct (tokens false rest); reflexivity.
    + cbn [app tokens]. destruct (N.eqb_spec c 92) as [->|_]; [discriminate E|]. rewrite IH.
      destruct (tokens false rest); reflexivity.
Qed.

Lemma class_items_tk s : forall first, (first = false \/ s <> []) ->
  class_items first (map tk s ++ [Plain 93; Plain 43]%N)
  = Some (map (fun c => (c, c)) s, [Plain 43%N]).
Proof.
  induction s as [|c s IH]; intros first H.
  - destruct H as [->|H]; [reflexivity|congruence].
  - cbn [map app class_items]. rewrite (tk_plain c 93) by reflexivity. cbn [andb].
    rewrite tk_literal.
    assert (Hd : forall X, match map tk s ++ [Plain 93; Plain 43]%N with
                 | [] => None
                 | d :: ts2 => if is_plain 45 d then X ts2
                   else option_map (fun q => ((c, c) :: fst q, snd q))
                          (class_items false (map tk s ++ [Plain 93; Plain 43]%N))
                 end = option_map (fun q => ((c, c) :: fst q, snd q))
                          (class_items false (map tk s ++ [Plain 93; Plain 43]%N))).
    { intros X. destruct s as [|d s]; [reflexivity|]. cbn [map app].
      rewrite (tk_plain d 45) by reflexivity. reflexivity. }
    rewrite Hd, IH by auto. reflexivity.
Qed.

Lemma compile_ignore ignore : ignore <> [] ->
  compile_class (accept_pat ignore) = Some (map (fun c => (c, c)) ignore).
Proof.
  intros H. unfold compile_class, accept_pat.
  change (tokens false ([91; 94]%N ++ re_escape ignore ++ [93; 43]%N))
    with (option_map (cons (Plain 91%N)) (option_map (cons (Plain 94%N))
            (tokens false (re_escape ignore ++ [93; 43]%N)))).
  rewrite tokens_escape. change (tokens false [93; 43]%N) with (Some [Plain 93; Plain 43]%N).
  cbn [option_map]. change (is_plain 91 (Plain 91) && is_plain 94 (Plain 94)) with true. cbv iota.
  rewrite class_items_tk by auto. reflexivity.
Qed.

Lemma compile_nothing : compile_class (accept_pat []) = None.
Proof. reflexivity. Qed.

Lemma matched_spec ignore c : matched (map (fun c => (c, c)) ignore) c = true <-> ~ In c ignore.
Proof.
  unfold matched. rewrite negb_true_iff. rewrite <- not_true_iff_false, existsb_exists.
  split; intros H H'; apply H.
  - exists (c, c). split; [apply in_map_iff; eauto|]. cbn [fst snd]. rewrite N.leb_refl. reflexivity.
  - destruct H' as (r & Hr & E). apply in_map_iff in Hr as (d & <- & Hd). cbn [fst snd] in E.
    apply andb_true_iff in E as [E1 E2]. apply N.leb_le in E1, E2. replace c with d by lia. exact Hd.
Qed.

Lemma class_spec ignore : ignore <> [] -> exists l, compile_class (accept_pat ignore) = Some l /\
  forall c, matched l c = true <-> ~ In c ignore.
Proof. intros H. eexists. split; [apply compile_ignore; auto|]. intros; apply matched_spec. Qed.

(** ** Substitution *)
Section Sub.
  Variable p : N -> bool.
  Variable word : str -> res str.

  Lemma sub_skip k s : sub p word k s = sub p word 0 (skipn k s).
  Proof.
    revert k. induction s as [|c s IH]; intros [|k]; try reflexivity. cbn [sub skipn]. apply IH.
  Qed.

  Lemma longest_app w s : forallb p w = true -> (match s with [] => True | c :: _ => p c = false end) ->
    longest p (w ++ s) = w.
  Proof.
    induction w as [|c w IH]; intros Hw Hs; cbn [app].
    - destruct s as [|c s]; [reflexivity|]. cbn [longest]. rewrite Hs. reflexivity.
    - cbn [forallb] in Hw. apply andb_true_iff in Hw as [Hc Hw]. cbn [longest]. rewrite Hc, IH; auto.
  Qed.

  Lemma sub_word w s : w <> [] -> forallb p w = true -> (match s with [] => True | c :: _ => p c = false end) ->
    sub p word 0 (w ++ s) = bind (word w) (fun r => bind (sub p word 0 s) (fun t => Ok (r ++ t))).
  Proof.
    intros Hne Hw Hs. destruct w as [|c w]; [congruence|].
    pose proof (longest_app (c :: w) s Hw Hs) as EL. cbn [app] in EL |- *. cbn [sub]. rewrite EL.
    cbn [forallb] in Hw. apply andb_true_iff in Hw as [Hc _]. rewrite Hc.
    rewrite sub_skip. cbn [length]. rewrite Nat.sub_succ, Nat.sub_0_r, skipn_app, skipn_all, Nat.sub_diag.
    reflexivity.
  Qed.

  Lemma sub_gap c s : p c = false -> sub p word 0 (c :: s) = bind (sub p word 0 s) (fun t => Ok (c :: t)).
  Proof. intros H. cbn [sub]. rewrite H. reflexivity. Qed.
End Sub.

Fixpoint result (word : str -> res str) (gs : list piece) : res str :=
  match gs with
  | [] => Ok []
  | Gap c :: gs' => bind (result word gs') (fun t => Ok (c :: t))
  | Word w :: gs' => bind (word w) (fun r => bind (result word gs') (fun t => Ok (r ++ t)))
  end.

Lemma result_ok word gs t : result word gs = Ok t <-> replaced word gs t.
Proof.
  split.
  - revert t. induction gs as [|[c|w] gs IH]; cbn [result]; intros t H.
    + injection H as <-. constructor.
    + destruct (result word gs) as [u|e]; [|discriminate]. injection H as <-. constructor; auto.
    + destruct (word w) as [r|e] eqn:E; [|discriminate]. cbn [bind] in H.
      destruct (result word gs) as [u|e]; [|discriminate]. injection H as <-. constructor; auto.
  - induction 1 as [|c gs t H IH|w r gs t E H IH]; cbn [result]; auto.
    + rewrite IH. reflexivity.
    + rewrite E. cbn [bind]. rewrite IH. reflexivity.
Qed.

Lemma result_raise word gs e : result word gs = Raise e <-> rejected word gs e.
Proof.
  split.
  - induction gs as [|[c|w] gs IH]; cbn [result]; intros H; [discriminate| |].
    + destruct (result word gs) as [u|e']; [discriminate|]. injection H as <-. constructor; auto.
    + destruct (word w) as [r|e'] eqn:E.
      * cbn [bind] in H. destruct (result word gs) as [u|e'']; [discriminate|]. injection H as <-.
        eapply j_later; eauto.
      * injection H as <-. apply j_here; auto.
  - induction 1 as [c gs e H IH|w gs e E|w r gs e E H IH]; cbn [result].
    + rewrite IH. reflexivity.
    + rewrite E. reflexivity.
    + rewrite E. cbn [bind]. rewrite IH. reflexivity.
Qed.

Lemma cut_tail ignore g gs line : cut ignore line (g :: gs) -> cut ignore (flat_map text_of gs) gs.
Proof.
  intros (_ & H2 & H3). split; auto. split; [|inversion H3; auto].
  destruct g as [c|w]; cbn [words_apart] in H2; auto. destruct gs as [|[d|v] gs]; cbn [words_apart]; auto; contradiction.
Qed.

Lemma sub_cut ignore word p : (forall c, p c = true <-> ~ In c ignore) -> forall gs line,
  cut ignore line gs -> sub p word 0 line = result word gs.
Proof.
  intros Hp. induction gs as [|g gs IH]; intros line H.
  - destruct H as (-> & _). reflexivity.
  - pose proof (IH _ (cut_tail _ _ _ _ H)) as IHt. destruct H as (-> & H2 & H3). inversion H3 as [|g' gs' Hg HF]; subst.
    destruct g as [c|w]; cbn [flat_map text_of result].
    + cbn [app]. rewrite sub_gap, IHt; [reflexivity|].
      destruct (p c) eqn:E; auto. apply Hp in E. contradiction.
    + destruct Hg as [Hne Hw]. rewrite sub_word; auto.
      * rewrite IHt. reflexivity.
      * apply forallb_forall. intros c Hc. apply Hp; auto.
      * destruct gs as [|[d|v] gs]; cbn [flat_map text_of app]; auto.
        -- inversion HF as [|g' gs' Hd _]; subst. destruct (p d) eqn:E; auto. apply Hp in E. contradiction.
        -- cbn [words_apart] in H2. contradiction.
Qed.

Lemma wordwise ignore word line gs : ignore <> [] -> cut ignore line gs ->
  exists r, apply_on_line ignore word line = Some r /\
    (forall t, r = Ok t <-> replaced word gs t) /\ (forall e, r = Raise e <-> rejected word gs e).
Proof.
  intros Hi H. unfold apply_on_line. rewrite (compile_ignore ignore Hi). eexists. split; [reflexivity|].
  rewrite (sub_cut ignore word _ (matched_spec ignore) gs line H).
  split; intros; [apply result_ok|apply result_raise].
Qed.

Lemma cut_exists ignore line : exists gs, cut ignore line gs.
Proof.
  induction line as [|c line (gs & E & H2 & H3)].
  - exists []. repeat split; constructor.
  - destruct (in_dec N.eq_dec c ignore) as [Hc|Hc].
    + exists (Gap c :: gs). split; [cbn [flat_map text_of]; rewrite <- E; reflexivity|]. split; auto.
    + destruct gs as [|[d|w] gs].
      * exists [Word [c]]. split; [rewrite E; reflexivity|]. split; [exact I|]. constructor; [|constructor].
        split; [discriminate|]. intros x [<-|[]]; auto.
      * exists (Word [c] :: Gap d :: gs). split; [rewrite E; reflexivity|]. split; [exact H2|]. constructor; auto.
        split; [discriminate|]. intros x [<-|[]]; auto.
      * exists (Word (c :: w) :: gs). split; [rewrite E; reflexivity|]. inversion H3 as [|g' gs' Hw HF]; subst. split.
        -- destruct gs as [|[d|v] gs]; cbn [words_apart] in *; auto.
        -- constructor; auto. destruct Hw as [_ Hw]. split; [discriminate|]. intros x [<-|Hx]; auto.
Qed.

(** Uniqueness: apply the substitution to the identity that records pieces. *)
Lemma longest_piece ignore p : (forall c, p c = true <-> ~ In c ignore) -> forall w gs,
  Forall (fun g => match g with Gap c => In c ignore
                   | Word w => w <> [] /\ forall c, In c w -> ~ In c ignore end) (Word w :: gs) ->
  words_apart (Word w :: gs) -> longest p (w ++ flat_map text_of gs) = w.
Proof.
  intros Hp w gs H3 H2. inversion H3 as [|g' gs' Hg HF]; subst. destruct Hg as [Hne Hw]. apply longest_app.
  - apply forallb_forall. intros c Hc. apply Hp; auto.
  - destruct gs as [|[d|v] gs]; cbn [flat_map text_of app]; auto.
    + inversion HF as [|g' gs' Hd _]; subst. destruct (p d) eqn:E; auto. apply Hp in E. contradiction.
    + cbn [words_apart] in H2. contradiction.
Qed.

Lemma cut_unique ignore gs1 : forall line gs2, cut ignore line gs1 -> cut ignore line gs2 -> gs1 = gs2.
Proof.
  set (p := fun c => if in_dec N.eq_dec c ignore then false else true).
  assert (Hp : forall c, p c = true <-> ~ In c ignore).
  { intros c. unfold p. destruct (in_dec N.eq_dec c ignore); split; intros; auto; congruence. }
  clearbody p. induction gs1 as [|g gs1 IH]; intros line gs2 H1 H2.
  - destruct H1 as (-> & _). destruct H2 as (E & _ & H3). destruct gs2 as [|[c|w] gs2]; auto; [discriminate|].
    inversion H3 as [|g' gs' Hg _]; subst. destruct Hg as [Hw _]. destruct w; [congruence|discriminate].
  - pose proof (cut_tail _ _ _ _ H1) as T1. destruct H1 as (E1 & A1 & F1).
    destruct gs2 as [|g2 gs2].
    + destruct H2 as (E2 & _ & _). rewrite E2 in E1. destruct g as [c|w]; [discriminate|].
      inversion F1 as [|g' gs' Hg _]; subst. destruct Hg as [Hw _]. destruct w; [congruence|discriminate].
    + pose proof (cut_tail _ _ _ _ H2) as T2. destruct H2 as (E2 & A2 & F2).
      rewrite E2 in E1. cbn [flat_map] in E1.
      assert (G : g2 = g).
      { pose proof F1 as F1'. pose proof F2 as F2'. inversion F1' as [|x1 y1 G1 _]; inversion F2' as [|x2 y2 G2 _]; subst.
        destruct g as [c|w], g2 as [d|v]; cbn [text_of app] in E1.
        - injection E1 as -> _. reflexivity.
        - destruct v as [|x v]; [destruct G2; congruence|]. cbn [app] in E1. injection E1 as -> _.
          destruct G2 as [_ G2]. exfalso. apply (G2 c); [left; auto|exact G1].
        - destruct w as [|x w]; [destruct G1; congruence|]. cbn [app] in E1. injection E1 as <- _.
          destruct G1 as [_ G1]. exfalso. apply (G1 d); [left; auto|exact G2].
        - f_equal. rewrite <- (longest_piece ignore p Hp v gs2 F2 A2), <- (longest_piece ignore p Hp w gs1 F1 A1).
          rewrite E1. reflexivity. }
      subst g2. f_equal. apply app_inv_head in E1. apply (IH (flat_map text_of gs1)); auto.
      rewrite <- E1. exact T2.
Qed.

(** ** Consequences *)
Lemma rejected_iff word gs : (exists e, rejected word gs e) <-> exists w e, In (Word w) gs /\ word w = Raise e.
Proof.
  split.
  - intros [e H]. induction H as [c gs e H (w & e' & Hw & E)|w gs e E|w r gs e E H (v & e' & Hv & E')].
    + exists w, e'. split; auto. right; auto.
    + exists w, e. split; auto. left; auto.
    + exists v, e'. split; auto. right; auto.
  - intros (w & e & Hw & E). induction gs as [|[c|v] gs IH]; [contradiction| |].
    + destruct Hw as [Hw|Hw]; [discriminate|]. destruct (IH Hw) as [e' H]. exists e'. constructor; auto.
    + destruct (word v) as [r|e'] eqn:Ev; [|exists e'; apply j_here; auto].
      destruct Hw as [Hw|Hw]; [injection Hw as ->; congruence|]. destruct (IH Hw) as [e'' H].
      exists e''. eapply j_later; eauto.
Qed.

Lemma raises_iff ignore word line : ignore <> [] ->
  ((exists e, apply_on_line ignore word line = Some (Raise e)) <->
   exists gs w e, cut ignore line gs /\ In (Word w) gs /\ word w = Raise e).
Proof.
  intros Hi. destruct (cut_exists ignore line) as [gs Hgs].
  destruct (wordwise ignore word line gs Hi Hgs) as (r & E & _ & Hr). rewrite E. split.
  - intros [e He]. injection He as ->. destruct (proj1 (rejected_iff word gs)) as (w & e' & H); [|eauto].
    exists e. apply Hr; auto.
  - intros (gs' & w & e & Hc & Hw & Ew). rewrite (cut_unique ignore gs' line gs Hc Hgs) in Hw.
    destruct (proj2 (rejected_iff word gs)) as [e' H]; [eauto|]. exists e'. f_equal. apply Hr; auto.
Qed.

Lemma only_ignored ignore word line : ignore <> [] -> (forall c, In c line -> In c ignore) ->
  apply_on_line ignore word line = Some (Ok line).
Proof.
  intros Hi H. assert (Hc : cut ignore line (map Gap line)).
  { clear Hi word. split; [|split].
    - clear H. induction line; cbn [map flat_map text_of app]; [auto|f_equal; auto].
    - clear H. induction line; cbn [map words_apart]; auto.
    - apply Forall_forall. intros g Hg. apply in_map_iff in Hg as (c & <- & Hc). auto. }
  destruct (wordwise ignore word line _ Hi Hc) as (r & E & Ho & _). rewrite E. f_equal. apply Ho.
  clear. induction line; cbn [map]; constructor; auto.
Qed.

(** If words are mapped to words and the word function is idempotent, so is the
    line function. *)
Lemma line_idempotent ignore word line t : ignore <> [] ->
  (forall w r, word w = Ok r -> r <> [] /\ (forall c, In c r -> ~ In c ignore) /\ word r = Ok r) ->
  apply_on_line ignore word line = Some (Ok t) -> apply_on_line ignore word t = Some (Ok t).
Proof.
  intros Hi Hw H. destruct (cut_exists ignore line) as [gs Hgs].
  destruct (wordwise ignore word line gs Hi Hgs) as (r & E & Ho & _). rewrite E in H. injection H as ->.
  assert (Hr : replaced word gs t) by (apply Ho; auto).
  assert (Hcut : exists gs', cut ignore t gs' /\ replaced word gs' t /\
            match gs, gs' with Word _ :: _, Word _ :: _ => True | Gap _ :: _, Gap _ :: _ => True
                             | [], [] => True | _, _ => False end).
  { clear E Ho. revert Hgs. generalize line. induction Hr as [|c gs t Hr IH|w r gs t Ew Hr IH]; intros l Hgs.
    - exists []. split; [|split; [constructor|exact I]]. repeat split; constructor.
    - destruct (IH _ (cut_tail _ _ _ _ Hgs)) as (gs' & (E' & A & F) & R & S).
      exists (Gap c :: gs'). split; [|split; [constructor; auto|exact I]].
      split; [cbn [flat_map text_of app]; f_equal; auto|]. split; [exact A|]. constructor; auto.
      destruct Hgs as (_ & _ & F0). inversion F0; auto.
    - destruct (IH _ (cut_tail _ _ _ _ Hgs)) as (gs' & (E' & A & F) & R & S).
      destruct (Hw w r Ew) as (Hne & Hni & Hid).
      exists (Word r :: gs'). split; [|split; [constructor; auto|exact I]].
      split; [cbn [flat_map text_of]; f_equal; auto|]. split; [|constructor; auto].
      destruct Hgs as (_ & A0 & _). destruct gs as [|[d|v] gs]; destruct gs' as [|[d'|v'] gs'];
        cbn [words_apart] in *; auto; contradiction. }
  destruct Hcut as (gs' & Hc & R & _).
  destruct (wordwise ignore word t gs' Hi Hc) as (r & E' & Ho' & _). rewrite E'. f_equal. apply Ho'; auto.
Qed.

(** ** Literal text *)
Lemma compile_escape generated odd s rest :
  compile generated odd Outside (pyn_escape s ++ rest)
  = cat_opt (Some s) (compile generated odd Outside rest).
Proof.
  induction s as [|c s IH].
  - cbn [pyn_escape flat_map app]. destruct (compile generated odd Outside rest); reflexivity.
  - unfold pyn_escape in *. cbn [flat_map]. rewrite <- app_assoc. destruct (memN c pyn_special) eqn:E.
    + cbn [app compile]. change (92 =? 91)%N with false. change (92 =? 93)%N with false.
      change (92 =? 92)%N with true. cbv iota. rewrite E, IH.
      destruct (compile generated odd Outside rest); reflexivity.
    + cbn [app compile].
      destruct (N.eqb_spec c 91) as [->|_]; [discriminate E|].
      destruct (N.eqb_spec c 93) as [->|_]; [discriminate E|].
      destruct (N.eqb_spec c 92) as [->|_]; [discriminate E|]. rewrite IH.
      destruct (compile generated odd Outside rest); reflexivity.
Qed.

Lemma escape_literal generated odd s : compile generated odd Outside (pyn_escape s) = Some s.
Proof.
  rewrite <- (app_nil_r (pyn_escape s)), compile_escape. cbn [compile cat_opt]. rewrite app_nil_r. reflexivity.
Qed.

Lemma plain_literal generated odd s : (forall c, In c s -> ~ In c pyn_special) ->
  compile generated odd Outside s = Some s.
Proof.
  intros H. assert (E : pyn_escape s = s).
  { unfold pyn_escape. induction s as [|c s IH]; auto. cbn [flat_map].
    rewrite (proj2 (memN_false c pyn_special)) by (apply H; left; auto). cbn [app]. f_equal.
    apply IH. intros; apply H; right; auto. }
  rewrite <- E at 1. apply escape_literal.
Qed.

Lemma apply_literal generated odd f s t :
  (apply_on_text generated odd f s = Ok t -> In t (f s)) /\
  (f s = [] <-> apply_on_text generated odd f s = Raise FstInputError) /\
  apply_on_text generated odd f s <> Raise FstStringCompilationError.
Proof.
  unfold apply_on_text. rewrite escape_literal. destruct (f s) as [|u l].
  - split; [discriminate|]. split; [tauto|discriminate].
  - split; [intros H; injection H as <-; left; auto|]. split; [split; discriminate|discriminate].
Qed.

Lemma accept_literal generated odd a s : (forall c, In c s -> ~ In c pyn_special) ->
  accept_text generated odd a s = Ok (a s).
Proof. intros H. unfold accept_text. rewrite plain_literal by auto. reflexivity. Qed.

(** Not literal with brackets: the wrong answer, and an exception. *)
Lemma accept_not_literal generated odd : exists a s,
  a s = false /\ accept_text generated odd a s = Ok true.
Proof. exists (fun s => str_eqb s [97]%N), [91; 57; 55; 93]%N. split; reflexivity. Qed.

Lemma accept_raises generated odd : exists s, forall a,
  accept_text generated odd a s = Raise FstStringCompilationError.
Proof. exists [91]%N. intros; reflexivity. Qed.

(** The Brahmic word normalizer, with the byte grammars the API loads: "[224][164][149]" is
    returned as a well-formed Devanagari word. *)
Definition bracket_word : str :=
  [91; 50; 50; 52; 93; 91; 49; 54; 52; 93; 91; 49; 52; 57; 93]%N.

Definition bracket_check (generated : str -> option (list N)) (odd : option N -> option (list N)) : bool :=
  match byte_script_visual_norm (fun _ => 0) (fun _ => false) data_Deva with
  | Some f =>
    match brahmic_word generated odd f (well_formed (byte_data data_Deva)) bracket_word with
    | Ok t => str_eqb t bracket_word
    | _ => false
    end && negb (well_formed (byte_data data_Deva) bracket_word)
  | None => false
  end.

Lemma bracket_accepted generated odd : exists d ns is_mn f w, In d all_scripts /\
  byte_script_visual_norm ns is_mn d = Some f /\
  well_formed (byte_data d) w = false /\
  brahmic_word generated odd f (well_formed (byte_data d)) w = Ok w.
Proof.
  assert (E : bracket_check generated odd = true) by (vm_compute; reflexivity).
  unfold bracket_check in E.
  destruct (byte_script_visual_norm (fun _ => 0) (fun _ => false) data_Deva) as [f|] eqn:Ef; [|discriminate].
  apply andb_true_iff in E as [E1 E2]. apply negb_true_iff in E2.
  destruct (brahmic_word generated odd f (well_formed (byte_data data_Deva)) bracket_word) as [t|] eqn:Ew;
    [|discriminate]. apply str_eqb_eq in E1. subst t.
  exists data_Deva, (fun _ => 0), (fun _ => false), f, bracket_word.
  split; [unfold all_scripts; cbn [In]; tauto|]. auto.
Qed.

(** Without brackets and backslashes a returned word is well-formed. *)
Lemma word_well_formed generated odd f a w t :
  brahmic_word generated odd f a w = Ok t -> (forall c, In c t -> ~ In c pyn_special) ->
  In t (f w) /\ a t = true.
Proof.
  unfold brahmic_word. intros H Ht.
  destruct (apply_on_text generated odd f w) as [n|e] eqn:E; [|discriminate]. cbn [bind] in H.
  destruct (accept_text generated odd a n) as [[]|e] eqn:Ea; try discriminate. cbn [bind] in H.
  injection H as <-. split; [apply (apply_literal generated odd f w n); exact E|].
  rewrite accept_literal in Ea by auto. injection Ea; auto.
Qed.

Lemma word_error generated odd f a w e : brahmic_word generated odd f a w = Raise e ->
  (forall t, In t (f w) -> forall c, In c t -> ~ In c pyn_special) ->
  (e = FstInputError /\ f w = []) \/ (e = IllFormedError /\ exists t, In t (f w) /\ a t = false).
Proof.
  unfold brahmic_word. intros H Ht. destruct (apply_on_text generated odd f w) as [n|e'] eqn:E.
  - destruct (apply_literal generated odd f w n) as (Hin & _). specialize (Hin E). cbn [bind] in H.
    rewrite accept_literal in H by (intros c Hc; eapply Ht; eauto). cbn [bind] in H.
    destruct (a n) eqn:Ea; [discriminate|]. injection H as <-. right. eauto.
  - cbn [bind] in H. injection H as <-. left. destruct (apply_literal generated odd f w []) as (_ & Hn & Hc).
    destruct e'; [split; auto; apply Hn; auto|contradiction|].
    exfalso. unfold apply_on_text in E. rewrite escape_literal in E. destruct (f w); discriminate.
Qed.

Lemma abjad_word_spec generated odd nfc visual w :
  (forall t, abjad_word generated odd nfc visual w = Ok t -> exists n, In n (nfc w) /\ In t (visual n)) /\
  (forall e, abjad_word generated odd nfc visual w = Raise e ->
     e = FstInputError /\ (nfc w = [] \/ exists n, In n (nfc w) /\ visual n = [])) /\
  (forall n t, nfc w = [n] -> visual n = [t] -> abjad_word generated odd nfc visual w = Ok t).
Proof.
  unfold abjad_word, apply_on_text. rewrite escape_literal. destruct (nfc w) as [|n l] eqn:E; cbn [bind].
  - split; [discriminate|]. split; [intros e H; injection H as <-; auto|discriminate].
  - rewrite escape_literal. destruct (visual n) as [|t l'] eqn:E'.
    + split; [discriminate|]. split; [|intros n' t H; injection H as -> ->; congruence].
      intros e H; injection H as <-. split; auto. right. exists n. split; [left|]; auto.
    + split; [intros t' H; injection H as <-; exists n; split; [left; auto|rewrite E'; left; auto]|].
      split; [discriminate|]. intros n' t' H; injection H as -> ->. rewrite E'. intros H; injection H as -> _. reflexivity.
Qed.
