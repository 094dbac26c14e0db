(** Splitting on white space. *)
From Verif Require Import Base Utf8Model Utf8Spec Utf8Arith Utf8Proofs DelimModel DelimSpec.

Lemma memN_In c l : memN c l = true <-> In c l.
Proof.
  unfold memN. rewrite existsb_exists. split.
  - intros (x & H & E). apply N.eqb_eq in E. subst. exact H.
  - intros H. exists c. split; [exact H|apply N.eqb_refl].
Qed.
Lemma memN_notIn c l : memN c l = false <-> ~ In c l.
Proof. rewrite <- memN_In. destruct (memN c l); split; congruence. Qed.

(** ** The words of a text *)
Lemma words_prepend (ws : N -> Prop) c text l : ws c -> words_of ws text l -> words_of ws (c :: text) l.
Proof.
  intros Hc H. inversion H as [g Hg|g w rest l' Hg Hw Hn Hr Hl]; subst.
  - apply words_none. constructor; auto.
  - change (c :: g ++ w ++ rest) with ((c :: g) ++ w ++ rest). apply words_cons; auto.
Qed.

Lemma words_stretch (ws : N -> Prop) a : Forall (fun c => ~ ws c) a -> a <> [] -> words_of ws a [a].
Proof.
  intros H Hn. rewrite <- (app_nil_r a) at 1. change (a ++ []) with ([] ++ a ++ []).
  apply words_cons; auto. apply words_none. constructor.
Qed.

Lemma ws_split (ws : N -> Prop) g w rest g' w' rest' : Forall ws g -> w <> [] -> Forall (fun c => ~ ws c) w ->
  (rest = [] \/ exists c r, rest = c :: r /\ ws c) ->
  Forall ws g' -> w' <> [] -> Forall (fun c => ~ ws c) w' ->
  (rest' = [] \/ exists c r, rest' = c :: r /\ ws c) ->
  g ++ w ++ rest = g' ++ w' ++ rest' -> w = w' /\ rest = rest'.
Proof.
  intros Hg. revert g'. induction Hg as [|x g Hx Hg IH]; intros g' Hw Hn Hr Hg' Hw' Hn' Hr' E.
  - destruct g' as [|y g'].
    + simpl in E. clear Hw Hw' Hg'. revert w' Hn' E. induction Hn as [|x w Hx Hn IH]; intros w' Hn' E.
      * destruct w' as [|y w']; [auto|]. exfalso. simpl in E. subst rest.
        inversion Hn'; subst. destruct Hr as [Hr|(c & r & Hr & Hc)]; [discriminate|].
        injection Hr as -> _. contradiction.
      * destruct w' as [|y w'].
        -- exfalso. simpl in E. destruct Hr' as [->|(c & r & -> & Hc)]; [discriminate|].
           injection E as -> _. contradiction.
        -- simpl in E. injection E as -> E. inversion Hn'; subst.
           destruct (IH w') as [-> ->]; auto.
    + exfalso. destruct w as [|z w]; [congruence|]. simpl in E. injection E as -> _.
      inversion Hn; inversion Hg'; subst. contradiction.
  - destruct g' as [|y g'].
    + exfalso. destruct w' as [|z w']; [congruence|]. simpl in E. injection E as <- _.
      inversion Hn'; subst. contradiction.
    + simpl in E. injection E as -> E. inversion Hg'; subst. apply (IH g'); auto.
Qed.

Lemma words_unique (ws : N -> Prop) text a b : words_of ws text a -> words_of ws text b -> a = b.
Proof.
  intros Ha. revert b. induction Ha as [g Hg|g w rest l Hg Hw Hn Hr Hl IH]; intros b Hb.
  - inversion Hb as [g' Hg' E|g' w' rest' l' Hg' Hw' Hn' Hr' Hl' E]; subst; auto. exfalso.
    destruct w' as [|c w']; [congruence|]. rewrite !Forall_app in Hg. destruct Hg as (_ & Hg & _).
    inversion Hg; inversion Hn'; subst. contradiction.
  - inversion Hb as [g' Hg' E|g' w' rest' l' Hg' Hw' Hn' Hr' Hl' E]; subst.
    + exfalso. destruct w as [|c w]; [congruence|]. rewrite !Forall_app in Hg'. destruct Hg' as (_ & Hg' & _).
      inversion Hg'; inversion Hn; subst. contradiction.
    + destruct (ws_split ws g' w' rest' g w rest) as [-> ->]; auto. f_equal. apply IH. exact Hl'.
Qed.

Lemma words_content (ws : N -> Prop) (f : N -> bool) text l :
  (forall c, f c = true <-> ~ ws c) -> words_of ws text l -> concat l = filter f text.
Proof.
  intros Hf H. induction H as [g Hg|g w rest l Hg Hw Hn Hr Hl IH].
  - induction Hg as [|c g Hc Hg IH]; auto. simpl. destruct (f c) eqn:E; [|exact IH].
    apply Hf in E. contradiction.
  - rewrite !filter_app. simpl. rewrite IH.
    replace (filter f g) with (@nil N).
    + simpl. f_equal. induction Hn as [|c w Hc Hn IHn]; auto. clear Hw. simpl.
      apply Hf in Hc. rewrite Hc. destruct w as [|d w]; [reflexivity|]. f_equal. apply IHn. discriminate.
    + clear -Hf Hg. induction Hg as [|c g Hc Hg IH]; auto. simpl. destruct (f c) eqn:E; [|exact IH].
      apply Hf in E. contradiction.
Qed.

(** ** Find *)
Section Delims.
  Variable ds : list N.
  Notation ws := (fun c => In c ds).

  Lemma find_all fuel : forall off cs ps s, spells cs ps s -> Forall (fun c => ~ ws c) cs ->
    length s <= fuel -> find_fuel ds fuel off s = Got (off + length s, 0).
  Proof.
    induction fuel as [|f IH]; intros off cs ps s [HF ->] Hn Hl.
    - destruct (concat ps) as [|b s]; [|simpl in Hl; lia]. simpl. rewrite Nat.add_0_r. reflexivity.
    - destruct HF as [|c p cs ps Hc HF].
      + simpl. rewrite Nat.add_0_r. reflexivity.
      + cbn [concat] in *. pose proof (encodes_ne c p Hc) as Hp.
        inversion Hn as [|? ? Hc' Hn']; subst.
        pose proof (validate_encodes c p (concat ps) Hc) as V.
        destruct (p ++ concat ps) as [|b t] eqn:E.
        * destruct p; [congruence|discriminate].
        * cbn [find_fuel]. rewrite V. cbv beta iota zeta.
          apply memN_notIn in Hc'. rewrite Hc'. rewrite <- E in *. rewrite app_length in *.
          rewrite (IH _ cs ps (concat ps)); auto.
          -- f_equal. f_equal. lia.
          -- split; auto.
          -- destruct p; [congruence|]. simpl in *. lia.
  Qed.

  Lemma find_first fuel : forall off a pa c p rest, Forall2 encodes a pa -> Forall (fun c => ~ ws c) a ->
    encodes c p -> ws c -> length (concat pa ++ p ++ rest) <= fuel ->
    find_fuel ds fuel off (concat pa ++ p ++ rest) = Got (off + length (concat pa), length p).
  Proof.
    induction fuel as [|f IH]; intros off a pa c p rest HF Hn Hc Hw Hl.
    - exfalso. rewrite !app_length in Hl. pose proof (encodes_ne c p Hc). destruct p; [congruence|].
      simpl in Hl. lia.
    - destruct HF as [|x q a pa Hx HF].
      + simpl. pose proof (encodes_ne c p Hc) as Hp. pose proof (validate_encodes c p rest Hc) as V.
        destruct (p ++ rest) as [|b t] eqn:E.
        * destruct p; [congruence|discriminate].
        * cbn [find_fuel]. rewrite V. cbv beta iota zeta. apply memN_In in Hw. rewrite Hw.
          rewrite <- E, app_length. f_equal. f_equal; lia.
      + cbn [concat] in *. rewrite <- app_assoc in *. pose proof (encodes_ne x q Hx) as Hq.
        inversion Hn as [|? ? Hx' Hn']; subst.
        pose proof (validate_encodes x q (concat pa ++ p ++ rest) Hx) as V.
        destruct (q ++ concat pa ++ p ++ rest) as [|b t] eqn:E.
        * destruct q; [congruence|discriminate].
        * cbn [find_fuel]. rewrite V. cbv beta iota zeta. apply memN_notIn in Hx'. rewrite Hx'.
          rewrite <- E in *. rewrite app_length in Hl |- *. rewrite (IH _ a pa c p rest); auto.
          -- f_equal. f_equal. rewrite (app_length q). lia.
          -- destruct q; [congruence|]. simpl in *. lia.
  Qed.

  Lemma first_ws cs : Forall (fun c => ~ ws c) cs \/
    exists a c b, cs = a ++ c :: b /\ Forall (fun c => ~ ws c) a /\ ws c.
  Proof.
    induction cs as [|x cs IH]; [left; constructor|].
    destruct (in_dec N.eq_dec x ds) as [H|H].
    - right. exists [], x, cs. auto.
    - destruct IH as [IH|(a & c & b & -> & Ha & Hc)]; [left; auto|].
      right. exists (x :: a), c, b. auto.
  Qed.

  Lemma encoding_empty cs ps s : spells cs ps s -> SkipEmpty s = match cs with [] => false | _ => true end.
  Proof.
    intros [HF ->]. destruct HF as [|c p cs ps Hc HF]; [reflexivity|].
    pose proof (encodes_ne c p Hc). destruct p; [congruence|reflexivity].
  Qed.

  Lemma split_fuel_words fuel : forall cs ps s, spells cs ps s -> length s < fuel ->
    exists l ts, words_of ws cs l /\ str_split_fuel ds SkipEmpty fuel s = Got ts /\ Forall2 encoding l ts.
  Proof.
    induction fuel as [|f IH]; intros cs ps s Hs Hl; [lia|].
    destruct (first_ws cs) as [Hn|(a & c & b & -> & Ha & Hc)].
    - cbn [str_split_fuel]. unfold find. rewrite (find_all (length s) 0 cs ps s Hs Hn (le_n _)).
      cbn [Nat.add]. rewrite Nat.eqb_refl, firstn_all. rewrite (encoding_empty cs ps s Hs).
      destruct cs as [|c cs].
      + exists [], []. split; [apply words_none; constructor|]. split; [reflexivity|constructor].
      + exists [c :: cs], [s]. split; [apply words_stretch; [exact Hn|discriminate]|].
        split; [reflexivity|]. apply Forall2_cons; [exists ps; exact Hs|constructor].
    - destruct Hs as [HF ->]. apply Forall2_app_inv_l in HF as (pa & pr & HFa & HFr & ->).
      inversion HFr as [|? p ? pb Hp HFb]; subst. rewrite concat_app in *. cbn [concat] in *.
      cbn [str_split_fuel]. unfold find.
      rewrite (find_first (length (concat pa ++ p ++ concat pb)) 0 a pa c p (concat pb) HFa Ha Hp Hc (le_n _)).
      cbn [Nat.add]. pose proof (encodes_ne c p Hp) as Hne.
      replace (Nat.eqb (length (concat pa)) (length (concat pa ++ p ++ concat pb))) with false.
      2:{ symmetry. apply Nat.eqb_neq. rewrite !app_length. destruct p; [congruence|]. simpl. lia. }
      rewrite firstn_app, Nat.sub_diag, firstn_all. cbn [firstn]. rewrite app_nil_r.
      replace (skipn (length (concat pa) + length p) (concat pa ++ p ++ concat pb)) with (concat pb).
      2:{ rewrite app_assoc, <- app_length, skipn_app, skipn_all, Nat.sub_diag. reflexivity. }
      destruct (IH b pb (concat pb)) as (l & ts & Hl1 & Hl2 & Hl3).
      + split; auto.
      + rewrite !app_length in Hl. destruct p; [congruence|]. simpl in Hl. lia.
      + rewrite Hl2. rewrite (encoding_empty a pa (concat pa)) by (split; auto).
        pose proof (words_prepend ws c b l Hc Hl1) as Hw.
        destruct a as [|x a].
        * exists l, ts. auto.
        * exists ((x :: a) :: l), (concat pa :: ts). split; [|split; [reflexivity|]].
          -- change ((x :: a) ++ c :: b) with ([] ++ (x :: a) ++ (c :: b)). apply words_cons; auto.
             ++ discriminate.
             ++ right. eauto.
          -- apply Forall2_cons; [exists pa; split; auto|exact Hl3].
  Qed.

  (** ** Malformed text *)
  Lemma find_valid fuel : forall off s o len, find_fuel ds fuel off s = Got (o, len) ->
    exists d cs ps, o = off + d /\ spells cs ps (firstn (d + len) s) /\ d + len <= length s /\
      (d = length s \/ 0 < len).
  Proof.
    induction fuel as [|f IH]; intros off s o len H.
    - destruct s; [|discriminate]. injection H as <- <-. exists 0, [], [].
      split; [lia|]. split; [split; [constructor|reflexivity]|]. simpl. auto.
    - destruct s as [|b0 s0].
      + injection H as <- <-. exists 0, [], []. split; [lia|]. split; [split; [constructor|reflexivity]|].
        simpl. auto.
      + cbn [find_fuel] in H. remember (b0 :: s0) as s eqn:Es. clear Es.
        destruct (validate_next s) as [[c rest]|] eqn:V; [|discriminate].
        apply validate_inv in V as (p & Hp & ->). pose proof (encodes_ne c p Hp) as Hne.
        assert (0 < length p) as Lp by (destruct p; [congruence|simpl; lia]).
        rewrite app_length in H. replace (length p + length rest - length rest) with (length p) in H by lia.
        destruct (memN c ds).
        * injection H as <- <-. exists 0, [c], [p]. split; [lia|]. split; [|split].
          -- cbn [Nat.add]. rewrite firstn_app, Nat.sub_diag, firstn_all. cbn [firstn]. rewrite app_nil_r.
             split; [constructor; [exact Hp|constructor]|simpl; rewrite app_nil_r; reflexivity].
          -- rewrite app_length. lia.
          -- right. exact Lp.
        * apply IH in H as (d & cs & ps & -> & [HF E] & Hd & Hlast).
          exists (length p + d), (c :: cs), (p :: ps). split; [lia|]. split; [|split].
          -- rewrite <- Nat.add_assoc, firstn_app_2, E. split; [constructor; auto|reflexivity].
          -- rewrite app_length. lia.
          -- rewrite app_length. destruct Hlast; [left; lia|right; auto].
  Qed.

  Lemma find_not_stuck fuel : forall off s, length s <= fuel -> find_fuel ds fuel off s <> Stuck.
  Proof.
    induction fuel as [|f IH]; intros off s Hl.
    - destruct s; [discriminate|simpl in Hl; lia].
    - destruct s as [|b0 s0]; [discriminate|]. cbn [find_fuel]. remember (b0 :: s0) as s eqn:Es. clear Es.
      destruct (validate_next s) as [[c rest]|] eqn:V; [|discriminate].
      apply validate_inv in V as (p & Hp & ->). pose proof (encodes_ne c p Hp) as Hne.
      destruct (memN c ds); [discriminate|]. apply IH. rewrite app_length in Hl.
      destruct p; [congruence|]. simpl in Hl. lia.
  Qed.

  Lemma split_got fuel keep : forall s ts, str_split_fuel ds keep fuel s = Got ts -> well_formed_utf8 s.
  Proof.
    induction fuel as [|f IH]; intros s ts H; [discriminate|]. cbn [str_split_fuel] in H.
    destruct (find ds s) as [| |[off len]] eqn:F; try discriminate.
    unfold find in F. apply find_valid in F as (d & cs & ps & -> & [HF E] & Hd & Hlast). cbn [Nat.add] in H.
    destruct (Nat.eqb_spec d (length s)) as [->|Hne].
    - assert (len = 0) as -> by lia. rewrite Nat.add_0_r, firstn_all in E. exists cs, ps. split; auto.
    - destruct (str_split_fuel ds keep f (skipn (d + len) s)) as [| |ts'] eqn:G; try discriminate.
      apply IH in G as (cs' & ps' & HF' & E'). exists (cs ++ cs'), (ps ++ ps'). split.
      + apply Forall2_app; auto.
      + rewrite concat_app, <- E, <- E'. symmetry. apply firstn_skipn.
  Qed.

  Lemma split_not_stuck fuel keep : forall s, length s < fuel -> str_split_fuel ds keep fuel s <> Stuck.
  Proof.
    induction fuel as [|f IH]; intros s Hl; [lia|]. cbn [str_split_fuel].
    destruct (find ds s) as [| |[off len]] eqn:F; try discriminate.
    - exfalso. revert F. apply find_not_stuck. auto.
    - unfold find in F. apply find_valid in F as (d & cs & ps & -> & _ & Hd & Hlast). cbn [Nat.add].
      destruct (Nat.eqb_spec d (length s)) as [->|Hne]; [discriminate|].
      assert (length (skipn (d + len) s) < f) as L.
      { rewrite skipn_length. destruct Hlast; lia. }
      specialize (IH _ L). destruct (str_split_fuel ds keep f (skipn (d + len) s)); congruence.
  Qed.
End Delims.

Lemma breaking_white_space c : In c kBreakingWhitespace <-> white_space c.
Proof.
  rewrite <- memN_In. unfold white_space, in_range. split.
  - intros H. apply memN_In in H. unfold kBreakingWhitespace in H. cbn [In] in H. lia.
  - intros H. apply memN_In. unfold kBreakingWhitespace. cbn [In]. lia.
Qed.

Lemma words_of_iff (p q : N -> Prop) text l : (forall c, p c <-> q c) -> words_of p text l -> words_of q text l.
Proof.
  intros E H. induction H as [g Hg|g w rest l Hg Hw Hn Hr Hl IH].
  - apply words_none. eapply Forall_impl; [|exact Hg]. intros c. apply E.
  - apply words_cons; auto.
    + eapply Forall_impl; [|exact Hg]. intros c. apply E.
    + eapply Forall_impl; [|exact Hn]. intros c Hc Hc'. apply Hc, E, Hc'.
    + destruct Hr as [Hr|(c & r & Hr & Hc)]; [auto|]. right. exists c, r. split; auto. apply E; auto.
Qed.

Lemma split_words cs s : encoding cs s -> exists l ts, words_of white_space cs l /\
  split_whitespace s = Got ts /\ Forall2 encoding l ts.
Proof.
  intros (ps & Hs). unfold split_whitespace.
  destruct (split_fuel_words kBreakingWhitespace (S (length s)) cs ps s Hs (Nat.lt_succ_diag_r _)) as (l & ts & H1 & H2 & H3).
  exists l, ts. split; [|auto]. eapply words_of_iff; [|exact H1]. apply breaking_white_space.
Qed.

Lemma split_malformed s : ~ well_formed_utf8 s <-> split_whitespace s = Throws.
Proof.
  unfold split_whitespace. split.
  - intros H. destruct (str_split_fuel kBreakingWhitespace SkipEmpty (S (length s)) s) eqn:E; auto; exfalso.
    + revert E. apply split_not_stuck. lia.
    + apply H. eapply split_got; eauto.
  - intros H (cs & ps & Hs).
    destruct (split_fuel_words kBreakingWhitespace (S (length s)) cs ps s Hs (Nat.lt_succ_diag_r _)) as (l & ts & _ & H2 & _).
    congruence.
Qed.

Lemma split_content cs s ts (f : N -> bool) : (forall c, f c = true <-> ~ white_space c) ->
  encoding cs s -> split_whitespace s = Got ts -> encoding (filter f cs) (concat ts).
Proof.
  intros Hf Hs Ht. destruct (split_words cs s Hs) as (l & ts' & Hw & E & HF).
  rewrite E in Ht. injection Ht as ->. rewrite <- (words_content _ f cs l Hf Hw).
  clear -HF. induction HF as [|w t l ts (ps & Hw & ->) HF (qs & IH & E)].
  - exists []. split; [constructor|reflexivity].
  - cbn [concat]. exists (ps ++ qs). split; [apply Forall2_app; auto|]. rewrite concat_app, E. reflexivity.
Qed.

Lemma all_whitespace : exists l, GetAllWhitespaceChars = Some l /\ NoDup l /\
  forall c, In c l <-> In c kBreakingWhitespace \/ In c kNonBreakingWhitespace.
Proof.
  eexists. split; [vm_compute; reflexivity|]. split.
  - repeat (apply NoDup_cons; [cbn [In]; intros H; repeat destruct H as [H|H]; try discriminate; auto|]). apply NoDup_nil.
  - intros c. unfold kBreakingWhitespace, kNonBreakingWhitespace. cbn [In]. lia.
Qed.
