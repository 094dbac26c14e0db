(** Words of letter names are read in one way; what the rule does to a word. *)
From Coq Require Import String Lia.
From Verif Require Import Base RuleModel RegexModel IsoModel AlignModel AlignSpec AlignProofs AlignMore NatModel NatSpec NatProofs NatBytes NatTyp NatTypMain NatMain NatRoman
  UniqueDecode AcronymModel AcronymSpec AcronymProofs.
Local Open Scope list_scope.

(** * Characters and pieces *)
Lemma names_inj a : forall b, bytes a = bytes b -> a = b.
Proof.
  unfold bytes. induction a as [|c a IH]; intros [|d b] E; cbn in E; try discriminate; auto.
  injection E as E1 E2. rewrite (IH b E2). f_equal. rewrite <- (Ascii.ascii_N_embedding c), <- (Ascii.ascii_N_embedding d). f_equal. exact E1.
Qed.
Lemma chars_sound : forall c, In c CHARS -> exists x r, bph c = x :: r /\ phoneme x = true /\ forallb phoneme r = true.
Proof.
  assert (H : forallb (fun c => match bph c with [] => false | x :: r => if phoneme x then forallb phoneme r else false end) CHARS = true) by (vm_compute; reflexivity).
  rewrite forallb_forall in H. intros c K. apply H in K. destruct (bph c) as [|x r]; [discriminate|]. destruct (phoneme x) eqn:E; [|discriminate]. eauto.
Qed.
Lemma phoneme_right l : forallb phoneme l = true -> forallb right_symbol l = true.
Proof. intros H. rewrite forallb_forall in *. intros t K. apply H in K. destruct t; try discriminate; reflexivity. Qed.
Lemma piece_eq c : piece_of c = Gr (bytes (btyp c)) :: Eq :: bph c.
Proof. unfold piece_of. rewrite bgr_symbol. reflexivity. Qed.
Definition known (ds : list bchar) : Prop := forall c, In c ds -> In c CHARS.
Notation pieces ds := (flat_map piece_of ds).
Lemma known_app a b : known (a ++ b) -> known a /\ known b.
Proof. intros H. split; intros c K; apply H; apply in_or_app; auto. Qed.
Lemma pieces_start ds t r : pieces ds = t :: r -> exists n, t = Gr n.
Proof. destruct ds as [|d ds]; [discriminate|]. cbn [flat_map]. rewrite piece_eq. cbn. intros H. injection H as <- _. eauto. Qed.
Lemma no_right_start t ds v : forallb right_symbol t = true -> pieces ds = t ++ v -> t = [].
Proof.
  destruct t as [|x t]; auto. intros H E. cbn in E. apply pieces_start in E. destruct E as [n ->]. discriminate.
Qed.
Lemma aligned_start ps w : aligned_names ps w -> ps <> [] -> exists n r, w = Gr n :: r.
Proof. intros H K. inversion H; subst; [congruence|]. eauto. Qed.

(** A match of a letter ends within the sounds of a character *)
Lemma cut ps : forall ds l v, known ds -> aligned_names ps l -> ps <> [] -> l ++ v = pieces ds ->
  exists ds1 ds2 r, ds = ds1 ++ ds2 /\ Forall2 (fun c p => In (btyp c) p) ds1 ps /\ v = r ++ pieces ds2 /\ forallb right_symbol r = true.
Proof.
  induction ps as [|p ps IH]; [congruence|]. intros ds l v Hk Hl _ E. inversion Hl as [|n q ps' r0 w Hn Hr Hw E1 E2]; subst.
  destruct ds as [|d ds]; [discriminate|]. cbn [flat_map] in E. rewrite piece_eq in E. cbn in E. injection E as En E. apply names_inj in En. subst n.
  assert (Kd : known ds) by (intros c K; apply Hk; right; auto).
  destruct (chars_sound d (Hk d (or_introl eq_refl))) as (x & r & Eb & Px & Pr).
  assert (Rb : forallb right_symbol (bph d) = true) by (apply phoneme_right; rewrite Eb; cbn; rewrite Px; exact Pr).
  destruct ps as [|p2 ps].
  - inversion Hw; subst. rewrite app_nil_r in E. apply app_eq_app in E. destruct E as [t [[E1 E2]|[E1 E2]]].
    + assert (Ht : forallb right_symbol t = true) by (rewrite E1, forallb_app in Hr; apply andb_prop in Hr; tauto).
      pose proof (no_right_start t ds v Ht E2) as ->. exists [d], ds, []. cbn. repeat split; auto.
    + assert (Ht : forallb right_symbol t = true) by (rewrite E1, forallb_app in Rb; apply andb_prop in Rb; tauto).
      exists [d], ds, t. repeat split; auto.
  - assert (E' : w ++ v = pieces ds).
    { rewrite <- app_assoc in E. destruct (aligned_start _ _ Hw ltac:(discriminate)) as (m & w' & Ew).
      apply app_eq_app in E. destruct E as [t [[E1 E2]|[E1 E2]]].
      - assert (Ht : forallb right_symbol t = true) by (rewrite E1, forallb_app in Hr; apply andb_prop in Hr; tauto).
        pose proof (no_right_start t ds _ Ht E2) as ->. auto.
      - destruct t as [|y t]; [exact E2|]. exfalso. rewrite Ew in E2. cbn in E2. injection E2 as <- _. rewrite E1, forallb_app in Rb. apply andb_prop in Rb as [_ Rb]. discriminate. }
    destruct (IH ds w v Kd Hw ltac:(discriminate) E') as (ds1 & ds2 & r' & -> & F & -> & Hr'). exists (d :: ds1), ds2, r'. repeat split; auto.
Qed.
Lemma named_pieces cs ps : known cs -> Forall2 (fun c p => In (btyp c) p) cs ps -> aligned_names ps (pieces cs).
Proof.
  intros Hk. induction 1 as [|c p cs ps H _ IH]; [constructor|]. cbn [flat_map]. rewrite piece_eq. cbn. constructor; auto.
  - destruct (chars_sound c (Hk c (or_introl eq_refl))) as (x & r & -> & Px & Pr). apply phoneme_right. cbn. rewrite Px. exact Pr.
  - apply IH. intros d K. apply Hk. right. auto.
Qed.

(** * The context of the rule *)
Lemma letters_inv v : means LETTERS v <-> v = [] \/ exists n ps u w, In (n, ps) letter_names /\ aligned_names ps u /\ means LETTERS w /\ v = u ++ w.
Proof.
  assert (A : forall (l : list (tre * word)) u, means (fold_right TAlt (TWords []) (map fst l)) u <-> exists q, In q l /\ means (fst q) u).
  { induction l as [|q l IH]; intros u; cbn [map fold_right].
    - rewrite words_inv. split; [intros []|intros (q & [] & _)].
    - rewrite talt_inv, IH. split.
      + intros [H|(q' & H1 & H2)]; [exists q; split; [left; auto|auto]|exists q'; split; [right; auto|auto]].
      + intros (q' & [<-|H1] & H2); eauto. }
  unfold LETTERS. rewrite tstar_inv. split.
  - intros ([|u l] & F & ->); [left; auto|right]. inversion F; subst. match goal with K : means _ u |- _ => apply A in K; destruct K as ([x r] & Hx & Hu) end.
    apply in_set in Hx. destruct Hx as (n & ps & Hn & -> & ->). apply letter_means in Hu. exists n, ps, u, (concat l). repeat split; auto. apply tstar_inv. eauto.
  - intros [->|(n & ps & u & w & Hn & Hu & Hw & ->)]; [exists []; auto|]. apply tstar_inv in Hw. destruct Hw as (l & F & ->). exists (u :: l). split; auto. constructor; auto.
    apply A. exists (letter (map union ps), uc n). split; [apply in_set; eauto|]. apply letter_means. auto.
Qed.
Lemma letters_start v : means LETTERS v -> v = [] \/ exists n r, v = Gr n :: r.
Proof.
  intros H. apply letters_inv in H. destruct H as [->|(n & ps & u & w & Hn & Hu & _ & ->)]; [auto|]. right.
  destruct (aligned_start _ _ Hu (places_ne _ _ Hn)) as (m & r & ->). exists m, (r ++ w). auto.
Qed.
Lemma letters_right r v : forallb right_symbol r = true -> means LETTERS (r ++ v) -> r = [].
Proof. intros H K. apply letters_start in K. destruct r as [|x r]; auto. destruct K as [K|(n & w & K)]; cbn in K; [discriminate|]. injection K as -> _. discriminate. Qed.
Lemma forall2_nil (A B : Type) (P : A -> B -> Prop) l : Forall2 P [] l -> l = [].
Proof. inversion 1; auto. Qed.
Lemma letters_acronym k : forall ds, length ds <= k -> known ds -> means LETTERS (pieces ds) -> exists w, acronym ds w.
Proof.
  induction k as [|k IH]; intros ds Hlen Hk H.
  - destruct ds; [exists []; constructor|cbn in Hlen; lia].
  - apply letters_inv in H. destruct H as [E|(n & ps & u & w & Hn & Hu & Hw & E)].
    + destruct ds as [|d ds]; [exists []; constructor|]. cbn [flat_map] in E. rewrite piece_eq in E. discriminate.
    + symmetry in E. destruct (cut ps ds u w Hk Hu (places_ne _ _ Hn) E) as (ds1 & ds2 & r & -> & F & -> & Hr).
      pose proof (letters_right _ _ Hr Hw) as ->. cbn [app] in Hw. destruct (known_app _ _ Hk) as [_ Hk2].
      destruct ds1 as [|d ds1]; [apply forall2_nil in F; exfalso; exact (places_ne _ _ Hn F)|].
      destruct (IH ds2) as [w' Hw']; auto; [rewrite app_length in Hlen; cbn in Hlen; lia|]. exists (n :: w'). apply ac_letter; auto. exists ps. auto.
Qed.
Lemma acronym_letters ds w : acronym ds w -> known ds -> means LETTERS (pieces ds).
Proof.
  induction 1 as [|x cs rest w (ps & Hn & F) _ IH]; intros Hk; apply letters_inv; [left; auto|right].
  destruct (known_app _ _ Hk) as [K1 K2]. exists x, ps, (pieces cs), (pieces rest). rewrite flat_map_app. repeat split; auto. apply named_pieces; auto.
Qed.
Lemma after_inv r ds : forallb right_symbol r = true -> known ds -> followed AFTER_ACR (r ++ pieces ds) -> r = [] /\ exists w, acronym ds w.
Proof.
  intros Hr Hk (x & a & u & E & Ha & Hs & Hu). rewrite (Hu eq_refl), app_nil_r in E. clear u Hu.
  destruct Hs as [->|[(g & -> & Hg)|(r' & -> & Hr')]].
  - cbn in E. rewrite <- E in Ha. pose proof (letters_right _ _ Hr Ha) as ->. split; auto. apply (letters_acronym (length ds)); auto.
  - exfalso. rewrite <- app_assoc in E. cbn in E. destruct r as [|y r].
    + cbn in E. destruct ds as [|d ds]; [destruct g; discriminate|]. cbn [flat_map] in E. rewrite piece_eq in E. cbn in E.
      destruct g as [|y [|z g]]; cbn in E; try discriminate; injection E as E1 E2.
      * destruct (chars_sound d (Hk d (or_introl eq_refl))) as (b & r & Eb & Px & Pr). rewrite Eb in E2. cbn in E2. rewrite <- E2 in Ha.
        apply letters_start in Ha. destruct Ha as [Ha|(n & w & Ha)]; [discriminate|]. injection Ha as -> _. discriminate.
      * rewrite <- E2 in Hg. cbn in Hg. rewrite andb_false_r in Hg. discriminate.
    + destruct g as [|z g]; cbn in E; injection E as E1 _; rewrite E1 in Hr; [discriminate|]. cbn in Hg, Hr. destruct z; discriminate.
  - exfalso. destruct r as [|y r]; cbn in E.
    + apply pieces_start in E. destruct E; discriminate.
    + injection E as -> _. discriminate.
Qed.
Lemma after_ok ds w : known ds -> acronym ds w -> followed AFTER_ACR (pieces ds).
Proof. intros Hk H. exists [], (pieces ds), []. rewrite app_nil_r. repeat split; auto; [exact (acronym_letters ds w H Hk)|left; auto]. Qed.

(** * One reading *)
Fixpoint choices (ps : list (list string)) : list (list string) := match ps with [] => [[]] | p :: r => flat_map (fun x => map (cons x) (choices r)) p end.
Lemma choices_In cs ps : Forall2 (fun c p => In (btyp c) p) cs ps -> In (map btyp cs) (choices ps).
Proof. induction 1 as [|c p cs ps H _ IH]; cbn; auto. apply in_flat_map. exists (btyp c). split; auto. apply in_map. auto. Qed.
Definition table : list (list string * string) := flat_map (fun q => map (fun c => (c, fst q)) (choices (snd q))) letter_names.
Lemma name_table x cs : name_of x cs -> In (map btyp cs, x) table.
Proof.
  intros (ps & Hn & F). unfold table. apply in_flat_map. exists (x, ps). split; auto. cbn [fst snd]. apply (in_map (fun c => (c, x))). apply choices_In. auto.
Qed.
Definition functional (l : list (list string * string)) : bool :=
  forallb (fun q => forallb (fun q' => if same string String.eqb (fst q) (fst q') then String.eqb (snd q) (snd q') else true) l) l.
Lemma table_functional : functional table = true.
Proof. vm_compute. reflexivity. Qed.
Lemma table_decodable : decodableb string String.eqb (map fst table) [] = true.
Proof. vm_compute. reflexivity. Qed.
Lemma one_letter c x y : In (c, x) table -> In (c, y) table -> x = y.
Proof.
  intros H1 H2. pose proof table_functional as K. unfold functional in K. rewrite forallb_forall in K. specialize (K _ H1). rewrite forallb_forall in K. specialize (K _ H2). cbn [fst snd] in K.
  rewrite (proj2 (same_ok string String.eqb String.eqb_eq c c) eq_refl) in K. apply String.eqb_eq in K. exact K.
Qed.
Lemma acronym_parts ds w : acronym ds w -> exists l, map btyp ds = concat l /\ Forall2 (fun c x => In (c, x) table) l w.
Proof.
  induction 1 as [|x cs rest w Hn _ (l & E & F)]; [exists []; auto|]. exists (map btyp cs :: l). rewrite map_app, E. split; auto. constructor; auto. apply name_table. auto.
Qed.
Lemma parts_codes l w : Forall2 (fun c x => In (c, x) table) l w -> incl l (map fst table).
Proof.
  intros H c K. induction H as [|c' x l w Hc _ IH]; [destruct K|]. destruct K as [->|K]; auto. apply in_map_iff. exists (c, x). auto.
Qed.
Lemma parts_one l : forall v w, Forall2 (fun c x => In (c, x) table) l v -> Forall2 (fun c x => In (c, x) table) l w -> v = w.
Proof.
  induction l as [|c l IH]; intros v w H1 H2; inversion H1; inversion H2; subst; auto. f_equal; [eapply one_letter; eauto|apply IH; auto].
Qed.
Lemma acronym_unique ds v w : acronym ds v -> acronym ds w -> v = w.
Proof.
  intros Hv Hw. apply acronym_parts in Hv. apply acronym_parts in Hw. destruct Hv as (l & El & Fl). destruct Hw as (m & Em & Fm).
  assert (E : l = m).
  { apply (decodableb_ok string String.eqb String.eqb_eq (map fst table) [] table_decodable l m [] []); try (left; reflexivity).
    - exact (parts_codes _ _ Fl).
    - exact (parts_codes _ _ Fm).
    - rewrite !app_nil_r. congruence. }
  subst m. exact (parts_one l v w Fl Fm).
Qed.

(** * What the rule does *)
Definition caps (w : list string) : word := flat_map uc w.
Section Rule.
  Variable ts : word.
  Variable R : list (word * word).
  Hypothesis R_ok : Forall rule_ok R.
  Hypothesis R_all : forall u l v n ps, ts = u ++ l ++ v -> In (n, ps) letter_names -> aligned_names ps l -> In (l, uc n) R.
  Lemma rule_inv l r : In (l, r) R -> exists n ps, In (n, ps) letter_names /\ aligned_names ps l /\ r = uc n.
  Proof. intros H. exact (proj1 (Forall_forall _ _) R_ok _ H). Qed.
  Lemma rule_starts l r : In (l, r) R -> exists n l', l = Gr n :: l'.
  Proof. intros H. apply rule_inv in H. destruct H as (n & ps & Hn & Hl & _). exact (aligned_start _ _ Hl (places_ne _ _ Hn)). Qed.
  Lemma upper_names : forall n ps, In (n, ps) letter_names -> exists c, In c ASCII_UC /\ uc n = [Tr (typ c)] /\ glyph c = bytes n.
  Proof.
    assert (H : forallb (fun q : string * list (list string) => existsb (fun c => if str_eqb (bytes (fst q ++ "_uc")%string) (typ c) then str_eqb (glyph c) (bytes (fst q)) else false) ASCII_UC) letter_names = true) by (vm_compute; reflexivity).
    rewrite forallb_forall in H. intros n ps K. apply H in K. apply existsb_exists in K. destruct K as (c & Hc & K). cbn [fst] in K.
    destruct (str_eqb (bytes (n ++ "_uc")%string) (typ c)) eqn:E; [|discriminate]. apply str_eqb_eq in E, K. exists c. split; auto. split; auto. unfold uc, trl. rewrite E. reflexivity.
  Qed.
  Definition letters_w (w : list string) : Prop := Forall (fun x => exists ps, In (x, ps) letter_names) w.
  Lemma caps_before w : letters_w w -> preceded BEFORE_ACR (caps w).
  Proof.
    intros H. exists [], (caps w), []. rewrite app_nil_r. repeat split; auto; [|left; auto].
    apply tstar_inv. exists (map uc w). split.
    - apply Forall_forall. intros u K. apply in_map_iff in K. destruct K as (x & <- & K). destruct (proj1 (Forall_forall _ _) H x K) as [ps Hx]. destruct (upper_names x ps Hx) as (c & Hc & -> & _).
      apply words_inv. apply (in_map (fun c => [Tr (typ c)])). auto.
    - unfold caps. rewrite flat_map_concat_map. reflexivity.
  Qed.
  Lemma end_inv p f done out : rewriting R p f done [] out -> out = [].
  Proof.
    intros H. remember ([] : word) as z eqn:E in H. destruct H as [|done l r rest out I _ _ _|]; [auto| |discriminate].
    apply rule_starts in I. destruct I as (n & l' & ->). discriminate.
  Qed.
  Lemma acr_one k : forall ds w v out pre, length ds <= k -> known ds -> acronym ds w -> letters_w v -> ts = pre ++ pieces ds -> rewriting R BEFORE_ACR AFTER_ACR (caps v) (pieces ds) out -> out = caps w.
  Proof.
    assert (Nil : forall w, acronym [] w -> w = []) by (intros w H; apply (acronym_unique [] w []); [exact H|constructor]).
    induction k as [|k IH]; intros ds w v out pre Hlen Hk Ha Hv Ets H.
    - destruct ds; [|cbn in Hlen; lia]. cbn in H. rewrite (Nil w Ha). exact (end_inv _ _ _ _ H).
    - remember (pieces ds) as z eqn:Ez in H. remember (caps v) as d eqn:Ed in H. destruct H as [done|done l r rest out I P F H|done t rest out N H].
      + destruct ds as [|c ds]; [rewrite (Nil w Ha); reflexivity|]. cbn [flat_map] in Ez. rewrite piece_eq in Ez. discriminate.
      + destruct (rule_inv l r I) as (n & ps & Hn & Hl & ->). destruct (cut ps ds l rest Hk Hl (places_ne _ _ Hn) Ez) as (ds1 & ds2 & r & -> & F2 & -> & Hr).
        destruct (known_app _ _ Hk) as [K1 K2]. destruct (after_inv r ds2 Hr K2 F) as (-> & w2 & Hw2). cbn [app] in *.
        assert (Hu : acronym (ds1 ++ ds2) (n :: w2)) by (apply ac_letter; auto; exists ps; auto). rewrite (acronym_unique _ _ _ Ha Hu).
        destruct ds1 as [|d1 ds1]; [apply forall2_nil in F2; exfalso; exact (places_ne _ _ Hn F2)|].
        change (caps (n :: w2)) with (uc n ++ caps w2). f_equal. rewrite flat_map_app in Ets, Ez.
        apply (IH ds2 w2 (v ++ [n]) out (pre ++ pieces (d1 :: ds1))); auto.
        * rewrite app_length in Hlen. cbn in Hlen. lia.
        * apply Forall_app. split; auto. constructor; eauto.
        * rewrite <- app_assoc. exact Ets.
        * replace (caps (v ++ [n])) with (done ++ uc n); [exact H|]. rewrite Ed. unfold caps. rewrite flat_map_app. cbn [flat_map]. rewrite app_nil_r. reflexivity.
      + exfalso. inversion Ha as [E1 E2|x cs ds2 w' Hx Hr E1 E2]; subst; [discriminate|]. destruct Hx as (ps & Hn & F2). destruct (known_app _ _ Hk) as [K1 K2]. rewrite flat_map_app in *.
        apply (N (pieces cs) (uc x) (pieces ds2)); auto.
        * apply (R_all pre (pieces cs) (pieces ds2) x ps); auto. apply named_pieces; auto.
        * exact (after_ok ds2 w' K2 Hr).
        * apply caps_before. auto.
  Qed.
  Lemma acr_done ds w : acronym ds w -> forall v pre, known ds -> letters_w v -> ts = pre ++ pieces ds -> rewriting R BEFORE_ACR AFTER_ACR (caps v) (pieces ds) (caps w).
  Proof.
    induction 1 as [|x cs rest w (ps & Hn & F2) Hr IH]; intros v pre Hk Hv Ets; [apply re_end|].
    destruct (known_app _ _ Hk) as [K1 K2]. rewrite flat_map_app in *. change (caps (x :: w)) with (uc x ++ caps w). apply re_apply.
    - apply (R_all pre (pieces cs) (pieces rest) x ps); auto. apply named_pieces; auto.
    - apply caps_before. auto.
    - exact (after_ok rest w K2 Hr).
    - replace (caps v ++ uc x) with (caps (v ++ [x])); [|unfold caps; rewrite flat_map_app; cbn [flat_map]; rewrite app_nil_r; reflexivity].
      apply (IH (v ++ [x]) (pre ++ pieces cs)); auto; [apply Forall_app; split; auto; constructor; eauto|]. rewrite <- app_assoc. auto.
  Qed.

  (** Other words *)
  Lemma before_inv n l : preceded BEFORE_ACR (Gr n :: l) -> exists g, Gr n :: l = g ++ [Eq] /\ forallb grapheme g = true.
  Proof.
    intros (u & a & x & E & Ha & Hs & Hu). rewrite (Hu eq_refl) in E. cbn in E. apply tstar_inv in Ha. destruct Ha as (la & F & ->).
    assert (Ea : concat la = []).
    { clear Hs. induction F as [|b la Hb F IH]; auto. apply words_inv in Hb. apply in_map_iff in Hb. destruct Hb as (c & <- & _). discriminate. }
    rewrite Ea in E. cbn in E. subst x. destruct Hs as [K|[(g & E & Hg)|(r & E & _)]]; [discriminate|eauto|discriminate].
  Qed.
  Lemma no_rule ds done l r rest : known ds -> (forall w, ~ acronym ds w) -> pieces ds = done ++ l ++ rest -> In (l, r) R -> preceded BEFORE_ACR done -> followed AFTER_ACR rest -> False.
  Proof.
    intros Hk Na E I P F. destruct (rule_inv l r I) as (n & ps & Hn & Hl & _). destruct (aligned_start _ _ Hl (places_ne _ _ Hn)) as (m & l' & El). destruct done as [|t done].
    - cbn in E. symmetry in E. destruct (cut ps ds l rest Hk Hl (places_ne _ _ Hn) E) as (ds1 & ds2 & r' & -> & F2 & -> & Hr).
      destruct (known_app _ _ Hk) as [K1 K2]. destruct (after_inv r' ds2 Hr K2 F) as (-> & w2 & Hw2). apply (Na (n :: w2)). apply ac_letter; auto. exists ps; auto.
    - destruct ds as [|d ds]; [discriminate|]. cbn [flat_map] in E. rewrite piece_eq in E. cbn in E. injection E as <- E.
      apply before_inv in P. destruct P as (g & Eg & Hg). destruct g as [|t1 [|t2 g]]; cbn in Eg; try discriminate; injection Eg as E1 E2.
      + subst done. cbn in E. injection E as E. destruct (chars_sound d (Hk d (or_introl eq_refl))) as (b & r' & Eb & Px & Pr). rewrite Eb, El in E. cbn in E. injection E as E _. subst b. discriminate.
      + rewrite E2 in E. cbn in E. injection E as E _. rewrite <- E in Hg. cbn in Hg. rewrite andb_false_r in Hg. discriminate.
  Qed.
  Lemma other_one ds : known ds -> (forall w, ~ acronym ds w) -> forall done z out, rewriting R BEFORE_ACR AFTER_ACR done z out -> pieces ds = done ++ z -> out = z.
  Proof.
    intros Hk Na. induction 1 as [done|done l r rest out I P F H IH|done t rest out N H IH]; intros E; auto.
    - exfalso. exact (no_rule ds done l r rest Hk Na E I P F).
    - f_equal. apply IH. rewrite <- app_assoc. exact E.
  Qed.
  Lemma other_done ds : known ds -> (forall w, ~ acronym ds w) -> forall z done, pieces ds = done ++ z -> rewriting R BEFORE_ACR AFTER_ACR done z z.
  Proof.
    intros Hk Na. induction z as [|t z IH]; intros done E; [apply re_end|]. apply re_copy.
    - intros l r u I Eu F P. rewrite Eu in E. exact (no_rule ds done l r u Hk Na E I P F).
    - apply IH. rewrite <- app_assoc. exact E.
  Qed.
End Rule.

Lemma acronym_dec ds : known ds -> (exists w, acronym ds w) \/ (forall w, ~ acronym ds w).
Proof.
  intros Hk. destruct (tctx_ok (skip_after AFTER_ACR) (pieces ds)) eqn:E.
  - left. apply followed_ok in E. exact (proj2 (after_inv [] ds eq_refl Hk E)).
  - right. intros w H. pose proof (after_ok ds w Hk H) as F. apply followed_ok in F. congruence.
Qed.
Lemma acr_words ds s : known ds -> Forall symbol (pieces ds) ->
  (In s (HI_ACR_TYP_TO_TR (encs (pieces ds))) <-> (exists w, acronym ds w /\ s = encs (caps w)) \/ ((forall w, ~ acronym ds w) /\ s = encs (pieces ds))).
Proof.
  intros Hk Hs. destruct (acr_rules _ Hs) as (R & H1 & _ & H2 & H3). rewrite H3. split.
  - intros (out & H & ->). destruct (acronym_dec ds Hk) as [[w Hw]|Na].
    + left. exists w. split; auto. f_equal. apply (acr_one (pieces ds) R H1 H2 (length ds) ds w [] out []); auto. constructor.
    + right. split; auto. f_equal. exact (other_one R H1 ds Hk Na [] _ out H eq_refl).
  - intros [(w & Hw & ->)|[Na ->]].
    + exists (caps w). split; auto. apply (acr_done (pieces ds) R H2 ds w Hw [] []); auto. constructor.
    + exists (pieces ds). split; auto. apply (other_done R H1 ds Hk Na (pieces ds) []). reflexivity.
Qed.
