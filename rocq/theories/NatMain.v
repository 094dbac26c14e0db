(** Romanization of texts. *)
From Coq Require Import String.
From Verif Require Import Base RuleModel RegexModel IsoModel AlignModel AlignSpec AlignProofs AlignMore NatModel NatSpec NatProofs NatBytes NatBlocks NatBlocksProofs NatTyp NatTypMain NatRepeats.
Local Open Scope list_scope.

(** ** From characters to aligned symbols *)
Definition piece_of (c : bchar) : word := al (bgr c) (bph c).
Lemma bgr_symbol c : bgr c = [symbol_of c].
Proof. reflexivity. Qed.
Lemma translated_chars ds out : (forall c, In c ds -> In c CHARS) -> (performs TYP_TO_TXN (map symbol_of ds) out <-> out = flat_map piece_of ds).
Proof.
  unfold TYP_TO_TXN. cbn [performs]. intros H. split.
  - revert out. induction ds as [|c ds IH]; intros out P.
    + remember (map symbol_of []) as z eqn:Ez in P. destruct P as [|a b ts out I P]; [reflexivity|]. apply in_map_iff in I as (d & E & _). injection E as <- <-. discriminate Ez.
    + remember (map symbol_of (c :: ds)) as z eqn:Ez in P. destruct P as [|a b ts out I P]; [discriminate Ez|]. apply in_map_iff in I as (d & E & I). injection E as <- <-. rewrite bgr_symbol in Ez. cbn [app map] in Ez. injection Ez as E1 ->.
      assert (Ed : d = c) by (apply symbol_inj; [exact I|apply H; left; reflexivity|unfold symbol_of; rewrite E1; reflexivity]). subst d. cbn [flat_map]. unfold piece_of at 1. f_equal. apply IH; [intros e J; apply H; right; exact J|exact P].
  - intros ->. induction ds as [|c ds IH]; [constructor|]. cbn [flat_map map]. change (symbol_of c :: map symbol_of ds) with ([symbol_of c] ++ map symbol_of ds). constructor; [|apply IH; intros e J; apply H; right; exact J].
    apply in_map_iff. exists c. split; [reflexivity|]. apply H. left. reflexivity.
Qed.
Lemma made_of_pieces ds (K : list bchar) : (forall c, In c ds -> In c K) -> made_of (map piece_of K) (flat_map piece_of ds).
Proof. intros H. exists (map piece_of ds). split; [rewrite flat_map_concat_map; reflexivity|]. apply Forall_forall. intros w I. apply in_map_iff in I as (c & <- & I). apply in_map. exact (H c I). Qed.

(** ** Rewriting that stays within pieces *)
Definition phonemes (w : word) : bool := match w with [] => false | _ => forallb phoneme w end.
Definition headed (w : word) : bool := match w with [] => false | t :: _ => negb (phoneme t) end.
Section Within.
Variable rs : list (word * word).
Hypothesis ph : forallb (fun q : word * word => phonemes (fst q)) rs = true.
Let Ne : nonempty_rules rs.
Proof. apply Forall_forall. intros q I E. pose proof (proj1 (forallb_forall _ _) ph q I) as K. cbn beta in K. rewrite E in K. discriminate K. Qed.
Lemma done_irrelevant d ts out : rewriting rs None None d ts out -> forall d', rewriting rs None None d' ts out.
Proof. induction 1 as [done|done l r rest out I P F R IH|done t rest out N R IH]; intros d'; [constructor|constructor; auto|constructor; auto]. Qed.
Lemma phoneme_split l w c rest : phonemes l = true -> (c = [] \/ headed c = true) -> w ++ c = l ++ rest -> w <> [] -> exists u, w = l ++ u /\ rest = u ++ c.
Proof.
  intros Hl Hc E Nw. apply app_eq_app in E as (k & [[-> ->]|[-> E]]); [exists k; auto|]. destruct k as [|t k]; [exists []; rewrite !app_nil_r; split; [reflexivity|symmetry; exact E]|]. exfalso.
  destruct Hc as [Hc|Hc]; [rewrite Hc in E; discriminate E|]. rewrite E in Hc. cbn [headed app] in Hc. assert (F : forallb phoneme (w ++ t :: k) = true) by (unfold phonemes in Hl; destruct (w ++ t :: k); [discriminate Hl|exact Hl]).
  rewrite forallb_app in F. apply andb_prop in F as [_ F]. cbn [forallb] in F. apply andb_prop in F as [F _]. rewrite F in Hc. discriminate Hc.
Qed.
Lemma rewriting_split w c : (c = [] \/ headed c = true) -> forall n d out, List.length w <= n -> rewriting rs None None d (w ++ c) out -> exists o1 o2, out = o1 ++ o2 /\ rewriting rs None None [] w o1 /\ rewriting rs None None [] c o2.
Proof.
  intros Hc n. revert w. induction n as [|n IH]; intros w d out L R.
  - destruct w; [|cbn in L; lia]. exists [], out. split; [reflexivity|split; [constructor|exact (done_irrelevant _ _ _ R [])]].
  - destruct w as [|t w]; [exists [], out; split; [reflexivity|split; [constructor|exact (done_irrelevant _ _ _ R [])]]|]. cbn [app] in R. apply head_cases in R as [(l & r & u & o & I & E & -> & R)|[N (o & -> & R)]]; [| |exact Ne].
    + pose proof (proj1 (forallb_forall _ _) ph _ I) as K. cbn beta in K. cbn [fst] in K. destruct (phoneme_split l (t :: w) c u K Hc E ltac:(discriminate)) as (v & Ev & ->). assert (Lv : List.length v <= n) by (apply (f_equal (@List.length tok)) in Ev; rewrite app_length in Ev; cbn in Ev, L; destruct l; [discriminate K|cbn in Ev; lia]).
      destruct (IH v _ _ Lv R) as (o1 & o2 & -> & R1 & R2). exists (r ++ o1), o2. split; [rewrite app_assoc; reflexivity|]. split; [|exact R2]. rewrite Ev. constructor; [exact I|exact Logic.I|exact Logic.I|exact (done_irrelevant _ _ _ R1 _)].
    + destruct (IH w _ _ ltac:(cbn in L; lia) R) as (o1 & o2 & -> & R1 & R2). exists (t :: o1), o2. split; [reflexivity|]. split; [|exact R2]. constructor; [|exact (done_irrelevant _ _ _ R1 _)]. intros l r u I E _ _. apply (N l r (u ++ c) I). rewrite app_assoc, <- E. reflexivity.
Qed.
Lemma rewriting_join w c o1 o2 : (c = [] \/ headed c = true) -> rewriting rs None None [] w o1 -> rewriting rs None None [] c o2 -> forall d, rewriting rs None None d (w ++ c) (o1 ++ o2).
Proof.
  intros Hc R1 R2. pose proof (done_irrelevant _ _ _ R2) as R3. clear R2. remember ([] : word) as z0 eqn:Ez0 in R1. clear Ez0. induction R1 as [done|done l r rest out I P F R IH|done t rest out N R IH]; intros d.
  - exact (R3 d).
  - rewrite <- !app_assoc. apply re_apply; [exact I|exact Logic.I|exact Logic.I|]. apply IH.
  - cbn [app]. constructor; [|apply IH]. intros l r u I E _ _. pose proof (proj1 (forallb_forall _ _) ph _ I) as K. cbn beta in K. cbn [fst] in K. change (t :: rest ++ c) with ((t :: rest) ++ c) in E. destruct (phoneme_split l (t :: rest) c u K Hc E ltac:(discriminate)) as (v & Ev & _). exact (N l r v I Ev Logic.I Logic.I).
Qed.
(** Pieces with one outcome that has no phonemes *)
Variable good : word -> word.
Variable B : list word.
Hypothesis heads : Forall (fun b => headed b = true) B.
Hypothesis one : forall b, In b B -> rewriting rs None None [] b (good b) /\ forallb (fun t => negb (phoneme t)) (good b) = true /\ forall o, rewriting rs None None [] b o -> forallb (fun t => negb (phoneme t)) o = true -> o = good b.
Lemma heads_concat bs : Forall (fun b => In b B) bs -> concat bs = [] \/ headed (concat bs) = true.
Proof. intros [|b bs' I _]; [left; reflexivity|right]. apply (proj1 (Forall_forall _ _) heads) in I. cbn [concat]. destruct b; [discriminate I|exact I]. Qed.
Lemma within bs : Forall (fun b => In b B) bs -> rewriting rs None None [] (concat bs) (concat (map good bs)) /\
  forall o, rewriting rs None None [] (concat bs) o -> forallb (fun t => negb (phoneme t)) o = true -> o = concat (map good bs).
Proof.
  induction 1 as [|b bs I H [IH1 IH2]]; [split; [constructor|intros o R _; exact (rewriting_nil _ _ _ _ _ Ne R)]|]. cbn [concat map]. destruct (one b I) as (O1 & _ & O3). split.
  - apply rewriting_join; [exact (heads_concat bs H)|exact O1|exact IH1].
  - intros o R F. apply (rewriting_split b (concat bs) (heads_concat bs H) (List.length b) [] o (le_n _)) in R as (o1 & o2 & -> & R1 & R2). rewrite forallb_app in F. apply andb_prop in F as [F1 F2]. rewrite (O3 o1 R1 F1), (IH2 o2 R2 F2). reflexivity.
Qed.
Lemma good_no_phonemes bs : Forall (fun b => In b B) bs -> forallb (fun t => negb (phoneme t)) (concat (map good bs)) = true.
Proof. induction 1 as [|b bs I H IH]; [reflexivity|]. cbn [map concat]. rewrite forallb_app, IH. destruct (one b I) as (_ & -> & _). reflexivity. Qed.
End Within.

(** ** Phonemes that stay *)
Definition keeps_phonemes (o : op) : bool := match o with Rewrite rs _ _ => forallb (fun q : word * word => match fst q with [] => false | l => forallb (fun t => negb (phoneme t)) l end) rs | Insert _ _ _ => true | Pairs _ => false end.
Definition phoneme_free (ts : word) : bool := forallb (fun t => negb (phoneme t)) ts.
Lemma phoneme_free_app a b : phoneme_free (a ++ b) = if phoneme_free a then phoneme_free b else false.
Proof. unfold phoneme_free. rewrite forallb_app. destruct (forallb _ a); reflexivity. Qed.
Lemma keeps_phonemes_ok o ts out : keeps_phonemes o = true -> performs o ts out -> phoneme_free out = true -> phoneme_free ts = true.
Proof.
  destruct o as [rs p f|new p f|l]; cbn [keeps_phonemes performs]; intros K P; [| |discriminate K].
  - rewrite forallb_forall in K. induction P as [done|done l r rest out I _ _ _ IH|done t rest out _ _ IH]; intros F; [reflexivity| |].
    + rewrite phoneme_free_app in F |- *. specialize (K _ I). cbn [fst] in K. destruct l as [|t l]; [discriminate K|]. change (forallb (fun t0 => negb (phoneme t0)) (t :: l)) with (phoneme_free (t :: l)) in K. rewrite K. destruct (phoneme_free r); [exact (IH F)|discriminate F].
    + change (t :: out) with ([t] ++ out) in F. change (t :: rest) with ([t] ++ rest). rewrite phoneme_free_app in F |- *. destruct (phoneme_free [t]); [exact (IH F)|discriminate F].
  - induction P as [done _ _|done _|done t rest out _ _ _ IH|done t rest out _ _ IH]; intros F; [reflexivity|reflexivity| |].
    + rewrite phoneme_free_app in F. destruct (phoneme_free new); [|discriminate F]. change (t :: out) with ([t] ++ out) in F. change (t :: rest) with ([t] ++ rest). rewrite phoneme_free_app in F |- *. destruct (phoneme_free [t]); [exact (IH F)|discriminate F].
    + change (t :: out) with ([t] ++ out) in F. change (t :: rest) with ([t] ++ rest). rewrite phoneme_free_app in F |- *. destruct (phoneme_free [t]); [exact (IH F)|discriminate F].
Qed.
Lemma keep_phonemes_ok l ts out : forallb keeps_phonemes l = true -> performs_all l ts out -> phoneme_free out = true -> phoneme_free ts = true.
Proof.
  intros K P. induction P as [ts|o l ts mid out P Q IH]; intros F; [exact F|]. cbn [forallb] in K. apply andb_prop in K as [K1 K2]. exact (keeps_phonemes_ok o ts mid K1 P (IH K2 F)).
Qed.

(** ** Printing *)
Definition printable (w : word) : bool := forallb (fun t => match t with Tr x => existsb (fun c => if str_eqb (typ c) x then over LOWER (glyph c) else false) LTN_CHARS | Ph _ => false | _ => true end) w.
Fixpoint nodupb (l : list str) : bool := match l with [] => true | s :: l' => if existsb (str_eqb s) l' then false else nodupb l' end.
Lemma nodupb_ok l : nodupb l = true -> NoDup l.
Proof.
  induction l as [|s l IH]; intros H; constructor; cbn [nodupb] in H; destruct (existsb (str_eqb s) l) eqn:E; try discriminate H; [|exact (IH H)]. intros I. assert (K : existsb (str_eqb s) l = true) by (apply existsb_exists; exists s; split; [exact I|apply str_eqb_refl]). congruence.
Qed.
Lemma ltn_table : char_table LTN_CHARS.
Proof.
  split; [apply nodupb_ok; vm_compute; reflexivity|]. apply (forallb_Forall (fun c => match typ c with [] => false | _ => forallb sym_charb (typ c) end)); [|vm_compute; reflexivity].
  intros c H. destruct (typ c) eqn:E; [discriminate H|]. split; [discriminate|]. exact (forallb_Forall _ _ _ sym_charb_ok H).
Qed.
Lemma printable_app a b : printable (a ++ b) = if printable a then printable b else false.
Proof. unfold printable. rewrite forallb_app. destruct (forallb _ a); reflexivity. Qed.
Lemma printable_chars ts : printable ts = true -> exists cs, (forall c, In c cs -> In c LTN_CHARS) /\ filter right_symbol ts = map (fun c => Tr (typ c)) cs /\ over LOWER (flat_map glyph cs) = true.
Proof.
  induction ts as [|t ts IH]; intros H; [exists []; split; [intros c []|split; reflexivity]|]. change (t :: ts) with ([t] ++ ts) in H. rewrite printable_app in H. destruct (printable [t]) eqn:P; [|discriminate H]. destruct (IH H) as (cs & Hc & E & O). destruct t as [s|s|s|]; unfold printable in P; cbn [forallb] in P; try discriminate P; cbn [filter right_symbol]; try solve [exists cs; auto].
  rewrite andb_true_r in P. apply existsb_exists in P as (c & I & K). destruct (str_eqb (typ c) s) eqn:Es; [|discriminate K]. pose proof (proj1 (str_eqb_eq _ _) Es) as Et. clear Es. subst s. exists (c :: cs). split; [intros d [<-|J]; [exact I|exact (Hc d J)]|]. split; [cbn [map]; rewrite E; reflexivity|]. cbn [flat_map]. unfold over in K, O |- *. rewrite forallb_app. apply andb_true_intro. split; assumption.
Qed.
Lemma print_lower e ts : Forall symbol ts -> printable ts = true -> exists o, only o (print_only_glyph e LTN_CHARS (encs ts)) /\ over LOWER o = true.
Proof. intros Hs P. destruct (printable_chars ts P) as (cs & Hc & E & O). exists (flat_map glyph cs). split; [|exact O]. intros x. exact (print_glyphs e LTN_CHARS cs ts x ltn_table Hs Hc E). Qed.
Lemma print_phoneme e ts o : Forall symbol ts -> In o (print_only_glyph e LTN_CHARS (encs ts)) -> phoneme_free ts = true.
Proof.
  intros Hs I. unfold print_only_glyph, print_glyph in I. replace (map (fun c => (tr c, glyph c)) LTN_CHARS) with (map (fun p : tok * str => (enc (fst p), snd p)) (map (fun c => (Tr (typ c), glyph c)) LTN_CHARS)) in I by (rewrite map_map; reflexivity).
  apply print_pairs in I as (ps & Hp & E & _); [| |exact Hs].
  - apply forallb_forall. intros t It. destruct t as [s|s|s|]; try reflexivity. exfalso. assert (J : In (Ph s) (filter right_symbol ts)) by (apply filter_In; split; [exact It|reflexivity]). rewrite E in J. apply in_map_iff in J as (q & Eq & J). apply Hp, in_map_iff in J as (c & <- & _). discriminate Eq.
  - apply Forall_forall. intros p J. apply in_map_iff in J as (c & <- & J). destruct ltn_table as [_ T]. apply (proj1 (Forall_forall _ _) T) in J as [_ J]. split; [exact J|reflexivity].
Qed.
