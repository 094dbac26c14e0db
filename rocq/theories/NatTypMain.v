(** Reading of characters: one result, the same text, nothing left to put together. *)
From Coq Require Import String.
From Verif Require Import Base RuleModel RegexModel IsoModel AlignModel AlignSpec AlignProofs AlignMore NatModel NatSpec NatProofs NatBytes NatBlocks NatBlocksProofs NatTyp.
Local Open Scope list_scope.

(** ** Rules of which no left side starts with another *)
Definition starts_with (a b : word) : bool := word_eqb a (firstn (List.length a) b).
Lemma starts_with_app a u : starts_with a (a ++ u) = true.
Proof. unfold starts_with. rewrite firstn_app, Nat.sub_diag, firstn_all, app_nil_r. apply word_eqb_spec. reflexivity. Qed.
Fixpoint apartb (rs : list (word * word)) : bool :=
  match rs with [] => true | q :: rs' => if existsb (fun q' : word * word => if starts_with (fst q) (fst q') then true else starts_with (fst q') (fst q)) rs' then false else apartb rs' end.
Lemma starts_either (a b u v : word) : a ++ u = b ++ v -> starts_with a b = true \/ starts_with b a = true.
Proof.
  intros E. apply app_eq_app in E as (k & [[-> _]|[-> _]]); [right|left]; apply starts_with_app.
Qed.
Lemma apartb_ok rs : apartb rs = true -> forall l r l' r' u v, In (l, r) rs -> In (l', r') rs -> l ++ u = l' ++ v -> (l, r) = (l', r').
Proof.
  induction rs as [|q rs IH]; intros H l r l' r' u v I J E; [destruct I|]. cbn [apartb] in H. destruct (existsb _ rs) eqn:X in H; [discriminate H|].
  assert (N : forall q' x y, In q' rs -> fst q ++ x = fst q' ++ y -> False).
  { intros q' x y K Ex. apply starts_either in Ex. assert (T : existsb (fun q' : word * word => if starts_with (fst q) (fst q') then true else starts_with (fst q') (fst q)) rs = true); [|congruence].
    apply existsb_exists. exists q'. split; [exact K|]. destruct Ex as [->|Ex]; [reflexivity|]. rewrite Ex. destruct (starts_with (fst q) (fst q')); reflexivity. }
  destruct I as [->|I]; destruct J as [K|J]; [exact K|destruct (N _ _ _ J E)|subst q; destruct (N _ _ _ I (eq_sym E))|exact (IH H _ _ _ _ _ _ I J E)].
Qed.
Definition nonempty_rules (rs : list (word * word)) : Prop := Forall (fun q : word * word => fst q <> []) rs.
Lemma head_cases rs d t rest out : nonempty_rules rs -> rewriting rs None None d (t :: rest) out ->
  (exists l r u o, In (l, r) rs /\ t :: rest = l ++ u /\ out = r ++ o /\ rewriting rs None None (d ++ r) u o) \/
  ((forall l r u, In (l, r) rs -> t :: rest <> l ++ u) /\ exists o, out = t :: o /\ rewriting rs None None (d ++ [t]) rest o).
Proof.
  intros Ne R. apply rewriting_inv in R as [[E _]|[(l & r & u & o & I & _ & _ & E & Eo & R)|(t' & rest' & o & N & E & Eo & R)]]; [discriminate E|left; eauto 10|]. injection E as <- <-. right. split; [|eauto].
  intros l r u I E. exact (N l r u I E Logic.I Logic.I).
Qed.
Lemma rewriting_unique rs d ts out : nonempty_rules rs -> apartb rs = true -> rewriting rs None None d ts out -> forall d' out', rewriting rs None None d' ts out' -> out = out'.
Proof.
  intros Ne A. induction 1 as [done|done l r rest out I _ _ R IH|done t rest out N R IH]; intros d' out' R'.
  - symmetry. exact (rewriting_nil _ _ _ _ _ Ne R').
  - destruct l as [|t l]; [destruct (proj1 (Forall_forall _ _) Ne _ I eq_refl)|]. cbn [app] in R'. apply head_cases in R' as [(l' & r' & u & o & I' & E & -> & R')|[N _]]; [| |exact Ne].
    + pose proof (apartb_ok rs A (t :: l) r l' r' rest u I I' E) as K. injection K as <- <-. injection E as E. apply app_inv_head in E as <-. f_equal. exact (IH _ _ R').
    + destruct (N _ _ rest I eq_refl).
  - apply head_cases in R' as [(l' & r' & u & o & I' & E & -> & R')|[_ (o & -> & R')]]; [destruct (N l' r' u I' E Logic.I Logic.I)|f_equal; exact (IH _ _ R')|exact Ne].
Qed.
(** A symbol that starts no rule is at the start before and after *)
Definition starts_no_rule (x : tok) (rs : list (word * word)) : bool :=
  forallb (fun q : word * word => match q with (a :: _, b :: _) => if tok_eqb x a then false else negb (tok_eqb x b) | _ => false end) rs.
Lemma same_start x rs d ts out : nonempty_rules rs -> starts_no_rule x rs = true -> rewriting rs None None d ts out -> ((exists u, ts = x :: u) <-> exists u, out = x :: u).
Proof.
  intros Ne H R. unfold starts_no_rule in H. rewrite forallb_forall in H. destruct ts as [|t ts].
  - rewrite (rewriting_nil _ _ _ _ _ Ne R). reflexivity.
  - apply head_cases in R as [(l & r & u & o & I & E & -> & R)|[N (o & -> & R)]]; [| |exact Ne].
    + specialize (H _ I). destruct l as [|a l]; [discriminate H|]. destruct r as [|b r]; [discriminate H|]. injection E as <- _. destruct (tok_eqb x t) eqn:Xt; [discriminate H|]. apply negb_true_iff in H.
      split; intros (v & E); injection E as -> _; [rewrite (proj2 (tok_eqb_spec x x) eq_refl) in Xt; discriminate Xt|rewrite (proj2 (tok_eqb_spec x x) eq_refl) in H; discriminate H].
    + split; intros (v & E); injection E as -> _; eauto.
Qed.

(** ** The characters *)
Definition composing (l : list bchar) : list (word * word) := map (fun c => (cmp c, bgr c)) l.
Definition typ_rules : list (list (word * word)) := [composing LONG_VOCALIC; composing TWO_POINT_SIGN; composing INDEPENDENT_VOWEL; composing COMPOSITE_CONSONANT; composing (OM ++ CND)].
Definition nonemptyb (rs : list (word * word)) : bool := forallb (fun q : word * word => match fst q with [] => false | _ => true end) rs.
Lemma nonemptyb_ok rs : nonemptyb rs = true -> nonempty_rules rs.
Proof. apply forallb_Forall. intros q H E. rewrite E in H. discriminate H. Qed.
Lemma typ_rules_ok : forallb (fun rs => if nonemptyb rs then if apartb rs then forallb (fun q : word * word => if str_eqb (flat_map glyph_of (fst q)) (flat_map glyph_of (snd q)) then forallb (fun t => existsb (tok_eqb t) (map symbol_of CHARS)) (snd q) else false) rs else false else false) typ_rules = true.
Proof. vm_compute. reflexivity. Qed.
Lemma typ_rule rs : In rs typ_rules -> nonempty_rules rs /\ apartb rs = true /\ Forall (fun q : word * word => flat_map glyph_of (fst q) = flat_map glyph_of (snd q)) rs /\ Forall (fun q : word * word => typ_chars (snd q)) rs.
Proof.
  intros I. pose proof (proj1 (forallb_forall _ _) typ_rules_ok rs I) as H. cbn beta in H. destruct (nonemptyb rs) eqn:N; [|discriminate H]. destruct (apartb rs) eqn:A; [|discriminate H]. rewrite forallb_forall in H. split; [exact (nonemptyb_ok rs N)|split; [reflexivity|]].
  split; apply Forall_forall; intros q J; specialize (H q J); destruct (str_eqb _ _) eqn:E; try discriminate H; [apply str_eqb_eq; exact E|].
  apply Forall_forall. intros t K. rewrite forallb_forall in H. specialize (H t K). apply existsb_exists in H as (x & Ix & Ex). apply tok_eqb_spec in Ex as ->. exact Ix.
Qed.
Lemma typ_chars_kept rs d ts out : In rs typ_rules -> typ_chars ts -> rewriting rs None None d ts out -> typ_chars out.
Proof.
  intros I H R. destruct (typ_rule rs I) as (_ & _ & _ & F). induction R as [done|done l r rest out J _ _ R IH|done t rest out N R IH]; [constructor| |].
  - apply Forall_app in H as [_ H]. apply Forall_app. split; [exact (proj1 (Forall_forall _ _) F _ J)|exact (IH H)].
  - inversion H; subst. constructor; [assumption|apply IH; assumption].
Qed.
Lemma typ_no_eq ts : typ_chars ts -> Forall (fun t => t <> Eq) ts.
Proof. apply Forall_impl. intros t I ->. apply in_map_iff in I as (c & E & _). discriminate E. Qed.
Lemma letter_char c : In c SINGLE_POINT -> In c CHARS.
Proof. intros I. apply in_app_iff. left. exact I. Qed.
Lemma letters_chars cs : letters cs -> typ_chars (map symbol_of cs).
Proof. intros H. apply Forall_forall. intros t I. apply in_map_iff in I as (c & <- & I). apply in_map, letter_char. exact (proj1 (Forall_forall _ _) H c I). Qed.
Lemma symbol_inj c d : In c CHARS -> In d CHARS -> symbol_of c = symbol_of d -> c = d.
Proof. intros I J E. injection E as E. exact (distinct_ok _ CHARS char_names c d I J E). Qed.
Lemma chars_ok : forallb (fun c => symbolb (symbol_of c)) CHARS = true.
Proof. vm_compute. reflexivity. Qed.
Lemma typ_symbols ts : typ_chars ts -> Forall symbol ts.
Proof. apply Forall_impl. intros t I. apply in_map_iff in I as (c & <- & I). apply symbolb_ok. exact (proj1 (forallb_forall _ _) chars_ok c I). Qed.
Lemma typ_no_translit ts : typ_chars ts -> no_translit ts.
Proof. intros H. apply forallb_forall. intros t I. apply (proj1 (Forall_forall _ _) H), in_map_iff in I as (c & <- & _). reflexivity. Qed.

(** ** The steps *)
Definition typ_steps (ts out : word) : Prop :=
  exists t1 t2 t3 t4 t5,
    rewriting (composing LONG_VOCALIC) None None [] ts t1 /\ rewriting (composing TWO_POINT_SIGN) None None [] t1 t2 /\
    inserting (grs "ind") TBOW (some_of initial_vowels) [] t2 t3 /\ rewriting (composing INDEPENDENT_VOWEL) None None [] t3 t4 /\
    rewriting (composing COMPOSITE_CONSONANT) None None [] t4 t5 /\ rewriting (composing (OM ++ CND)) None None [] t5 out.
Lemma typ_steps_ok ts out : performs_all typ_ops ts out <-> typ_steps ts out.
Proof.
  unfold typ_ops. split.
  - intros P. inversion P as [|? ? ? t1 ? P1 Q1]; subst. inversion Q1 as [|? ? ? t2 ? P2 Q2]; subst. inversion Q2 as [|? ? ? t3 ? P3 Q3]; subst. inversion Q3 as [|? ? ? t4 ? P4 Q4]; subst. inversion Q4 as [|? ? ? t5 ? P5 Q5]; subst. inversion Q5 as [|? ? ? t6 ? P6 Q6]; subst. inversion Q6; subst.
    exists t1, t2, t3, t4, t5. auto 10.
  - intros (t1 & t2 & t3 & t4 & t5 & P1 & P2 & P3 & P4 & P5 & P6). econstructor; [exact P1|]. econstructor; [exact P2|]. econstructor; [exact P3|]. econstructor; [exact P4|]. econstructor; [exact P5|]. econstructor; [exact P6|]. constructor.
Qed.
Definition IND : tok := symbol_of (sp "ind").
Lemma ind_char : In (sp "ind") CHARS.
Proof. assert (H : existsb (fun c => String.eqb (btyp c) "ind") SINGLE_POINT = true) by (vm_compute; reflexivity). unfold sp. destruct (find _ SINGLE_POINT) as [c|] eqn:F; [apply find_some in F as [I _]; exact (letter_char c I)|]. apply existsb_exists in H as (c & I & E). pose proof (find_none _ _ F c I) as K. cbn beta in K. congruence. Qed.
Lemma insert_cases ts out : typ_chars ts -> inserting (grs "ind") TBOW (some_of initial_vowels) [] ts out ->
  ((exists w u, In w initial_vowels /\ ts = w ++ u) /\ out = IND :: ts) \/ (~ (exists w u, In w initial_vowels /\ ts = w ++ u) /\ out = ts).
Proof. intros H I. change (grs "ind") with [IND] in I. apply initial_insert in I; [exact I|constructor; [discriminate|constructor]|discriminate|exact (typ_no_eq ts H)]. Qed.
Lemma steps_unique ts : typ_chars ts -> forall o1 o2, typ_steps ts o1 -> typ_steps ts o2 -> o1 = o2.
Proof.
  intros H o1 o2 (t1 & t2 & t3 & t4 & t5 & P1 & P2 & P3 & P4 & P5 & P6) (s1 & s2 & s3 & s4 & s5 & Q1 & Q2 & Q3 & Q4 & Q5 & Q6).
  assert (U : forall rs ts a b, In rs typ_rules -> rewriting rs None None [] ts a -> rewriting rs None None [] ts b -> a = b).
  { intros rs x a b I A B. destruct (typ_rule rs I) as (Ne & Ap & _). exact (rewriting_unique rs [] x a Ne Ap A [] b B). }
  pose proof (U _ _ _ _ ltac:(left; reflexivity) P1 Q1) as <-. pose proof (U _ _ _ _ ltac:(right; left; reflexivity) P2 Q2) as <-.
  assert (H2 : typ_chars t2) by (eapply typ_chars_kept; [|eapply typ_chars_kept; [|exact H|exact P1]|exact P2]; [right; left; reflexivity|left; reflexivity]).
  assert (E : t3 = s3) by (destruct (insert_cases t2 t3 H2 P3) as [[X ->]|[X ->]]; destruct (insert_cases t2 s3 H2 Q3) as [[Y ->]|[Y ->]]; tauto). subst s3.
  pose proof (U _ _ _ _ ltac:(right; right; left; reflexivity) P4 Q4) as <-. pose proof (U _ _ _ _ ltac:(right; right; right; left; reflexivity) P5 Q5) as <-. exact (U _ _ _ _ ltac:(right; right; right; right; left; reflexivity) P6 Q6).
Qed.

(** ** Words that start with a vowel *)
Lemma sp_char t c : find (fun c => String.eqb (btyp c) t) SINGLE_POINT = Some c -> sp t = c /\ In c SINGLE_POINT.
Proof. intros F. unfold sp. rewrite F. split; [reflexivity|]. apply find_some in F. tauto. Qed.
Definition known_letters : list string := ["l"; "r"; "vcl"; "long"; "an"; "a"; "i"; "u"]%string.
Lemma known : forallb (fun t => match find (fun c => String.eqb (btyp c) t) SINGLE_POINT with Some c => true | None => false end) known_letters = true.
Proof. vm_compute. reflexivity. Qed.
Lemma known_letter t : In t known_letters -> In (sp t) SINGLE_POINT.
Proof. intros I. pose proof (proj1 (forallb_forall _ _) known t I) as K. cbn beta in K. destruct (find _ SINGLE_POINT) as [c|] eqn:F; [|discriminate K]. destruct (sp_char t c F) as [-> J]. exact J. Qed.
Definition initial_sign (t : tok) : bool := existsb (fun w => word_eqb w [t]) initial_vowels.
Lemma initial_single : forallb (fun w : word => match w with [_] => true | _ => false end) initial_vowels = true.
Proof. vm_compute. reflexivity. Qed.
Lemma initial_ok t u : (exists w v, In w initial_vowels /\ t :: u = w ++ v) <-> initial_sign t = true.
Proof.
  unfold initial_sign. rewrite existsb_exists. split.
  - intros (w & v & I & E). pose proof (proj1 (forallb_forall _ _) initial_single w I) as K. destruct w as [|x [|? ?]]; try discriminate K. injection E as <- _. exists [t]. split; [exact I|apply word_eqb_spec; reflexivity].
  - intros (w & I & E). apply word_eqb_spec in E as ->. exists [t], u. split; [exact I|reflexivity].
Qed.
Lemma initial_none : ~ exists w v, In w initial_vowels /\ ([] : word) = w ++ v.
Proof. intros (w & v & I & E). pose proof (proj1 (forallb_forall _ _) initial_single w I) as K. destruct w; discriminate. Qed.
Lemma simple_initial : forallb (fun c => Bool.eqb (initial_sign (symbol_of c)) (existsb (fun d => tok_eqb (symbol_of d) (symbol_of c)) SIMPLE_VOWEL)) SINGLE_POINT = true.
Proof. vm_compute. reflexivity. Qed.
Lemma simple_letter c : In c SIMPLE_VOWEL -> In c SINGLE_POINT.
Proof. intros I. apply in_app_iff. left. exact I. Qed.
Lemma simple_initial_ok c : In c SINGLE_POINT -> (initial_sign (symbol_of c) = true <-> In c SIMPLE_VOWEL).
Proof.
  intros I. pose proof (proj1 (forallb_forall _ _) simple_initial c I) as K. cbn beta in K. apply Bool.eqb_prop in K. rewrite K, existsb_exists. split.
  - intros (d & J & E). apply tok_eqb_spec in E. rewrite <- (symbol_inj d c (letter_char _ (simple_letter d J)) (letter_char c I) E). exact J.
  - intros J. exists c. split; [exact J|apply tok_eqb_spec; reflexivity].
Qed.
Lemma start_symbol t cs u : letters cs -> In t known_letters -> map symbol_of cs = symbol_of (sp t) :: u -> exists rest, cs = sp t :: rest.
Proof.
  intros H I E. destruct cs as [|c cs]; [discriminate E|]. cbn [map] in E. injection E as E _. inversion H; subst. exists cs. f_equal. apply symbol_inj; [apply letter_char; assumption|apply letter_char, known_letter; exact I|]. unfold symbol_of. rewrite E. reflexivity.
Qed.
Lemma long_rules : composing LONG_VOCALIC = [
  ([symbol_of (sp "l"); symbol_of (sp "vcl"); symbol_of (sp "long")], [Gr (bytes "llv")]);
  ([symbol_of (sp "r"); symbol_of (sp "vcl"); symbol_of (sp "long")], [Gr (bytes "rrv")])].
Proof. vm_compute. reflexivity. Qed.
Lemma two_rules : composing TWO_POINT_SIGN = [
  ([symbol_of (sp "l"); symbol_of (sp "vcl")], [Gr (bytes "lv")]); ([symbol_of (sp "r"); symbol_of (sp "vcl")], [Gr (bytes "rv")]);
  ([symbol_of (sp "a"); symbol_of (sp "i")], [Gr (bytes "ai")]); ([symbol_of (sp "a"); symbol_of (sp "u")], [Gr (bytes "au")]);
  ([symbol_of (sp "an"); symbol_of (sp "long")], [Gr (bytes "aan")])].
Proof. vm_compute. reflexivity. Qed.
Lemma initial_signs : initial_sign (Gr (bytes "llv")) = true /\ initial_sign (Gr (bytes "rrv")) = true /\ initial_sign (Gr (bytes "lv")) = true /\ initial_sign (Gr (bytes "rv")) = true /\ initial_sign (Gr (bytes "ai")) = true /\ initial_sign (Gr (bytes "au")) = true /\ initial_sign (Gr (bytes "aan")) = false.
Proof. repeat split; vm_compute; reflexivity. Qed.
Lemma simple_known : initial_sign (symbol_of (sp "l")) = false /\ initial_sign (symbol_of (sp "r")) = false /\ initial_sign (symbol_of (sp "an")) = true /\ initial_sign (symbol_of (sp "a")) = true.
Proof. repeat split; vm_compute; reflexivity. Qed.
Lemma vowel_start cs t1 t2 : letters cs -> rewriting (composing LONG_VOCALIC) None None [] (map symbol_of cs) t1 -> rewriting (composing TWO_POINT_SIGN) None None [] t1 t2 ->
  ((exists w u, In w initial_vowels /\ t2 = w ++ u) <-> starts_with_vowel cs).
Proof.
  intros H R1 R2. destruct (typ_rule (composing LONG_VOCALIC)) as (N1 & _); [left; reflexivity|]. destruct (typ_rule (composing TWO_POINT_SIGN)) as (N2 & _); [right; left; reflexivity|].
  destruct cs as [|c rest].
  { cbn in R1. rewrite (rewriting_nil _ _ _ _ _ N1 R1) in R2. rewrite (rewriting_nil _ _ _ _ _ N2 R2). split; [intros X; destruct (initial_none X)|intros [(? & ? & E & _)|(? & ? & E & _)]; discriminate E]. }
  inversion H as [|? ? Hc Hr]; subst. cbn [map] in R1.
  assert (Kn : forall t u, In t known_letters -> symbol_of c :: map symbol_of rest = symbol_of (sp t) :: u -> c = sp t).
  { intros t u I E. destruct (start_symbol t (c :: rest) u H I E) as (r & K). congruence. }
  destruct initial_signs as (I1 & I2 & I3 & I4 & I5 & I6 & I7). destruct simple_known as (S1 & S2 & S3 & S4).
  assert (Ia : In (sp "a") SIMPLE_VOWEL) by (apply simple_initial_ok; [apply known_letter; cbn; tauto|exact S4]).
  assert (Nl : sp "l" <> sp "an") by (intros E; rewrite E in S1; congruence). assert (Nr : sp "r" <> sp "an") by (intros E; rewrite E in S2; congruence).
  assert (Nlr : forall d, In d SIMPLE_VOWEL -> d <> sp "l" /\ d <> sp "r").
  { intros d Id. pose proof (proj2 (simple_initial_ok d (simple_letter d Id)) Id) as K. split; intros ->; congruence. }
  apply head_cases in R1 as [(l & r & u & o & I & E & -> & R1)|[C1 (o & -> & R1)]]; [| |exact N1].
  - (* long vocalic *)
    assert (V : exists t, (t = "l"%string \/ t = "r"%string) /\ (exists u', symbol_of c :: map symbol_of rest = symbol_of (sp t) :: symbol_of (sp "vcl") :: u') /\ exists x, r = [x] /\ initial_sign x = true /\ forall l0 r0 v w, In (l0, r0) (composing TWO_POINT_SIGN) -> x :: v <> l0 ++ w).
    { rewrite long_rules in I. destruct I as [K|[K|[]]]; injection K as <- <-; cbn [app] in E; [exists "l"%string|exists "r"%string]; (split; [tauto|]); (split; [eexists; exact E|]); eexists; (split; [reflexivity|split; [assumption|]]); rewrite two_rules; intros l0 r0 v w J; (repeat (destruct J as [J|J]; [injection J as <- <-; vm_compute; discriminate|])); destruct J. }
    destruct V as (t & It & (u' & Eu) & x & -> & Ix & Nx). cbn [app] in R2. apply head_cases in R2 as [(l2 & r2 & v & o2 & J & E2 & _)|[_ (o2 & -> & _)]]; [destruct (Nx _ _ _ _ J E2)| |exact N2]. rewrite initial_ok. split; [|intros _; exact Ix]. intros _. right.
    pose proof (Kn t _ ltac:(destruct It as [->| ->]; cbn; tauto) Eu) as ->. injection Eu as Eu. destruct (start_symbol "vcl" rest u' Hr ltac:(cbn; tauto) Eu) as (rest' & ->). exists (sp t), rest'. split; [reflexivity|]. destruct It as [->| ->]; tauto.
  - assert (Hd : forall t, (t = "vcl" \/ t = "long" \/ t = "i" \/ t = "u")%string -> ((exists v, o = symbol_of (sp t) :: v) <-> exists r', rest = sp t :: r')).
    { intros t It. assert (Hs : starts_no_rule (symbol_of (sp t)) (composing LONG_VOCALIC) = true) by (destruct It as [->|[->|[->| ->]]]; vm_compute; reflexivity). rewrite <- (same_start _ _ _ _ _ N1 Hs R1). split.
      - intros (v & E). apply (start_symbol t rest v Hr); [destruct It as [->|[->|[->| ->]]]; cbn; tauto|exact E].
      - intros (r' & ->). eexists. reflexivity. }
    apply head_cases in R2 as [(l & r & v & o2 & J & E & -> & _)|[C2 (o2 & -> & _)]]; [| |exact N2].
    + rewrite two_rules in J. assert (Ec : forall t v', In t known_letters -> symbol_of c :: o = symbol_of (sp t) :: v' -> c = sp t).
      { intros t v' It K. apply (Kn t (map symbol_of rest) It). injection K as K _. f_equal. unfold symbol_of. rewrite K. reflexivity. }
      destruct J as [J|[J|[J|[J|[J|[]]]]]]; injection J as <- <-; cbn [app] in E |- *; rewrite initial_ok; (match type of E with _ = symbol_of (sp ?t) :: _ => let Q := fresh in assert (Q : c = sp t) by (apply (Ec t _ ltac:(cbn; tauto) E)); subst c end); injection E as E; (match type of E with _ = symbol_of (sp ?t) :: _ => destruct (proj1 (Hd t ltac:(tauto)) (ex_intro _ v E)) as (r' & ->) end).
      * split; [intros _; right; eexists; eexists; split; [reflexivity|tauto]|auto].
      * split; [intros _; right; eexists; eexists; split; [reflexivity|tauto]|auto].
      * split; [|auto]. intros _. left. eexists; eexists. split; [reflexivity|]. split; [exact Ia|]. intros (K & _). apply (f_equal btyp) in K. vm_compute in K. discriminate K.
      * split; [|auto]. intros _. left. eexists; eexists. split; [reflexivity|]. split; [exact Ia|]. intros (K & _). apply (f_equal btyp) in K. vm_compute in K. discriminate K.
      * split; [congruence|]. intros [(d & r2 & K & _ & Nd)|(d & r2 & K & Od)]; pose proof (f_equal (@hd_error bchar) K) as Kd; cbn [hd_error] in Kd; pose proof (f_equal (@tl bchar) K) as Kr; cbn [tl] in Kr.
        -- destruct Nd. split; [congruence|]. exists r'. congruence.
        -- exfalso. destruct Od as [Od|Od]; congruence.
    + rewrite initial_ok, (simple_initial_ok c Hc). split.
      * intros Ic. left. exists c, rest. split; [reflexivity|]. split; [exact Ic|]. intros (-> & r' & ->). destruct (proj2 (Hd "long"%string ltac:(tauto)) (ex_intro _ r' eq_refl)) as (v & ->). apply (C2 [symbol_of (sp "an"); symbol_of (sp "long")] [Gr (bytes "aan")] v); [rewrite two_rules; cbn; tauto|reflexivity].
      * intros [(d & r2 & K & Id & _)|(d & r2 & K & Od)]; injection K as <- ->; [exact Id|]. exfalso. destruct (proj2 (Hd "vcl"%string ltac:(tauto)) (ex_intro _ r2 eq_refl)) as (v & ->).
        destruct Od as [->| ->]; [apply (C2 [symbol_of (sp "l"); symbol_of (sp "vcl")] [Gr (bytes "lv")] v)|apply (C2 [symbol_of (sp "r"); symbol_of (sp "vcl")] [Gr (bytes "rv")] v)]; try reflexivity; rewrite two_rules; cbn; tauto.
Qed.

(** ** Nothing is left to put together *)
Definition steps_after (l : list (list (word * word))) (c : bchar) : bool := forallb (fun rs => apart_from (cmp c) rs) l.
Definition LV := composing LONG_VOCALIC. Definition TP := composing TWO_POINT_SIGN. Definition IV := composing INDEPENDENT_VOWEL. Definition CC := composing COMPOSITE_CONSONANT. Definition OC := composing (OM ++ CND).
Lemma apart_later :
  (if forallb (steps_after [LV; TP; IV; CC; OC]) LONG_VOCALIC then if forallb (steps_after [TP; IV; CC; OC]) TWO_POINT_SIGN then if forallb (steps_after [IV; CC; OC]) INDEPENDENT_VOWEL then
   if forallb (steps_after [CC; OC]) COMPOSITE_CONSONANT then forallb (steps_after [OC]) (OM ++ CND) else false else false else false else false) = true.
Proof. vm_compute. reflexivity. Qed.
Lemma no_ind_components : forallb (fun c => match cmp c with t :: _ => negb (tok_eqb t IND) | [] => false end) (LONG_VOCALIC ++ TWO_POINT_SIGN) = true.
Proof. vm_compute. reflexivity. Qed.
Lemma some_component : forallb (fun c => match cmp c with [] => false | _ => true end) composites = true.
Proof. vm_compute. reflexivity. Qed.
Lemma nothing_left ts out c : typ_chars ts -> typ_steps ts out -> In c composites -> nowhere (cmp c) out.
Proof.
  intros H (t1 & t2 & t3 & t4 & t5 & P1 & P2 & P3 & P4 & P5 & P6) Ic. assert (Nc : cmp c <> []) by (pose proof (proj1 (forallb_forall _ _) some_component c Ic) as K; cbn beta in K; intros E; rewrite E in K; discriminate K).
  assert (Go : forall l ts out, In (composing l) typ_rules -> apart_from (cmp c) (composing l) = true -> rewriting (composing l) None None [] ts out -> (nowhere (cmp c) ts \/ In c l) -> nowhere (cmp c) out).
  { intros l x o I A R K. apply (compose_nowhere (cmp c) (composing l) x o); [exact (proj1 (typ_rule _ I))|exact Nc|exact A|exact R|]. destruct K as [K|K]; [left; exact K|right]. apply in_map_iff. exists (cmp c, bgr c). split; [reflexivity|]. apply in_map_iff. exists c. auto. }
  assert (H2 : typ_chars t2) by (eapply typ_chars_kept; [|eapply typ_chars_kept; [|exact H|exact P1]|exact P2]; [right; left; reflexivity|left; reflexivity]).
  assert (Ins : In c (LONG_VOCALIC ++ TWO_POINT_SIGN) -> nowhere (cmp c) t2 -> nowhere (cmp c) t3).
  { intros J N. destruct (insert_cases t2 t3 H2 P3) as [[_ ->]|[_ ->]]; [|exact N]. intros [|x u] v E; cbn [app] in E.
    - pose proof (proj1 (forallb_forall _ _) no_ind_components c J) as K. cbn beta in K. destruct (cmp c) as [|t w]; [discriminate K|]. injection E as <- _. rewrite (proj2 (tok_eqb_spec IND IND) eq_refl) in K. discriminate K.
    - injection E as _ E. exact (N u v E). }
  pose proof apart_later as A. repeat match type of A with (if ?b then _ else false) = true => let K := fresh "A" in destruct b eqn:K; [|discriminate A]; rewrite forallb_forall in K end. rewrite forallb_forall in A.
  assert (F : forall l, steps_after l c = true -> forall rs, In rs l -> apart_from (cmp c) rs = true) by (intros l K; exact (proj1 (forallb_forall _ _) K)).
  assert (L1 : In LV typ_rules) by (left; reflexivity). assert (L2 : In TP typ_rules) by (right; left; reflexivity). assert (L3 : In IV typ_rules) by (right; right; left; reflexivity). assert (L4 : In CC typ_rules) by (right; right; right; left; reflexivity). assert (L5 : In OC typ_rules) by (right; right; right; right; left; reflexivity).
  unfold composites, TWO_POINT in Ic. rewrite !in_app_iff in Ic. destruct Ic as [J|[J|[J|[J|[J|J]]]]].
  - pose proof (F _ (A0 c J)) as G. apply (Go _ t5 out L5); [apply G; cbn; tauto|exact P6|left]. apply (Go _ t4 t5 L4); [apply G; cbn; tauto|exact P5|left]. apply (Go _ t3 t4 L3); [apply G; cbn; tauto|exact P4|left]. apply Ins; [apply in_app_iff; auto|]. apply (Go _ t1 t2 L2); [apply G; cbn; tauto|exact P2|left]. apply (Go _ ts t1 L1); [apply G; cbn; tauto|exact P1|right; exact J].
  - pose proof (F _ (A1 c J)) as G. apply (Go _ t5 out L5); [apply G; cbn; tauto|exact P6|left]. apply (Go _ t4 t5 L4); [apply G; cbn; tauto|exact P5|left]. apply (Go _ t3 t4 L3); [apply G; cbn; tauto|exact P4|left]. apply Ins; [apply in_app_iff; auto|]. apply (Go _ t1 t2 L2); [apply G; cbn; tauto|exact P2|right; exact J].
  - pose proof (F _ (A2 c J)) as G. apply (Go _ t5 out L5); [apply G; cbn; tauto|exact P6|left]. apply (Go _ t4 t5 L4); [apply G; cbn; tauto|exact P5|left]. apply (Go _ t3 t4 L3); [apply G; cbn; tauto|exact P4|right; exact J].
  - pose proof (F _ (A3 c J)) as G. apply (Go _ t5 out L5); [apply G; cbn; tauto|exact P6|left]. apply (Go _ t4 t5 L4); [apply G; cbn; tauto|exact P5|right; exact J].
  - assert (J' : In c (OM ++ CND)) by (apply in_app_iff; auto). pose proof (F _ (A c J')) as G. apply (Go _ t5 out L5); [apply G; cbn; tauto|exact P6|right; exact J'].
  - assert (J' : In c (OM ++ CND)) by (apply in_app_iff; auto). pose proof (F _ (A c J')) as G. apply (Go _ t5 out L5); [apply G; cbn; tauto|exact P6|right; exact J'].
Qed.

(** ** Together *)
Lemma ind_glyph : bglyph (sp "ind") = bytes ".".
Proof. vm_compute. reflexivity. Qed.
Lemma steps_text cs out : letters cs -> typ_steps (map symbol_of cs) out ->
  typ_chars out /\ ((starts_with_vowel cs /\ flat_map glyph_of out = bytes "." ++ text_of cs) \/ (~ starts_with_vowel cs /\ flat_map glyph_of out = text_of cs)).
Proof.
  intros H (t1 & t2 & t3 & t4 & t5 & P1 & P2 & P3 & P4 & P5 & P6). pose proof (letters_chars cs H) as H0.
  assert (L1 : In LV typ_rules) by (left; reflexivity). assert (L2 : In TP typ_rules) by (right; left; reflexivity). assert (L3 : In IV typ_rules) by (right; right; left; reflexivity). assert (L4 : In CC typ_rules) by (right; right; right; left; reflexivity). assert (L5 : In OC typ_rules) by (right; right; right; right; left; reflexivity).
  assert (G : forall rs ts o, In rs typ_rules -> rewriting rs None None [] ts o -> flat_map glyph_of o = flat_map glyph_of ts) by (intros rs ts o I R; exact (rewriting_glyphs glyph_of rs None None [] ts o (proj1 (proj2 (proj2 (typ_rule rs I)))) R)).
  pose proof (typ_chars_kept _ _ _ _ L1 H0 P1) as H1. pose proof (typ_chars_kept _ _ _ _ L2 H1 P2) as H2.
  assert (E0 : flat_map glyph_of (map symbol_of cs) = text_of cs).
  { clear - H. induction H as [|c cs I H IH]; [reflexivity|]. cbn [map flat_map text_of]. rewrite IH, (glyph_of_symbol c (letter_char c I)). reflexivity. }
  assert (Ei : glyph_of IND = bytes ".") by (unfold IND; rewrite (glyph_of_symbol _ ind_char); exact ind_glyph).
  pose proof (vowel_start cs t1 t2 H P1 P2) as Vs. assert (H3 : typ_chars t3 /\ ((starts_with_vowel cs /\ flat_map glyph_of t3 = bytes "." ++ text_of cs) \/ (~ starts_with_vowel cs /\ flat_map glyph_of t3 = text_of cs))).
  { destruct (insert_cases t2 t3 H2 P3) as [[X ->]|[X ->]]; rewrite Vs in X.
    - split; [constructor; [apply in_map, ind_char|exact H2]|]. left. split; [exact X|]. cbn [flat_map]. rewrite Ei, (G _ _ _ L2 P2), (G _ _ _ L1 P1), E0. reflexivity.
    - split; [exact H2|]. right. split; [exact X|]. rewrite (G _ _ _ L2 P2), (G _ _ _ L1 P1), E0. reflexivity. }
  destruct H3 as [H3 T3]. pose proof (typ_chars_kept _ _ _ _ L3 H3 P4) as H4. pose proof (typ_chars_kept _ _ _ _ L4 H4 P5) as H5. split; [exact (typ_chars_kept _ _ _ _ L5 H5 P6)|]. rewrite (G _ _ _ L5 P6), (G _ _ _ L4 P5), (G _ _ _ L3 P4). exact T3.
Qed.
Lemma typ_no_pairs : forallb no_pairs typ_ops = true.
Proof. reflexivity. Qed.
Lemma typ_runs cs : letters cs -> exists ts, typ_steps (map symbol_of cs) ts /\ (forall o, performs_all typ_ops (map symbol_of cs) o <-> o = ts) /\ typ_chars ts.
Proof.
  intros H. destruct (performs_all_total typ_ops (well_formed_all _ typ_well_formed) typ_no_pairs (map symbol_of cs)) as (ts & P). exists ts. split; [apply typ_steps_ok; exact P|]. split; [|exact (proj1 (steps_text cs ts H (proj1 (typ_steps_ok _ _) P)))]. intros o. split; [|intros ->; exact P].
  intros Q. apply (steps_unique (map symbol_of cs) (letters_chars cs H)); apply typ_steps_ok; assumption.
Qed.
Lemma only_bind x l (g : str -> list str) (o : str) : only x l -> only o (g x) -> only o (flat_map g l).
Proof. intros Hx Ho y. rewrite in_flat_map. split; [intros (z & I & J); apply Hx in I as ->; apply Ho; exact J|intros ->; exists x; split; [apply Hx; reflexivity|apply Ho; reflexivity]]. Qed.
Lemma iso_to_typ_ok cs : letters cs -> exists ds,
  (forall c, In c ds -> In c CHARS) /\ only (encs (map symbol_of ds)) (iso_to_typ (text_of cs)) /\
  ((starts_with_vowel cs /\ text_of ds = bytes "." ++ text_of cs) \/ (~ starts_with_vowel cs /\ text_of ds = text_of cs)) /\
  (forall c, In c composites -> nowhere (cmp c) (map symbol_of ds)).
Proof.
  intros H. destruct (typ_runs cs H) as (ts & P & U & Ht). destruct (chars_glyphs ts Ht) as (ds & -> & Hd & Eg). exists ds. split; [exact Hd|]. split; [|split].
  - apply (only_bind _ _ _ _ (read_letters cs H)). intros x. rewrite (run_bytes_ok typ_ops typ_well_formed typ_staged (map symbol_of cs) x (typ_symbols _ (letters_chars cs H)) (or_intror (typ_no_translit _ (letters_chars cs H)))). split; [intros (o & Q & ->); apply U in Q as ->; reflexivity|intros ->; eexists; split; [apply U; reflexivity|reflexivity]].
  - rewrite <- Eg. exact (proj2 (steps_text cs _ H P)).
  - intros c Ic. exact (nothing_left _ _ c (letters_chars cs H) P Ic).
Qed.
Lemma iso_to_typ_none s : iso_to_typ s <> [] -> exists cs, letters cs /\ s = text_of cs.
Proof. unfold iso_to_typ. intros H. destruct (map fst (outs read_iso s)) as [|x l] eqn:E; [destruct H; reflexivity|]. apply (read_only_letters s x). rewrite E. left. reflexivity. Qed.
