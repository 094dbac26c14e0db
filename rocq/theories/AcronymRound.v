(** The characters of a spelled-out word. *)
From Coq Require Import String Lia.
From Verif Require Import Base RuleModel RegexModel VisualModel ScriptData ScriptTables IsoModel AlignModel AlignSpec AlignProofs AlignMore NatModel NatSpec NatProofs NatBytes NatTyp NatTypMain NatMain NatRoman NatPhon
  AcronymModel AcronymSpec AcronymProofs AcronymMain AcronymNat AcronymSpelled.
From Verif Require ByteModel SpelloutTables SpelloutModel SpelloutSpec SpelloutProofs IsoTextSpec IsoReader.
Local Open Scope list_scope.

Definition ch (t : string) : bchar := match find (fun c => String.eqb (btyp c) t) CHARS with Some c => c | None => sp t end.
Definition read0 (c : N) : list bchar := map sp (chars_of c).
Definition read1 (c : N) : list bchar := map sp (dotted (chars_of c)).
Definition word1 (c : N) : list bchar := map ch (joined (dotted (chars_of c))).
Definition memc (l : list bchar) (c : bchar) : bool := existsb (fun d => tok_eqb (symbol_of d) (symbol_of c)) l.

(** * Texts *)
Definition textb (c : N) : bool :=
  if str_eqb (ByteModel.bytes (full c)) (text_of (read0 c)) then if str_eqb (ByteModel.bytes (dot c ++ full c)) (text_of (read1 c)) then
    match chars_of c with [] => false | _ => forallb (fun t => match find (fun c => String.eqb (btyp c) t) SINGLE_POINT with Some _ => true | None => false end) (dotted (chars_of c)) end else false else false.
Lemma text_all : forallb textb alphabet = true.
Proof. vm_compute. reflexivity. Qed.
Lemma found_single l : forallb (fun t => match find (fun c => String.eqb (btyp c) t) SINGLE_POINT with Some _ => true | None => false end) l = true -> letters (map sp l).
Proof.
  intros H. apply Forall_forall. intros c K. apply in_map_iff in K. destruct K as (t & <- & K). rewrite forallb_forall in H. apply H in K. destruct (find (fun c => String.eqb (btyp c) t) SINGLE_POINT) as [c|] eqn:E; [|discriminate].
  apply sp_char in E. destruct E as [-> E]. exact E.
Qed.
Lemma dotted_incl l : incl l (dotted l).
Proof. unfold dotted. destruct l as [|v l]; [intros x K; exact K|]. destruct (existsb (String.eqb v) vowels); intros x K; [right|]; exact K. Qed.
Lemma text_letter c : In c alphabet -> ByteModel.bytes (full c) = text_of (read0 c) /\ ByteModel.bytes (dot c ++ full c) = text_of (read1 c) /\ letters (read0 c) /\ letters (read1 c) /\ chars_of c <> [].
Proof.
  intros H. pose proof text_all as K. rewrite forallb_forall in K. apply K in H. clear K. unfold textb in H.
  destruct (str_eqb (ByteModel.bytes (full c)) (text_of (read0 c))) eqn:E1; [|discriminate]. destruct (str_eqb (ByteModel.bytes (dot c ++ full c)) (text_of (read1 c))) eqn:E2; [|discriminate]. apply str_eqb_eq in E1, E2.
  destruct (chars_of c) as [|v l] eqn:E; [discriminate|]. rewrite <- E in H |- *. apply found_single in H. repeat split; auto; [|congruence].
  apply Forall_forall. intros x Kx. apply in_map_iff in Kx. destruct Kx as (t & <- & Kt). apply (proj1 (Forall_forall _ _) H). apply in_map. apply dotted_incl. exact Kt.
Qed.
Definition chars_w (w : list N) : list bchar := match w with [] => [] | c :: r => read0 c ++ flat_map read1 r end.
Lemma text_word w : incl w alphabet -> ByteModel.bytes (iso w) = text_of (chars_w w) /\ letters (chars_w w).
Proof.
  destruct w as [|c w]; intros Hw; [split; [reflexivity|constructor]|]. cbn [iso chars_w]. destruct (text_letter c (Hw c (or_introl eq_refl))) as (E & _ & L & _).
  unfold ByteModel.bytes, text_of in *. rewrite !flat_map_app, E.
  assert (T : flat_map ByteModel.labels (tail w) = flat_map bglyph (flat_map read1 w) /\ letters (flat_map read1 w)).
  { assert (Hw' : incl w alphabet) by (intros x K; apply Hw; right; auto). clear - Hw'. induction w as [|c w IH]; [split; [reflexivity|constructor]|]. cbn [tail flat_map].
    destruct (text_letter c (Hw' c (or_introl eq_refl))) as (_ & E & _ & L & _). destruct IH as [IE IL]; [intros x K; apply Hw'; right; auto|]. unfold ByteModel.bytes, text_of, tail in *. rewrite !flat_map_app, IE. split; [|apply Forall_app; auto].
    f_equal. rewrite <- flat_map_app. exact E. }
  destruct T as [T1 T2]. split; [rewrite T1; reflexivity|apply Forall_app; auto].
Qed.

(** * Composing *)
(** Tokens that stand side by side *)
Fixpoint linked (f : tok -> tok -> bool) (ts : word) : bool :=
  match ts with
  | a :: r => match r with b :: _ => if f a b then linked f r else false | [] => true end
  | [] => true
  end.
Definition twos (rs : list (word * word)) : bool := forallb (fun q : word * word => match fst q with _ :: _ :: _ => true | _ => false end) rs.
Definition free (rs : list (word * word)) (a b : tok) : bool :=
  forallb (fun q : word * word => match fst q with x :: y :: _ => if tok_eqb x a then negb (tok_eqb y b) else true | _ => true end) rs.
Lemma linked_app f u v : linked f (u ++ v) = true -> linked f v = true.
Proof. induction u as [|a u IH]; auto. cbn. destruct (u ++ v) as [|b r] eqn:E; [destruct u; [cbn in E; subst; auto|discriminate]|]. destruct (f a b); [|discriminate]. auto. Qed.
Lemma linked_same rs p d ts out : twos rs = true -> rewriting rs p None d ts out -> linked (free rs) ts = true -> out = ts.
Proof.
  intros T. induction 1 as [done|done l r rest out I P F H IH|done t rest out N H IH]; intros L; auto.
  - exfalso. unfold twos in T. rewrite forallb_forall in T. specialize (T _ I). cbn [fst] in T. destruct l as [|a [|b l]]; try discriminate. cbn [app linked] in L.
    destruct (free rs a b) eqn:E; [|discriminate]. unfold free in E. rewrite forallb_forall in E. specialize (E _ I). cbn [fst] in E. rewrite (proj2 (tok_eqb_spec a a) eq_refl), (proj2 (tok_eqb_spec b b) eq_refl) in E. discriminate.
  - f_equal. apply IH; auto. apply (linked_app _ [t]). exact L.
Qed.
Lemma linked_cat f : forall u a b v, linked f (u ++ [a]) = true -> f a b = true -> linked f (b :: v) = true -> linked f ((u ++ [a]) ++ b :: v) = true.
Proof.
  induction u as [|x u IH]; intros a b v H1 H2 H3.
  - cbn [app] in *. change (linked f (a :: b :: v)) with (if f a b then linked f (b :: v) else false). rewrite H2. exact H3.
  - destruct u as [|y u].
    + cbn [app] in *. change (linked f (x :: a :: b :: v)) with (if f x a then linked f (a :: b :: v) else false). cbn in H1. destruct (f x a); [|discriminate].
      apply (IH a b v); auto.
    + change (linked f (x :: ((y :: u ++ [a]) ++ b :: v)) = true). change (linked f (x :: (y :: u ++ [a]))= true) in H1. cbn [linked app] in H1 |- *. destruct (f x y); [|discriminate]. apply (IH a b v); auto.
Qed.
(** Words made of blocks *)
Definition block_ok (f : tok -> tok -> bool) (B : list word) : bool :=
  forallb (fun b => match b with [] => false | _ => linked f b end) B.
Definition seams_ok (f : tok -> tok -> bool) (B : list word) (firsts : list word) : bool :=
  forallb (fun b => forallb (fun b' => match b' with [] => false | y :: _ => f (List.last b Eq) y end) firsts) B.
Lemma linked_blocks f B B' : block_ok f (B ++ B') = true -> seams_ok f (B ++ B') B' = true -> forall b bs, In b (B ++ B') -> incl bs B' -> linked f (b ++ concat bs) = true.
Proof.
  intros HB HS b bs. unfold block_ok in HB. rewrite forallb_forall in HB. unfold seams_ok in HS. rewrite forallb_forall in HS. revert b. induction bs as [|c bs IH]; intros b Hb Hbs.
  - cbn [concat]. rewrite app_nil_r. apply HB in Hb. destruct b; [discriminate|exact Hb].
  - assert (Hc : In c B') by (apply Hbs; left; auto). specialize (IH c ltac:(apply in_or_app; auto) ltac:(intros x K; apply Hbs; right; auto)). cbn [concat].
    pose proof (HS b Hb) as S1. rewrite forallb_forall in S1. specialize (S1 c Hc). destruct c as [|y c]; [discriminate|]. pose proof (HB b Hb) as L. destruct b as [|x b]; [discriminate|].
    destruct (exists_last (l := x :: b) ltac:(discriminate)) as (m & z & Em). rewrite Em in *. rewrite last_last in S1. cbn [app]. apply linked_cat; auto.
Qed.

(** * The steps of reading *)
Definition toks0 (c : N) : word := map symbol_of (read0 c).
Definition toks1 (c : N) : word := map symbol_of (read1 c).
Definition toks2 (c : N) : word := map symbol_of (word1 c).
Definition linksb (rs : list (word * word)) : bool :=
  let f := free rs in
  if twos rs then if block_ok f (map toks0 alphabet ++ map toks1 alphabet) then seams_ok f (map toks0 alphabet ++ map toks1 alphabet) (map toks1 alphabet) else false else false.
Lemma links_signs : (if linksb (composing LONG_VOCALIC) then linksb (composing TWO_POINT_SIGN) else false) = true.
Proof. vm_compute. reflexivity. Qed.
Definition linksb2 (rs : list (word * word)) : bool :=
  let f := free rs in if twos rs then if block_ok f ([] ++ map toks2 alphabet) then seams_ok f ([] ++ map toks2 alphabet) (map toks2 alphabet) else false else false.
Lemma links_rest : (if linksb2 (composing COMPOSITE_CONSONANT) then linksb2 (composing (OM ++ CND)) else false) = true.
Proof. vm_compute. reflexivity. Qed.
Lemma flat_concat (A B : Type) (f : A -> list B) l : flat_map f l = concat (map f l).
Proof. apply flat_map_concat_map. Qed.
Lemma incl_map_al (f : N -> word) w : incl w alphabet -> incl (map f w) (map f alphabet).
Proof. intros H x K. apply in_map_iff in K. destruct K as (c & <- & K). apply in_map. apply H. exact K. Qed.
Lemma signs_same rs d c w out : linksb rs = true -> In c alphabet -> incl w alphabet -> rewriting rs None None d (toks0 c ++ flat_map toks1 w) out -> out = toks0 c ++ flat_map toks1 w.
Proof.
  unfold linksb. intros H Hc Hw R. destruct (twos rs) eqn:T; [|discriminate]. destruct (block_ok (free rs) (map toks0 alphabet ++ map toks1 alphabet)) eqn:B; [|discriminate].
  apply (linked_same rs None d _ out T R). rewrite flat_concat. apply (linked_blocks _ _ _ B H); [apply in_or_app; left; apply in_map; exact Hc|apply incl_map_al; exact Hw].
Qed.
Lemma rest_same rs d w out : linksb2 rs = true -> incl w alphabet -> rewriting rs None None d (flat_map toks2 w) out -> out = flat_map toks2 w.
Proof.
  unfold linksb2. intros H Hw R. destruct (twos rs) eqn:T; [|discriminate]. destruct (block_ok (free rs) ([] ++ map toks2 alphabet)) eqn:B; [|discriminate].
  apply (linked_same rs None d _ out T R). destruct w as [|c w]; [reflexivity|]. cbn [flat_map]. rewrite flat_concat. apply (linked_blocks _ [] _ B H); [apply in_map; apply Hw; left; auto|apply incl_map_al; intros x K; apply Hw; right; auto].
Qed.
(** The dot *)
Definition startb (c : N) : bool := match toks0 c with t :: _ => if starts_vowel c then if initial_sign t then true else false else if initial_sign t then false else true | [] => false end.
Lemma start_all : forallb startb alphabet = true.
Proof. vm_compute. reflexivity. Qed.
Lemma start_letter c : In c alphabet -> exists t u, toks0 c = t :: u /\ initial_sign t = starts_vowel c.
Proof.
  intros H. pose proof start_all as K. rewrite forallb_forall in K. apply K in H. unfold startb in H. destruct (toks0 c) as [|t u]; [discriminate|]. exists t, u. split; auto. destruct (starts_vowel c), (initial_sign t); auto; discriminate.
Qed.
Lemma toks1_eq c : toks1 c = if starts_vowel c then IND :: toks0 c else toks0 c.
Proof. unfold toks1, read1, toks0, read0, starts_vowel, dotted. destruct (chars_of c) as [|v l]; [reflexivity|]. destruct (existsb (String.eqb v) vowels); reflexivity. Qed.
(** Independent vowels *)
Fixpoint compose1 (ts : word) : option word :=
  match ts with
  | [] => Some []
  | t :: r => if tok_eqb t IND then match r with
                | v :: r' => match find (fun q : word * word => match fst q with [_; v'] => tok_eqb v' v | _ => false end) (composing INDEPENDENT_VOWEL), compose1 r' with
                             | Some q, Some o => Some (snd q ++ o) | _, _ => None end
                | [] => None end
              else match compose1 r with Some o => Some (t :: o) | None => None end
  end.
Lemma ind_rules : forallb (fun q : word * word => match fst q with [x; _] => tok_eqb x IND | _ => false end) (composing INDEPENDENT_VOWEL) = true.
Proof. vm_compute. reflexivity. Qed.
Lemma compose1_ok n : forall ts o d rest out, length ts <= n -> compose1 ts = Some o -> (forall d', rewriting (composing INDEPENDENT_VOWEL) None None d' rest out) -> rewriting (composing INDEPENDENT_VOWEL) None None d (ts ++ rest) (o ++ out).
Proof.
  pose proof ind_rules as IR. rewrite forallb_forall in IR.
  induction n as [|n IH]; intros ts o d rest out Hn H R.
  - destruct ts; [|cbn in Hn; lia]. cbn in H. injection H as <-. apply R.
  - destruct ts as [|t ts]; [cbn in H; injection H as <-; apply R|]. cbn [compose1] in H. destruct (tok_eqb t IND) eqn:E.
    + apply tok_eqb_spec in E. subst t. destruct ts as [|v ts]; [discriminate|].
      destruct (find (fun q : word * word => match fst q with [_; v'] => tok_eqb v' v | _ => false end) (composing INDEPENDENT_VOWEL)) as [[l r]|] eqn:F; [|discriminate].
      destruct (compose1 ts) as [o'|] eqn:Ec; [|discriminate]. injection H as <-. apply find_some in F. destruct F as [I F]. pose proof (IR _ I) as K. cbn [fst snd] in *. destruct l as [|x [|y [|]]]; try discriminate.
      apply tok_eqb_spec in F, K. subst x y. change ((IND :: v :: ts) ++ rest) with ([IND; v] ++ (ts ++ rest)). rewrite <- app_assoc.
      apply (re_apply _ None None d [IND; v] r (ts ++ rest) (o' ++ out) I Logic.I Logic.I). apply IH; auto. cbn in Hn. lia.
    + destruct (compose1 ts) as [o'|] eqn:Ec; [|discriminate]. injection H as <-. cbn [app]. apply re_copy.
      * intros l r u I Eu _ _. apply IR in I. cbn [fst] in I. destruct l as [|x [|y [|]]]; try discriminate. cbn in Eu. injection Eu as <- _. rewrite I in E. discriminate.
      * apply IH; auto. cbn in Hn. lia.
Qed.
Lemma compose_all : forallb (fun c => match compose1 (toks1 c) with Some o => word_eqb o (toks2 c) | None => false end) alphabet = true.
Proof. vm_compute. reflexivity. Qed.
Lemma compose_word w : incl w alphabet -> forall d, rewriting (composing INDEPENDENT_VOWEL) None None d (flat_map toks1 w) (flat_map toks2 w).
Proof.
  induction w as [|c w IH]; intros Hw d; [apply re_end|]. cbn [flat_map]. pose proof compose_all as K. rewrite forallb_forall in K. specialize (K c (Hw c (or_introl eq_refl))).
  destruct (compose1 (toks1 c)) as [o|] eqn:E; [|discriminate]. apply word_eqb_spec in K. subst o. apply (compose1_ok (length (toks1 c))); auto. intros d'. apply IH. intros x Kx. apply Hw. right. exact Kx.
Qed.
Lemma map_flat (A B C : Type) (g : B -> C) (f : A -> list B) l : map g (flat_map f l) = flat_map (fun x => map g (f x)) l.
Proof. induction l as [|x l IH]; [reflexivity|]. cbn. rewrite map_app, IH. reflexivity. Qed.
Lemma pick (A : Type) (b : bool) (i : A) (l : list A) (r t : list A) : (b = true /\ t = i :: (l ++ r)) \/ (b <> true /\ t = l ++ r) -> t = (if b then i :: l else l) ++ r.
Proof. destruct b; intros [[H ->]|[H ->]]; congruence || reflexivity. Qed.
Lemma word_steps c w out : In c alphabet -> incl w alphabet -> typ_steps (map symbol_of (chars_w (c :: w))) out -> out = map symbol_of (flat_map word1 (c :: w)).
Proof.
  intros Hc Hw (t1 & t2 & t3 & t4 & t5 & P1 & P2 & P3 & P4 & P5 & P6). assert (Hcw : incl (c :: w) alphabet) by (intros x [<-|K]; auto).
  assert (L : letters (chars_w (c :: w))) by (apply text_word; exact Hcw). pose proof (letters_chars _ L) as Tc.
  cbn [chars_w] in *. rewrite map_app, map_flat in *. change (map symbol_of (read0 c)) with (toks0 c) in *. change (fun x => map symbol_of (read1 x)) with toks1 in *.
  pose proof links_signs as LS. destruct (linksb (composing LONG_VOCALIC)) eqn:L1; [|discriminate]. pose proof links_rest as LR. destruct (linksb2 (composing COMPOSITE_CONSONANT)) eqn:L3; [|discriminate].
  apply (signs_same _ _ c w _ L1 Hc Hw) in P1. subst t1. apply (signs_same _ _ c w _ LS Hc Hw) in P2. subst t2.
  assert (E3 : t3 = flat_map toks1 (c :: w)).
  { cbn [flat_map]. rewrite toks1_eq. destruct (start_letter c Hc) as (t & u & Et & Es). apply (insert_cases _ _ Tc) in P3. rewrite Et in P3. change ((t :: u) ++ flat_map toks1 w) with (t :: (u ++ flat_map toks1 w)) in P3. rewrite initial_ok, Es in P3.
    rewrite Et. exact (pick tok (starts_vowel c) IND (t :: u) (flat_map toks1 w) t3 P3). }
  subst t3. assert (Ir : In (composing INDEPENDENT_VOWEL) typ_rules) by (unfold typ_rules; cbn [In]; tauto). destruct (typ_rule _ Ir) as (Ne & Ap & _).
  pose proof (rewriting_unique _ [] _ _ Ne Ap P4 [] _ (compose_word (c :: w) Hcw [])) as ->.
  apply (rest_same _ _ _ _ L3 Hcw) in P5. subst t5. apply (rest_same _ _ _ _ LR Hcw) in P6. subst out. reflexivity.
Qed.

(** * The word *)
Fixpoint fitsb (cs : list bchar) (ps : list (list string)) : bool :=
  match cs, ps with [], [] => true | c :: cs', p :: ps' => if existsb (String.eqb (btyp c)) p then fitsb cs' ps' else false | _, _ => false end.
Lemma fitsb_ok cs : forall ps, fitsb cs ps = true -> Forall2 (fun c p => In (btyp c) p) cs ps.
Proof.
  induction cs as [|c cs IH]; intros [|p ps] H; cbn in H; try discriminate; constructor.
  - destruct (existsb (String.eqb (btyp c)) p) eqn:E; [|discriminate]. apply existsb_exists in E. destruct E as (x & K & E). apply String.eqb_eq in E. subst x. exact K.
  - destruct (existsb (String.eqb (btyp c)) p); [|discriminate]. auto.
Qed.
Definition up (c : N) : string := String (Ascii.ascii_of_N (c - 32)) EmptyString.
Definition namedb (c : N) : bool :=
  if forallb (fun t => memc CHARS t) (word1 c) then existsb (fun q : string * list (list string) => if String.eqb (fst q) (up c) then fitsb (word1 c) (snd q) else false) letter_names else false.
Lemma named_all : forallb namedb alphabet = true.
Proof. vm_compute. reflexivity. Qed.
Lemma ch_known t : forall c, find (fun c => String.eqb (btyp c) t) CHARS = Some c -> In (ch t) CHARS.
Proof. intros c E. unfold ch. rewrite E. apply find_some in E. tauto. Qed.
Lemma chars_known : forallb (fun c => forallb (fun t => match find (fun c => String.eqb (btyp c) t) CHARS with Some _ => true | None => false end) (joined (dotted (chars_of c)))) alphabet = true.
Proof. vm_compute. reflexivity. Qed.
Lemma word_known c : In c alphabet -> forall x, In x (word1 c) -> In x CHARS.
Proof.
  intros H x K. pose proof chars_known as C. rewrite forallb_forall in C. apply C in H. rewrite forallb_forall in H. unfold word1 in K. apply in_map_iff in K. destruct K as (t & <- & K). apply H in K.
  destruct (find (fun c => String.eqb (btyp c) t) CHARS) as [d|] eqn:E; [|discriminate]. exact (ch_known t d E).
Qed.
Lemma word_named c : In c alphabet -> name_of (up c) (word1 c).
Proof.
  intros H. pose proof named_all as K. rewrite forallb_forall in K. apply K in H. unfold namedb in H. destruct (forallb (fun t => memc CHARS t) (word1 c)); [|discriminate].
  apply existsb_exists in H. destruct H as ([x ps] & Hx & E). cbn [fst snd] in E. destruct (String.eqb x (up c)) eqn:Eu; [|discriminate]. apply String.eqb_eq in Eu. subst x. exists ps. split; auto. apply fitsb_ok. exact E.
Qed.
Lemma word_acronym w : incl w alphabet -> acronym (flat_map word1 w) (map up w).
Proof. induction w as [|c w IH]; intros H; [constructor|]. cbn [flat_map map]. apply ac_letter; [apply word_named; apply H; left; auto|apply IH; intros x K; apply H; right; auto]. Qed.
Lemma alphabet_range c : In c alphabet <-> (97 <= c <= 122)%N.
Proof.
  split.
  - assert (K : forallb (fun c => if N.leb 97 c then N.leb c 122 else false) alphabet = true) by (vm_compute; reflexivity). rewrite forallb_forall in K. intros H. apply K in H. destruct (N.leb_spec 97 c); [|discriminate]. apply N.leb_le in H. lia.
  - intros H. assert (K : forallb (fun k => existsb (N.eqb (97 + N.of_nat k)) alphabet) (seq 0 26) = true) by (vm_compute; reflexivity). rewrite forallb_forall in K.
    specialize (K (N.to_nat (c - 97)) ltac:(apply in_seq; lia)). apply existsb_exists in K. destruct K as (x & Kx & E). apply N.eqb_eq in E. replace (97 + N.of_nat (N.to_nat (c - 97)))%N with c in E by lia. subst x. exact Kx.
Qed.
Lemma up_bytes c : In c alphabet -> bytes (up c) = [(c - 32)%N].
Proof.
  assert (K : forallb (fun c => str_eqb (bytes (up c)) [(c - 32)%N]) alphabet = true) by (vm_compute; reflexivity). rewrite forallb_forall in K. intros H. apply K in H. apply str_eqb_eq in H. exact H.
Qed.
Lemma capitals_word w : incl w alphabet -> capitals (map up w) = map (fun c => (c - 32)%N) w.
Proof. induction w as [|c w IH]; intros H; [reflexivity|]. cbn [map]. unfold capitals in *. cbn [flat_map]. rewrite (up_bytes c), IH; [reflexivity|intros x K; apply H; right; auto|apply H; left; auto]. Qed.
Lemma word_nat e w : incl w alphabet -> only (map (fun c => (c - 32)%N) w) (hi_nat e (ByteModel.bytes (iso w))).
Proof.
  intros H. destruct (text_word w H) as [-> L]. rewrite <- (capitals_word w H). destruct (reading_exists (chars_w w) L) as (ds & R).
  assert (E : ds = flat_map word1 w).
  { destruct R as (Hk & U & _). pose proof (proj2 (U _) eq_refl) as P. apply typ_steps_ok in P.
    assert (Es : map symbol_of ds = map symbol_of (flat_map word1 w)).
    { destruct w as [|c w]; [|apply word_steps; [apply H; left; auto|intros x K; apply H; right; auto|exact P]].
      cbn [chars_w map] in P. destruct P as (t1 & t2 & t3 & t4 & t5 & P1 & P2 & P3 & P4 & P5 & P6).
      assert (Z : forall l d o, In (composing l) typ_rules -> rewriting (composing l) None None d [] o -> o = []).
      { intros l d o I Q. destruct (typ_rule _ I) as (Ne & _). remember ([] : word) as z eqn:Ez in Q. destruct Q as [|d a b rest o K _ _ _|]; [auto| |discriminate]. apply app_eq_nil in Ez. destruct Ez as [Ez _]. subst a. exfalso. exact (proj1 (Forall_forall _ _) Ne _ K eq_refl). }
      apply Z in P1; [|unfold typ_rules; cbn [In]; tauto]. subst t1. apply Z in P2; [|unfold typ_rules; cbn [In]; tauto]. subst t2.
      apply insert_cases in P3; [|constructor]. destruct P3 as [[K _]|[_ ->]]; [exfalso; exact (initial_none K)|].
      apply Z in P4; [|unfold typ_rules; cbn [In]; tauto]. subst t4. apply Z in P5; [|unfold typ_rules; cbn [In]; tauto]. subst t5. apply Z in P6; [|unfold typ_rules; cbn [In]; tauto]. exact P6. }
    assert (Hw : forall x, In x (flat_map word1 w) -> In x CHARS) by (intros x K; apply in_flat_map in K; destruct K as (c & Kc & K); exact (word_known c (H c Kc) x K)).
    clear - Es Hk Hw. revert Es Hw. generalize (flat_map word1 w) as es. induction ds as [|d ds IH]; intros [|x es] E Hw; try discriminate; auto. cbn [map] in E. injection E as E1 E2. f_equal.
    - apply symbol_inj; [apply Hk; left; auto|apply Hw; left; auto|]. unfold symbol_of. rewrite E1. reflexivity.
    - apply IH; auto; intros y K; [apply Hk|apply Hw]; right; auto. }
  subst ds. exact (hi_acronym e (chars_w w) _ (map up w) L R (word_acronym w H)).
Qed.

(** * From English to Devanagari and back *)
Lemma hi_written w : incl w alphabet -> SpelloutSpec.written SpelloutModel.HI SpelloutModel.DEVA w = flat_map (SpelloutSpec.name SpelloutModel.HI SpelloutModel.DEVA) w.
Proof.
  assert (K : forallb (fun c => str_eqb (SpelloutSpec.bare (SpelloutSpec.name SpelloutModel.HI SpelloutModel.DEVA c)) (SpelloutSpec.name SpelloutModel.HI SpelloutModel.DEVA c)) alphabet = true) by (vm_compute; reflexivity). rewrite forallb_forall in K.
  induction w as [|c w IH]; intros H; [reflexivity|]. cbn [flat_map]. assert (Hw : incl w alphabet) by (intros x Kx; apply H; right; auto). destruct w as [|c2 w].
  - cbn [SpelloutSpec.written flat_map]. rewrite app_nil_r. apply str_eqb_eq. apply K. apply H. left. auto.
  - specialize (IH Hw). change (SpelloutSpec.written SpelloutModel.HI SpelloutModel.DEVA (c :: c2 :: w)) with (SpelloutSpec.name SpelloutModel.HI SpelloutModel.DEVA c ++ [] ++ SpelloutSpec.written SpelloutModel.HI SpelloutModel.DEVA (c2 :: w)). rewrite IH. reflexivity.
Qed.
Lemma written_lower w : SpelloutSpec.letters w -> SpelloutSpec.written SpelloutModel.HI SpelloutModel.DEVA w = SpelloutSpec.written SpelloutModel.HI SpelloutModel.DEVA (map SpelloutSpec.lower w) /\ incl (map SpelloutSpec.lower w) alphabet.
Proof.
  assert (L : forall c, (97 <= c <= 122 \/ 65 <= c <= 90)%N -> (97 <= SpelloutSpec.lower c <= 122)%N /\ SpelloutSpec.lower (SpelloutSpec.lower c) = SpelloutSpec.lower c).
  { intros c H. unfold SpelloutSpec.lower. destruct (N.leb_spec c 90) as [K|K].
    - destruct (N.leb_spec (c + 32) 90); lia.
    - destruct (N.leb_spec c 90); lia. }
  intros H. split.
  - induction H as [|c w Hc Hw IH]; [reflexivity|]. assert (En : SpelloutSpec.name SpelloutModel.HI SpelloutModel.DEVA c = SpelloutSpec.name SpelloutModel.HI SpelloutModel.DEVA (SpelloutSpec.lower c)) by (unfold SpelloutSpec.name; rewrite (proj2 (L c Hc)); reflexivity).
    destruct w as [|c2 w].
    + cbn [map SpelloutSpec.written]. rewrite En. reflexivity.
    + cbn [map] in *. change (SpelloutSpec.written SpelloutModel.HI SpelloutModel.DEVA (c :: c2 :: w)) with (SpelloutSpec.name SpelloutModel.HI SpelloutModel.DEVA c ++ [] ++ SpelloutSpec.written SpelloutModel.HI SpelloutModel.DEVA (c2 :: w)). rewrite IH, En. reflexivity.
  - intros x K. apply in_map_iff in K. destruct K as (c & <- & K). apply alphabet_range. apply L. exact (proj1 (Forall_forall _ _) H c K).
Qed.
Lemma spelled_back e w x y : In x (SpelloutModel.speller SpelloutModel.Utf8 SpelloutModel.HI SpelloutModel.DEVA w) -> In y (best_outs (iso_wt data_Deva) x) ->
  only (map (fun c => (SpelloutSpec.lower c - 32)%N) w) (hi_nat e (ByteModel.bytes y)).
Proof.
  intros Hx Hy. apply SpelloutProofs.speller_spec in Hx. destruct Hx as [Hl ->]. destruct (written_lower w Hl) as [E H]. unfold SpelloutModel.compile in Hy. rewrite E, (hi_written _ H) in Hy.
  assert (D : In data_Deva IsoTextSpec.longest_scripts) by (unfold IsoTextSpec.longest_scripts; cbn [In]; tauto).
  apply (IsoReader.romanize_all data_Deva D) in Hy. rewrite (romanize_word _ H) in Hy. injection Hy as <-. pose proof (word_nat e _ H) as K. rewrite map_map in K. exact K.
Qed.
Lemma spelled_exists w : SpelloutSpec.letters w -> exists x y, In x (SpelloutModel.speller SpelloutModel.Utf8 SpelloutModel.HI SpelloutModel.DEVA w) /\ In y (best_outs (iso_wt data_Deva) x).
Proof.
  intros Hl. destruct (written_lower w Hl) as [E H]. exists (SpelloutSpec.written SpelloutModel.HI SpelloutModel.DEVA w), (iso (map SpelloutSpec.lower w)). split; [apply SpelloutProofs.speller_spec; auto|].
  assert (D : In data_Deva IsoTextSpec.longest_scripts) by (unfold IsoTextSpec.longest_scripts; cbn [In]; tauto).
  apply (IsoReader.romanize_all data_Deva D). rewrite E, (hi_written _ H). exact (romanize_word _ H).
Qed.
