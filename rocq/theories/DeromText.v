(** Operations on syllables, reading and printing. *)
From Coq Require Import String.
From Verif Require Import Base RuleModel RegexModel RegexProofs IsoModel AlignModel AlignSpec AlignProofs AlignMore NatModel NatSpec NatProofs NatBytes NatBlocks NatBlocksProofs NatTyp NatTypMain DeromModel DeromBytes DeromPieces DeromSpec DeromReading.
Local Open Scope list_scope.

(** ** Printing *)
Definition value (tab : list (tok * str)) (t : tok) : option str :=
  match find (fun p : tok * str => tok_eqb (fst p) t) tab with
  | None => None
  | Some p => if forallb (fun q : tok * str => if tok_eqb (fst q) t then str_eqb (snd q) (snd p) else true) tab then Some (snd p) else None
  end.
Fixpoint values (tab : list (tok * str)) (ts : word) : option str :=
  match ts with [] => Some [] | t :: ts' => match value tab t, values tab ts' with Some a, Some b => Some (a ++ b) | _, _ => None end end.
Lemma value_ok tab t g : value tab t = Some g -> In (t, g) tab /\ forall g', In (t, g') tab -> g' = g.
Proof.
  unfold value. destruct (find _ tab) as [[t0 g0]|] eqn:E; [|discriminate]. apply find_some in E as [I Et]. apply tok_eqb_spec in Et. cbn in Et. subst t0. cbn [snd]. destruct (forallb _ tab) eqn:F; [|discriminate]. intros H. injection H as <-. split; [exact I|].
  intros g' I'. rewrite forallb_forall in F. specialize (F _ I'). cbn in F. rewrite tok_eqb_refl in F. apply str_eqb_eq in F. exact F.
Qed.
Lemma values_app tab a b : values tab (a ++ b) = match values tab a, values tab b with Some x, Some y => Some (x ++ y) | _, _ => None end.
Proof. induction a as [|t a IH]; cbn [app values]; [destruct (values tab b); reflexivity|]. rewrite IH. destruct (value tab t), (values tab a), (values tab b); try reflexivity. rewrite app_assoc. reflexivity. Qed.
Definition table_pairs (tab : list (tok * str)) : list (str * str) := map (fun p : tok * str => (enc (fst p), snd p)) tab.
Lemma print_values tab ts o : Forall (fun p : tok * str => symbol (fst p)) tab -> Forall symbol ts -> values tab ts = Some o -> only o (map fst (outs (WStar (WPairs (table_pairs tab))) (encs ts))).
Proof.
  intros Ht Hs V x. rewrite outs_pairs. 2:{ apply Forall_forall. intros p I. apply in_map_iff in I as (q & <- & _). cbn. destruct (enc_open (fst q)) as (v & ->). discriminate. }
  split.
  - intros (ps & P & E & ->). revert ts o Hs V E. induction ps as [|p ps IH]; intros ts o Hs V E.
    + destruct ts as [|t ts]; [cbn in V; injection V as <-; reflexivity|]. rewrite encs_cons in E. destruct (enc_nil _ _ E).
    + assert (I : In p (table_pairs tab)) by (apply P; left; reflexivity). apply in_map_iff in I as ([t0 g] & <- & I). cbn [flat_map fst snd] in *. assert (St : Forall symbol [t0]) by (constructor; [exact (proj1 (Forall_forall _ _) Ht _ I)|constructor]).
      destruct (encs_prefix [t0] St ts (flat_map fst ps) Hs) as (u & -> & Eu); [cbn; rewrite app_nil_r; symmetry; exact E|]. cbn [app values] in *. destruct (value tab t0) as [g0|] eqn:Ev; [|discriminate V]. destruct (values tab u) as [o'|] eqn:Eo; [|discriminate V]. injection V as <-. apply value_ok in Ev as [_ U]. rewrite (U g I). f_equal.
      inversion Hs; subst. apply (IH (fun q J => P q (or_intror J)) u o'); [assumption|exact Eo|symmetry; exact Eu].
  - intros ->. revert o V. induction ts as [|t ts IH]; intros o V; cbn [values] in V.
    + injection V as <-. exists []. repeat split. intros p [].
    + destruct (value tab t) as [g|] eqn:Ev; [|discriminate V]. destruct (values tab ts) as [o'|] eqn:Eo; [|discriminate V]. injection V as <-. inversion Hs; subst. destruct (IH ltac:(assumption) o' eq_refl) as (ps & P & E1 & E2). apply value_ok in Ev as [I _].
      exists ((enc t, g) :: ps). split; [intros p [<-|J]; [apply in_map_iff; exists (t, g); auto|exact (P p J)]|]. cbn [flat_map fst snd]. rewrite encs_cons, E1, E2. auto.
Qed.

(** ** Reading letters *)
Definition letters_of (w : str) : word := map (fun c => Gr [c]) w.
Definition lower (c : N) : Prop := (97 <= c <= 122)%N.
Lemma letter_chars c : lower c <-> In (Char [c] [c]) ASCII_LC.
Proof.
  split.
  - intros H. assert (I : In c (map N.of_nat (seq 97 26))) by (rewrite in_map_iff; exists (N.to_nat c); split; [apply N2Nat.id|apply in_seq; unfold lower in H; lia]).
    assert (C : forallb (fun c => existsb (fun x => if str_eqb (typ x) [c] then str_eqb (glyph x) [c] else false) ASCII_LC) (map N.of_nat (seq 97 26)) = true) by (vm_compute; reflexivity).
    apply (proj1 (forallb_forall _ _) C) in I. apply existsb_exists in I as ([ty gl] & I & E). cbn in E. destruct (str_eqb ty [c]) eqn:E1; [|discriminate E]. apply str_eqb_eq in E. apply str_eqb_eq in E1. subst. exact I.
  - intros I. assert (C : forallb (fun x => match typ x with [c] => (97 <=? c)%N && (c <=? 122)%N | _ => false end) ASCII_LC = true) by (vm_compute; reflexivity). apply (proj1 (forallb_forall _ _) C) in I. cbn in I. apply andb_prop in I as [I1 I2]. apply N.leb_le in I1. apply N.leb_le in I2. split; assumption.
Qed.
Lemma letter_char x : In x ASCII_LC -> exists c, x = Char [c] [c] /\ lower c.
Proof.
  intros I. assert (C : forallb (fun x => match typ x, glyph x with [c], [d] => if (c =? d)%N then (97 <=? c)%N && (c <=? 122)%N else false | _, _ => false end) ASCII_LC = true) by (vm_compute; reflexivity).
  apply (proj1 (forallb_forall _ _) C) in I. destruct x as [[|c [|]] [|d [|]]]; try discriminate I. cbn in I. destruct (c =? d)%N eqn:E; [|discriminate I]. apply N.eqb_eq in E. subst d. exists c. split; [reflexivity|]. apply andb_prop in I as [I1 I2]. apply N.leb_le in I1. apply N.leb_le in I2. split; assumption.
Qed.
Lemma read_letters w o : In o (map fst (outs ltn2typ w)) <-> Forall lower w /\ o = encs (letters_of w).
Proof.
  unfold ltn2typ. rewrite reads. 2:{ apply Forall_forall. intros x I. apply letter_char in I as (c & -> & _). discriminate. }
  split.
  - intros (cs & C & -> & ->). induction cs as [|x cs IH]; [split; [constructor|reflexivity]|]. destruct IH as [F E]; [intros d J; apply C; right; exact J|]. destruct (letter_char x (C x (or_introl eq_refl))) as (c & -> & Lc). cbn [flat_map glyph app map typ]. split; [constructor; assumption|]. cbn [letters_of map]. rewrite !encs_cons, E. reflexivity.
  - intros (F & ->). exists (map (fun c => Char [c] [c]) w). split; [intros x J; apply in_map_iff in J as (c & <- & J); apply letter_chars; exact (proj1 (Forall_forall _ _) F _ J)|]. split; [clear; induction w as [|c w IH]; [reflexivity|cbn; f_equal; exact IH]|]. rewrite map_map. reflexivity.
Qed.

(** ** Insertion after some symbols *)
Definition in_words (t : tok) (ws : list word) : bool := existsb (word_eqb [t]) ws.
Definition singles (ws : list word) : bool := forallb (fun w : word => match w with [_] => true | _ => false end) ws.
Fixpoint insert_after (ws : list word) (new : word) (last : bool) (ts : word) : word :=
  (if last then new else []) ++ match ts with [] => [] | t :: ts' => t :: insert_after ws new (in_words t ws) ts' end.
Lemma single_before ws d t : singles ws = true -> unsigned (d ++ [t]) -> (preceded (Some (false, TWords ws)) (d ++ [t]) <-> in_words t ws = true).
Proof.
  intros S N. rewrite preceded_words by exact N. unfold in_words. rewrite existsb_word. split.
  - intros (u & a & I & E). pose proof (proj1 (forallb_forall _ _) S _ I) as Sa. destruct a as [|x [|]]; try discriminate Sa. apply app_inj_tail in E as [_ ->]. exact I.
  - intros I. exists d, [t]. auto.
Qed.
Lemma nil_before ws : singles ws = true -> ~ preceded (Some (false, TWords ws)) [].
Proof. intros S. rewrite preceded_words by (intros []). intros (u & a & I & E). symmetry in E. apply app_eq_nil in E as [_ ->]. pose proof (proj1 (forallb_forall _ _) S _ I). discriminate. Qed.
Lemma inserting_after ws new ts : singles ws = true -> unsigned ts -> forall done last, unsigned done -> unsigned new -> (last = true <-> preceded (Some (false, TWords ws)) done) -> inserting new (Some (false, TWords ws)) None done ts (insert_after ws new last ts).
Proof.
  intros S. induction ts as [|t ts IH]; intros Nt done last Nd Nn E; cbn [insert_after].
  - rewrite app_nil_r. destruct last; [apply in_end_new; [apply E; reflexivity|exact Logic.I]|apply in_end; intros [P _]; apply E in P; discriminate P].
  - assert (Nt1 : unsigned [t] /\ unsigned ts) by (change (t :: ts) with ([t] ++ ts) in Nt; apply unsigned_app in Nt; exact Nt).
    destruct last; cbn [app].
    + apply in_new; [apply E; reflexivity|exact Logic.I|]. apply IH; [tauto|rewrite !unsigned_app; tauto|exact Nn|]. rewrite app_assoc, single_before by (try exact S; rewrite !unsigned_app; tauto). tauto.
    + apply in_copy; [intros [P _]; apply E in P; discriminate P|]. apply IH; [tauto|rewrite !unsigned_app; tauto|exact Nn|]. rewrite single_before by (try exact S; rewrite !unsigned_app; tauto). tauto.
Qed.

(** ** Deletion before some symbols *)
Fixpoint delete_before (ws : list word) (x : tok) (ts : word) : word :=
  match ts with
  | [] => []
  | t :: ts' => (if tok_eqb x t then match ts' with n :: _ => if in_words n ws then [] else [t] | [] => [t] end else [t]) ++ delete_before ws x ts'
  end.
Lemma single_after ws t u : singles ws = true -> unsigned (t :: u) -> (followed (Some (false, TWords ws)) (t :: u) <-> in_words t ws = true).
Proof.
  intros S N. rewrite followed_words by exact N. unfold in_words. rewrite existsb_word. split.
  - intros (a & v & I & E). pose proof (proj1 (forallb_forall _ _) S _ I) as Sa. destruct a as [|y [|]]; try discriminate Sa. cbn in E. injection E as -> _. exact I.
  - intros I. exists [t], u. auto.
Qed.
Lemma nil_after ws : singles ws = true -> ~ followed (Some (false, TWords ws)) [].
Proof. intros S. rewrite followed_words by (intros []). intros (a & u & I & E). symmetry in E. apply app_eq_nil in E as [-> _]. pose proof (proj1 (forallb_forall _ _) S _ I). discriminate. Qed.
Lemma unsigned_cons t ts : unsigned (t :: ts) <-> t <> Eq /\ unsigned ts. Proof. unfold unsigned. cbn. split; [intros H; split; [intros ->; auto|auto]|intros [H1 H2] [->|H]; auto]. Qed.
Lemma deleting_before ws x ts : singles ws = true -> unsigned ts -> forall done, rewriting [([x], [])] None (Some (false, TWords ws)) done ts (delete_before ws x ts).
Proof.
  intros S. induction ts as [|t ts IH]; intros N done; cbn [delete_before]; [constructor|]. apply unsigned_cons in N as [_ N]. destruct (tok_eqb x t) eqn:E.
  - apply tok_eqb_spec in E. subst t. destruct ts as [|n ts].
    + apply re_copy; [|apply IH; exact N]. intros l r u [H|[]] Eu F _. injection H as <- <-. injection Eu as <-. exact (nil_after ws S F).
    + destruct (in_words n ws) eqn:En.
      * apply (re_apply _ _ _ _ [x] [] (n :: ts)); [left; reflexivity|exact Logic.I|apply single_after; assumption|]. apply IH. exact N.
      * apply re_copy; [|apply IH; exact N]. intros l r u [H|[]] Eu F _. injection H as <- <-. injection Eu as <-. apply single_after in F; [congruence|exact S|exact N].
  - apply re_copy; [|apply IH; exact N]. intros l r u [H|[]] Eu _ _. injection H as <- <-. injection Eu as -> _. rewrite tok_eqb_refl in E. discriminate E.
Qed.

(** ** The first symbol *)
Lemma skip_left_unsigned u : unsigned u -> means (TQues TSKIP_LEFT) u -> u = [].
Proof.
  intros N M. apply tques_inv in M as [M|M]; [exact M|]. unfold TSKIP_LEFT in M. apply tques_inv in M as [M|M]; [exact M|]. apply tcat_inv in M as (a & b & -> & _ & M). apply words_inv in M as [<-|[]]. exfalso. apply N. apply in_app_iff. right. left. reflexivity.
Qed.
Lemma skip_right_unsigned u : unsigned u -> means (TQues TSKIP_RIGHT) u -> u = [].
Proof.
  intros N M. apply tques_inv in M as [M|M]; [exact M|]. unfold TSKIP_RIGHT in M. apply tques_inv in M as [M|M]; [exact M|]. apply tcat_inv in M as (a & b & -> & M & _). apply words_inv in M as [<-|[]]. exfalso. apply N. left. reflexivity.
Qed.
Lemma bow_unsigned d : unsigned d -> (preceded TBOW d <-> d = []).
Proof.
  intros N. unfold TBOW, preceded. split.
  - intros (u & a & x & -> & M & Sk & H). rewrite !unsigned_app in N. rewrite (H eq_refl), (skip_left_unsigned a ltac:(tauto) M), (unsigned_skipped x ltac:(tauto) Sk). reflexivity.
  - intros ->. exists [], [], []. split; [reflexivity|split; [apply m_none|split; [left; reflexivity|reflexivity]]].
Qed.
Lemma eow_unsigned d : unsigned d -> (followed TEOW d <-> d = []).
Proof.
  intros N. unfold TEOW, followed. split.
  - intros (x & a & u & -> & M & Sk & H). rewrite !unsigned_app in N. rewrite (H eq_refl), (skip_right_unsigned a ltac:(tauto) M), (unsigned_skipped x ltac:(tauto) Sk). reflexivity.
  - intros ->. exists [], [], []. split; [reflexivity|split; [apply m_none|split; [left; reflexivity|reflexivity]]].
Qed.
Lemma copies rs p f ts : unsigned ts -> (forall d, d <> [] -> unsigned d -> ~ preceded p d) -> forall d, d <> [] -> unsigned d -> rewriting rs p f d ts ts.
Proof.
  intros N NP. induction ts as [|t ts IH]; intros d Nd Ud; [constructor|]. apply unsigned_cons in N as [Nt N]. apply re_copy; [intros l r u _ _ _; apply NP; assumption|]. apply IH; [exact N|destruct d; discriminate|apply unsigned_app; split; [exact Ud|apply unsigned_cons; split; [exact Nt|intros []]]].
Qed.
Definition first_op (o : op) : bool := match o with Rewrite rs (Some (true, TQues (TQues (TCat TGraphemes (TWords [[Eq]]))))) f => if empty_ctx f then forallb (fun q : word * word => match q with ([Tr _], [Tr _]) => true | _ => false end) rs else false | _ => false end.
Definition first_new (rs : list (word * word)) (t : tok) : tok := match find (fun q : word * word => word_eqb (fst q) [t]) rs with Some (_, [r]) => r | _ => t end.
Definition first_do (o : op) (t : tok) : tok := match o with Rewrite rs _ _ => first_new rs t | _ => t end.
Lemma first_performs o t ts : first_op o = true -> unsigned (t :: ts) -> performs o (t :: ts) (first_do o t :: ts) /\ performs o [] [].
Proof.
  intros F N. destruct o as [rs p f| |]; try discriminate F. cbn [performs first_do]. split; [|constructor]. cbn [first_op] in F.
  destruct p as [[[|] q]|]; try discriminate F. destruct q as [ | | | | |q| ]; try discriminate F. destruct q as [ | | | | |q| ]; try discriminate F. destruct q as [ | | |a b| | | ]; try discriminate F. destruct a; try discriminate F. destruct b as [[|[|[| | |] [|]] [|]]| | | | | |]; try discriminate F.
  destruct (empty_ctx f) eqn:Ef; [|discriminate F]. change (Some (true, TQues (TQues (TCat TGraphemes (TWords [[Eq]]))))) with TBOW in *.
  assert (NP : forall d, d <> [] -> unsigned d -> ~ preceded TBOW d) by (intros d Nd Ud; rewrite bow_unsigned by exact Ud; exact Nd). apply unsigned_cons in N as [Nt N]. unfold first_new.
  destruct (find _ rs) as [[l r]|] eqn:E.
  - apply find_some in E as [I E]. apply word_eqb_spec in E. cbn in E. subst l. pose proof (proj1 (forallb_forall _ _) F _ I) as C. destruct t as [| |s|]; try discriminate C. destruct r as [|[| |r|] [|]]; try discriminate C.
    apply (re_apply rs TBOW f [] [Tr s] [Tr r] ts ts I); [apply bow_unsigned; [intros []|reflexivity]|apply empty_followed; exact Ef|]. apply copies; [exact N|exact NP|discriminate|intros [H|[]]; discriminate H].
  - apply re_copy; [|apply copies; [exact N|exact NP|discriminate|apply unsigned_cons; split; [exact Nt|intros []]]]. intros l r u I Eu _ _. pose proof (proj1 (forallb_forall _ _) F _ I) as C. destruct l as [|[| |s|] [|]]; try discriminate C. cbn in Eu. injection Eu as -> _. pose proof (find_none _ _ E _ I) as K. cbn in K. rewrite (proj2 (str_eqb_eq s s) eq_refl) in K. discriminate K.
Qed.
Lemma first_all l : forallb first_op l = true -> forall t ts, unsigned (t :: ts) -> t <> Eq -> performs_all l (t :: ts) (fold_left (fun x o => first_do o x) l t :: ts) /\ performs_all l [] [].
Proof.
  induction l as [|o l IH]; intros F t ts N Nt; [split; constructor|]. cbn [forallb] in F. apply andb_prop in F as [Fo Fl]. destruct (first_performs o t ts Fo N) as [P1 P2].
  assert (N1 : first_do o t <> Eq). { destruct o as [rs p f| |]; cbn [first_do]; try exact Nt. unfold first_new. destruct (find _ rs) as [[l0 r0]|] eqn:E; [|exact Nt]. apply find_some in E as [I _]. cbn [first_op] in Fo. destruct p as [[[|] q]|]; try discriminate Fo. destruct q as [ | | | | |q| ]; try discriminate Fo. destruct q as [ | | | | |q| ]; try discriminate Fo. destruct q as [ | | |a b| | | ]; try discriminate Fo. destruct a; try discriminate Fo. destruct b as [[|[|[| | |] [|]] [|]]| | | | | |]; try discriminate Fo. destruct (empty_ctx f); [|discriminate Fo]. pose proof (proj1 (forallb_forall _ _) Fo _ I) as C. destruct l0 as [|[| |s|] [|]]; try discriminate C. destruct r0 as [|[| |r|] [|]]; try discriminate C. discriminate. }
  apply unsigned_cons in N as [_ N]. destruct (IH Fl (first_do o t) ts ltac:(apply unsigned_cons; auto) N1) as [Q1 Q2]. cbn [fold_left]. split; [exact (pa_op _ _ _ _ _ P1 Q1)|exact (pa_op _ _ _ _ _ P2 Q2)].
Qed.
