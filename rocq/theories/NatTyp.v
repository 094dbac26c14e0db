(** Reading of characters. *)
From Coq Require Import String.
From Verif Require Import Base RuleModel RegexModel IsoModel AlignModel AlignSpec AlignProofs AlignMore NatModel NatSpec NatProofs NatBytes NatBlocks NatBlocksProofs.
Local Open Scope list_scope.

(** ** Deciding well-formedness *)
Definition sym_charb (c : N) : bool := if (if (65 <=? c)%N then (c <=? 90)%N else false) then true else if (if (97 <=? c)%N then (c <=? 122)%N else false) then true else existsb (N.eqb c) [95; 43; 46; 42; 45; 38; 33; 58]%N.
Lemma sym_charb_ok c : sym_charb c = true -> sym_char c.
Proof.
  unfold sym_charb, sym_char. destruct (65 <=? c)%N eqn:A; [apply N.leb_le in A; destruct (c <=? 90)%N eqn:B; [apply N.leb_le in B; intros _; left; lia|]|];
    (destruct (97 <=? c)%N eqn:C; [apply N.leb_le in C; destruct (c <=? 122)%N eqn:D; [apply N.leb_le in D; intros _; right; left; lia|]|]; intros H; apply existsb_exists in H as (x & I & E); apply N.eqb_eq in E as ->; right; right; exact I).
Qed.
Definition symbolb (t : tok) : bool := match t with Gr s | Ph s | Tr s => forallb sym_charb s | Eq => true end.
Lemma forallb_Forall {A} (f : A -> bool) (P : A -> Prop) l : (forall x, f x = true -> P x) -> forallb f l = true -> Forall P l.
Proof. intros H F. apply Forall_forall. intros x I. apply H. exact (proj1 (forallb_forall f l) F x I). Qed.
Lemma symbolb_ok t : symbolb t = true -> symbol t.
Proof. destruct t; cbn; try (intros H; exact (forallb_Forall _ _ _ sym_charb_ok H)). trivial. Qed.
Definition ruleb (q : word * word) : bool :=
  if forallb symbolb (fst q) then if forallb symbolb (snd q) then match fst q with [] => false | Gr [] :: _ | Ph [] :: _ | Tr [] :: _ => false | _ => true end else false else false.
Lemma ruleb_ok q : ruleb q = true -> symbol_rule q.
Proof.
  destruct q as [l r]. unfold ruleb, symbol_rule. cbn [fst snd]. destruct (forallb symbolb l) eqn:A; [|discriminate]. destruct (forallb symbolb r) eqn:B; [|discriminate]. intros H.
  split; [exact (forallb_Forall _ _ _ symbolb_ok A)|split; [exact (forallb_Forall _ _ _ symbolb_ok B)|]]. destruct l as [|[[|? ?]|[|? ?]|[|? ?]|] ?]; cbn; first [discriminate H|exact Logic.I|discriminate].
Qed.
Fixpoint reb (r : tre) : bool :=
  match r with
  | TWords l => forallb (forallb symbolb) l
  | TGraphemes | TRights => true
  | TCat a b | TAlt a b => if reb a then reb b else false
  | TQues a | TStar a => reb a
  end.
Lemma reb_ok r : reb r = true -> symbols_in r.
Proof.
  induction r; cbn [reb symbols_in]; intros H; try exact Logic.I; try (apply IHr; exact H); try (destruct (reb r1); [split; auto|discriminate H]).
  apply (forallb_Forall (forallb symbolb)); [|exact H]. intros w Hw. exact (forallb_Forall _ _ _ symbolb_ok Hw).
Qed.
Definition ctxb (c : tctx) : bool := match c with None => true | Some (_, r) => reb r end.
Definition opb (o : op) : bool :=
  match o with
  | Rewrite rs p f => if forallb ruleb rs then if ctxb p then ctxb f else false else false
  | Insert new p f => if forallb symbolb new then if ctxb p then if ctxb f then match p with None => false | Some (true, _) => true | Some (false, r) => negb (tnullable r) end else false else false else false
  | Pairs l => forallb ruleb l
  end.
Lemma opb_ok o : opb o = true -> well_formed o.
Proof.
  assert (C : forall c, ctxb c = true -> symbols_ctx c) by (intros [[e r]|]; cbn; [apply reb_ok|trivial]).
  destruct o as [rs p f|new p f|l]; cbn [opb well_formed]; intros H.
  - destruct (forallb ruleb rs) eqn:A; [|discriminate]. destruct (ctxb p) eqn:B; [|discriminate]. split; [exact (forallb_Forall _ _ _ ruleb_ok A)|auto].
  - destruct (forallb symbolb new) eqn:A; [|discriminate]. destruct (ctxb p) eqn:B; [|discriminate]. destruct (ctxb f) eqn:D; [|discriminate]. split; [exact (forallb_Forall _ _ _ symbolb_ok A)|]. split; [auto|split; [auto|]].
    destruct p as [[[|] r]|]; [left; reflexivity|right; rewrite <- tnullable_spec; apply negb_true_iff in H; congruence|discriminate H].
  - exact (forallb_Forall _ _ _ ruleb_ok H).
Qed.
Definition translit_free (o : op) : bool := match o with Rewrite rs _ _ | Pairs rs => forallb (fun q : word * word => forallb (fun t => negb (translit t)) (snd q)) rs | Insert new _ _ => forallb (fun t => negb (translit t)) new end.
Definition insert_free (o : op) : bool := match o with Insert _ _ _ => false | _ => true end.
Fixpoint stagedb (l : list op) : bool := if forallb insert_free l then true else match l with [] => true | o :: l' => if translit_free o then stagedb l' else false end.
Lemma stagedb_ok l : stagedb l = true -> staged l.
Proof.
  induction l as [|o l IH]; cbn [stagedb]; intros H; [apply st_rest; constructor|]. destruct (forallb insert_free (o :: l)) eqn:A.
  - apply st_rest. apply (forallb_Forall insert_free); [|exact A]. intros []; cbn; auto; discriminate.
  - destruct (translit_free o) eqn:B; [|discriminate H]. apply st_op; [|exact (IH H)]. destruct o; cbn in *; try exact B; exact (forallb_Forall _ _ _ (fun _ h => h) B).
Qed.
Lemma opsb_ok l : forallb opb l = true -> Forall well_formed l.
Proof. exact (forallb_Forall opb well_formed l opb_ok). Qed.
Lemma well_formed_all l : Forall well_formed l -> Forall nonempty_op l.
Proof. intros H. eapply Forall_impl; [|exact H]. apply well_formed_nonempty. Qed.

(** ** Texts of letters are read in one way *)
Definition code_unit (s : str) : bool :=
  match s with
  | [a] => (a <? 128)%N
  | [a; _] => if (192 <=? a)%N then (a <? 224)%N else false
  | [a; _; _] => if (224 <=? a)%N then (a <? 240)%N else false
  | _ => false
  end.
Lemma code_unit_prefix a b x y : code_unit a = true -> code_unit b = true -> a ++ x = b ++ y -> a = b /\ x = y.
Proof.
  intros A B E. unfold code_unit in *.
  destruct a as [|a1 [|a2 [|a3 [|? ?]]]]; try discriminate A; destruct b as [|b1 [|b2 [|b3 [|? ?]]]]; try discriminate B; cbn [app] in E; injection E; intros; subst; auto; exfalso;
    repeat match goal with H : (if ?c then _ else false) = true |- _ => destruct c eqn:?; [|discriminate H] end;
    repeat match goal with H : (_ <? _)%N = true |- _ => apply N.ltb_lt in H | H : (_ <=? _)%N = true |- _ => apply N.leb_le in H end; lia.
Qed.
Lemma single_units : forallb (fun c => code_unit (bglyph c)) SINGLE_POINT = true.
Proof. vm_compute. reflexivity. Qed.
Fixpoint distinct (l : list str) : bool := match l with [] => true | s :: l' => if existsb (str_eqb s) l' then false else distinct l' end.
Lemma distinct_ok {A} (f : A -> str) l : distinct (map f l) = true -> forall x y, In x l -> In y l -> f x = f y -> x = y.
Proof.
  induction l as [|a l IH]; intros H x y Ix Iy E; [destruct Ix|]. cbn [map distinct] in H. destruct (existsb (str_eqb (f a)) (map f l)) eqn:D; [discriminate H|].
  assert (N : forall z, In z l -> f a <> f z). { intros z Iz Ez. assert (K : existsb (str_eqb (f a)) (map f l) = true) by (apply existsb_exists; exists (f z); split; [apply in_map; exact Iz|rewrite Ez; apply str_eqb_refl]). congruence. }
  destruct Ix as [<-|Ix]; destruct Iy as [<-|Iy]; [reflexivity|destruct (N y Iy E)|destruct (N x Ix (eq_sym E))|exact (IH H x y Ix Iy E)].
Qed.
Lemma single_glyphs : distinct (map bglyph SINGLE_POINT) = true.
Proof. vm_compute. reflexivity. Qed.
Lemma char_names : distinct (map (fun c => bytes (btyp c)) CHARS) = true.
Proof. vm_compute. reflexivity. Qed.
Lemma unit_of c : In c SINGLE_POINT -> code_unit (bglyph c) = true.
Proof. exact (proj1 (forallb_forall _ _) single_units c). Qed.
Lemma text_inj cs : letters cs -> forall ds, letters ds -> text_of cs = text_of ds -> cs = ds.
Proof.
  induction cs as [|c cs IH]; intros Hc ds Hd E.
  - destruct ds as [|d ds]; [reflexivity|]. inversion Hd as [|? ? Id _]; subst. apply unit_of in Id. cbn in E. destruct (bglyph d); discriminate.
  - inversion Hc as [|? ? Ic Hcs]; subst. destruct ds as [|d ds]; [pose proof (unit_of c Ic) as U; cbn in E; destruct (bglyph c); discriminate|]. inversion Hd as [|? ? Id Hds]; subst.
    cbn [text_of flat_map] in E. apply code_unit_prefix in E as [Eg Et]; [|exact (unit_of c Ic)|exact (unit_of d Id)]. rewrite (distinct_ok bglyph SINGLE_POINT single_glyphs c d Ic Id Eg), (IH Hcs ds Hds Et). reflexivity.
Qed.
Lemma read_letters cs : letters cs -> only (encs (map symbol_of cs)) (map fst (outs read_iso (text_of cs))).
Proof.
  intros Hc x. unfold read_iso. rewrite reads.
  2:{ apply Forall_forall. intros d I. apply in_map_iff in I as (c & <- & I). apply unit_of in I. cbn. intros E. rewrite E in I. discriminate I. }
  split.
  - intros (ds & Hd & E & ->). assert (K : exists es, ds = map bchar_char es /\ letters es).
    { clear E. induction ds as [|d ds IH]; [exists []; split; [reflexivity|constructor]|]. destruct IH as (es & -> & He); [intros c I; apply Hd; right; exact I|]. assert (I : In d (map bchar_char SINGLE_POINT)) by (apply Hd; left; reflexivity). apply in_map_iff in I as (e & <- & I). exists (e :: es). split; [reflexivity|constructor; assumption]. }
    destruct K as (es & -> & He). rewrite map_map. f_equal. assert (Et : text_of cs = text_of es) by (rewrite E; unfold text_of; clear; induction es as [|e es IH]; cbn; rewrite ?IH; reflexivity). rewrite (text_inj cs Hc es He Et). reflexivity.
  - intros ->. exists (map bchar_char cs). split; [intros d I; apply in_map_iff in I as (c & <- & I); apply in_map; exact (proj1 (Forall_forall _ _) Hc c I)|]. rewrite map_map. split; [unfold text_of; clear; induction cs as [|c cs IH]; cbn; rewrite ?IH; reflexivity|reflexivity].
Qed.
(** Other texts are not read *)
Lemma read_only_letters s x : In x (map fst (outs read_iso s)) -> exists cs, letters cs /\ s = text_of cs.
Proof.
  unfold read_iso. rewrite reads.
  2:{ apply Forall_forall. intros d I. apply in_map_iff in I as (c & <- & I). apply unit_of in I. cbn. intros E. rewrite E in I. discriminate I. }
  intros (ds & Hd & -> & _). induction ds as [|d ds IH]; [exists []; split; [constructor|reflexivity]|]. destruct IH as (es & He & E); [intros c I; apply Hd; right; exact I|]. assert (I : In d (map bchar_char SINGLE_POINT)) by (apply Hd; left; reflexivity). apply in_map_iff in I as (e & <- & I).
  exists (e :: es). split; [constructor; assumption|cbn; rewrite E; reflexivity].
Qed.

(** ** The operations on characters *)
Lemma typ_well_formed : Forall well_formed typ_ops.
Proof. apply opsb_ok. vm_compute. reflexivity. Qed.
Lemma typ_staged : staged typ_ops.
Proof. apply stagedb_ok. vm_compute. reflexivity. Qed.
Definition glyph_of (t : tok) : str := match find (fun c => tok_eqb (symbol_of c) t) CHARS with Some c => bglyph c | None => [] end.
Definition typ_chars (ts : word) : Prop := Forall (fun t => In t (map symbol_of CHARS)) ts.
Lemma glyph_of_symbol c : In c CHARS -> glyph_of (symbol_of c) = bglyph c.
Proof.
  intros I. unfold glyph_of. destruct (find (fun d => tok_eqb (symbol_of d) (symbol_of c)) CHARS) as [d|] eqn:F.
  - apply find_some in F as [Id E]. apply tok_eqb_spec in E. injection E as E. rewrite (distinct_ok _ CHARS char_names d c Id I E). reflexivity.
  - exfalso. assert (K := find_none _ _ F c I). cbn beta in K. rewrite (proj2 (tok_eqb_spec (symbol_of c) (symbol_of c)) eq_refl) in K. discriminate K.
Qed.
Lemma chars_glyphs ts : typ_chars ts -> exists cs, ts = map symbol_of cs /\ (forall c, In c cs -> In c CHARS) /\ flat_map glyph_of ts = text_of cs.
Proof.
  induction 1 as [|t ts I H (cs & -> & Hc & E)]; [exists []; split; [reflexivity|split; [intros c []|reflexivity]]|]. apply in_map_iff in I as (c & <- & I). exists (c :: cs). split; [reflexivity|]. split; [intros d [<-|J]; [exact I|exact (Hc d J)]|]. cbn [flat_map text_of]. rewrite E, (glyph_of_symbol c I). reflexivity.
Qed.
Lemma rewriting_glyphs (g : tok -> str) rs p f done ts out : Forall (fun q : word * word => flat_map g (fst q) = flat_map g (snd q)) rs -> rewriting rs p f done ts out -> flat_map g out = flat_map g ts.
Proof.
  intros H. induction 1 as [|done l r rest out I _ _ _ IH|done t rest out _ _ IH]; [reflexivity| |].
  - pose proof (proj1 (Forall_forall _ _) H _ I) as K. cbn in K. rewrite !flat_map_app, IH, K. reflexivity.
  - cbn. rewrite IH. reflexivity.
Qed.
(** Insertion at the start *)
Lemma no_eq_before done : Forall (fun t => t <> Eq) done -> preceded TBOW done -> done = [].
Proof.
  intros N (u & a & x & E & M & K & U). rewrite (U eq_refl) in E. cbn in E. assert (Na : a = []).
  { inversion M as [| | | | | | |? ? M'| |]; subst; [reflexivity|]. inversion M' as [| | | | | | |? ? M2| |]; subst; [reflexivity|]. inversion M2 as [| | |? ? u1 v1 M3 M4| | | | | |]; subst. inversion M4 as [? ? I| | | | | | | | |]; subst. destruct I as [<-|[]]. exfalso. apply (proj1 (Forall_forall _ _) N Eq); [|reflexivity]. rewrite <- app_assoc. apply in_app_iff. right. apply in_app_iff. left. left. reflexivity. }
  subst a. cbn in E. subst x. destruct K as [K|[(g & -> & _)|(r & -> & _)]]; [exact K| |]; exfalso; apply (proj1 (Forall_forall _ _) N Eq); auto; [apply in_app_iff; right; left; reflexivity|left; reflexivity].
Qed.
Lemma starts_of l ts : Forall (fun t => t <> Eq) ts -> (followed (some_of l) ts <-> exists w u, In w l /\ ts = w ++ u).
Proof.
  intros N. split.
  - intros (x & a & u & E & M & K & _). inversion M as [? ? I| | | | | | | | |]; subst. destruct K as [->|[(g & -> & _)|(r & -> & _)]]; [exists a, u; auto| |]; exfalso; apply (proj1 (Forall_forall _ _) N Eq); auto; [rewrite <- app_assoc; apply in_app_iff; right; left; reflexivity|left; reflexivity].
  - intros (w & u & I & ->). exists [], w, u. split; [reflexivity|split; [constructor; exact I|split; [left; reflexivity|discriminate]]].
Qed.
Lemma initial_insert new l ts out : Forall (fun t => t <> Eq) new -> new <> [] -> Forall (fun t => t <> Eq) ts -> inserting new TBOW (some_of l) [] ts out ->
  ((exists w u, In w l /\ ts = w ++ u) /\ out = new ++ ts) \/ (~ (exists w u, In w l /\ ts = w ++ u) /\ out = ts).
Proof.
  intros Nn Ne Nt H. assert (Go : forall rest d o, d <> [] -> Forall (fun t => t <> Eq) d -> Forall (fun t => t <> Eq) rest -> inserting new TBOW (some_of l) d rest o -> o = rest).
  { induction rest as [|t rest IH]; intros d o Nd Hd Hr I.
    - remember ([] : word) as z eqn:Ez in I. destruct I as [done P _|done _|done t rest oo P _ _|done t rest oo _ _]; try discriminate Ez; [destruct (Nd (no_eq_before done Hd P))|reflexivity].
    - inversion Hr; subst. remember (t :: rest) as z eqn:Ez in I. destruct I as [done P _|done _|done t' rest' oo P _ _|done t' rest' oo _ I]; try discriminate Ez; [destruct (Nd (no_eq_before done Hd P))|]. injection Ez as -> ->. f_equal. apply (IH (done ++ [t])); [destruct done; discriminate|apply Forall_app; auto|assumption|exact I]. }
  assert (P0 : preceded TBOW []) by (exists [], [], []; split; [reflexivity|split; [constructor|split; [left; reflexivity|reflexivity]]]).
  pose proof (starts_of l ts Nt) as St. destruct ts as [|t ts].
  - remember ([] : word) as z eqn:Ez in H at 2. remember ([] : word) as d eqn:Ed in H. destruct H as [done P F|done N|done t' rest oo P F I|done t' rest oo N I]; try discriminate Ez; subst done; [left; split; [apply St; exact F|rewrite app_nil_r; reflexivity]|right; split; [rewrite <- St; tauto|reflexivity]].
  - inversion Nt; subst. remember (t :: ts) as z eqn:Ez in H. remember ([] : word) as d eqn:Ed in H. destruct H as [done P F|done N|done t' rest oo P F I|done t' rest oo N I]; try discriminate Ez; subst done; injection Ez as -> ->.
    + left. split; [apply St; exact F|]. do 2 f_equal. apply (Go ts ([] ++ new ++ [t])); [destruct new; discriminate|rewrite !Forall_app; auto|assumption|exact I].
    + right. split; [rewrite <- St; tauto|]. f_equal. apply (Go ts ([] ++ [t])); [discriminate|constructor; auto|assumption|exact I].
Qed.

(** What a rewrite leaves *)
Section Window.
Variables (rs : list (word * word)).
Hypothesis lhs : Forall (fun q : word * word => fst q <> []) rs.
Hypothesis rhs : Forall (fun q : word * word => snd q <> []) rs.
Lemma window_prefix l v : (forall t q, In t l -> In q rs -> ~ In t (snd q)) -> forall done ts, rewriting rs None None done ts (l ++ v) -> exists v', ts = l ++ v'.
Proof.
  induction l as [|t l IH]; intros Hl done ts R; [exists ts; reflexivity|]. apply rewriting_inv in R as [[_ E]|[(l0 & r & rest & o & I & _ & _ & E & Eo & R)|(t' & rest & o & _ & E & Eo & R)]]; [discriminate E| |].
  - exfalso. pose proof (proj1 (Forall_forall _ _) rhs _ I) as Nr. cbn in Nr. destruct r as [|x r]; [congruence|]. injection Eo as <- _. exact (Hl t _ (or_introl eq_refl) I (or_introl eq_refl)).
  - injection Eo as <- <-. destruct (IH (fun x q J => Hl x q (or_intror J)) _ _ R) as (v' & ->). exists v'. exact E.
Qed.
Lemma window l v done ts out : rewriting rs None None done ts out -> l <> [] -> (forall t q, In t l -> In q rs -> ~ In t (snd q)) -> forall u, out = u ++ l ++ v ->
  exists u' v', ts = u' ++ l ++ v' /\ (forall l0 r0 w, In (l0, r0) rs -> l ++ v' <> l0 ++ w).
Proof.
  intros R Nl Hl. induction R as [done|done l0 r rest out I P F R IH|done t rest out N R IH]; intros u E.
  - symmetry in E. apply app_eq_nil in E as [_ E]. apply app_eq_nil in E as [E _]. congruence.
  - apply app_eq_app in E as (k & [[-> E]|[-> E]]).
    + destruct k as [|x k]; [rewrite app_nil_r in *; cbn in E; destruct (IH [] (eq_sym E)) as (u' & v' & -> & K); exists (l0 ++ u'), v'; split; [apply app_assoc|exact K]|]. exfalso.
      destruct l as [|y l]; [congruence|]. injection E as <- _. apply (Hl y _ (or_introl eq_refl) I). cbn. apply in_app_iff. right. left. reflexivity.
    + destruct (IH k E) as (u' & v' & -> & K). exists (l0 ++ u'), v'. split; [apply app_assoc|exact K].
  - destruct u as [|x u]; cbn in E.
    + destruct l as [|y l]; [congruence|]. injection E as <- ->. destruct (window_prefix l v (fun x q J => Hl x q (or_intror J)) _ _ R) as (v' & ->). exists [], v'. split; [reflexivity|].
      intros l0 r0 w I E. exact (N l0 r0 w I E Logic.I Logic.I).
    + injection E as <- E. destruct (IH u E) as (u' & v' & -> & K). exists (t :: u'), v'. split; [reflexivity|exact K].
Qed.
End Window.
Definition apart_from (l : word) (rs : list (word * word)) : bool := forallb (fun q : word * word => match snd q with [] => false | r => forallb (fun t => negb (existsb (tok_eqb t) r)) l end) rs.
Lemma apart_from_ok l rs : apart_from l rs = true -> Forall (fun q : word * word => snd q <> []) rs /\ (forall t q, In t l -> In q rs -> ~ In t (snd q)).
Proof.
  unfold apart_from. rewrite forallb_forall. intros H. split; [apply Forall_forall; intros q I; specialize (H q I); destruct (snd q); [discriminate H|discriminate]|].
  intros t q It Iq J. specialize (H q Iq). destruct (snd q) as [|x r] eqn:E; [discriminate H|]. rewrite <- E in *. rewrite forallb_forall in H. specialize (H t It). apply negb_true_iff in H. assert (K : existsb (tok_eqb t) (snd q) = true) by (apply existsb_exists; exists t; split; [exact J|apply tok_eqb_spec; reflexivity]). congruence.
Qed.
Lemma compose_nowhere l rs ts out : Forall (fun q : word * word => fst q <> []) rs -> l <> [] -> apart_from l rs = true -> rewriting rs None None [] ts out -> (nowhere l ts \/ In l (map fst rs)) -> nowhere l out.
Proof.
  intros Hn Nl Ha R H u v E. apply apart_from_ok in Ha as [Hr Hl]. destruct (window rs Hr l v [] ts out R Nl Hl u E) as (u' & v' & Et & K). destruct H as [H|H]; [exact (H u' v' Et)|]. apply in_map_iff in H as ([l0 r0] & <- & I). exact (K l0 r0 v' I eq_refl).
Qed.
