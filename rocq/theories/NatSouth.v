(** Telugu and Kannada. *)
From Coq Require Import String.
From Verif Require Import Base RuleModel RegexModel IsoModel AlignModel AlignSpec AlignProofs AlignMore NatModel NatSpec NatProofs NatBytes NatBlocks NatBlocksProofs NatTyp NatTypMain NatMain NatRoman NatRomanMain NatPhon NatFacts NatSoundSpec.
Local Open Scope list_scope.

(** ** Operations that stay within pieces that start with a grapheme *)
Definition gheaded (w : word) : bool := match w with Gr _ :: _ => true | _ => false end.
Definition opens (c : word) : Prop := c = [] \/ gheaded c = true.
Definition tailed (q : word * word) : bool := match fst q with [] => false | _ :: l => forallb (fun t => negb (grapheme t)) l end.
Lemma none_done rs d ts out : rewriting rs None None d ts out -> forall d', rewriting rs None None d' ts out.
Proof. induction 1 as [done|done l r rest out I P F R IH|done t rest out N R IH]; intros d'; [constructor|constructor; auto|constructor; auto]. Qed.
Lemma tail_split l r w c rest : tailed (l, r) = true -> opens c -> w ++ c = l ++ rest -> w <> [] -> exists u, w = l ++ u /\ rest = u ++ c.
Proof.
  intros Hl Hc E Nw. apply app_eq_app in E as (k & [[-> ->]|[-> E]]); [exists k; auto|]. destruct k as [|t k]; [exists []; rewrite !app_nil_r; split; [reflexivity|symmetry; exact E]|]. exfalso.
  destruct Hc as [Hc|Hc]; [rewrite Hc in E; discriminate E|]. rewrite E in Hc. cbn [app gheaded] in Hc. destruct t as [s|s|s|]; try discriminate Hc. unfold tailed in Hl. cbn [fst] in Hl. destruct w as [|x w]; [destruct (Nw eq_refl)|]. cbn [app] in Hl.
  rewrite forallb_app in Hl. apply andb_prop in Hl as [_ Hl]. discriminate Hl.
Qed.
Lemma local_join rs w c o1 o2 : forallb tailed rs = true -> opens c -> rewriting rs None None [] w o1 -> rewriting rs None None [] c o2 -> forall d, rewriting rs None None d (w ++ c) (o1 ++ o2).
Proof.
  intros T Hc R1 R2. pose proof (none_done _ _ _ _ R2) as R3. clear R2. remember ([] : word) as z0 eqn:Ez0 in R1. clear Ez0. induction R1 as [done|done l r rest out I P F R IH|done t rest out N R IH]; intros d.
  - exact (R3 d).
  - rewrite <- !app_assoc. apply re_apply; [exact I|exact Logic.I|exact Logic.I|]. apply IH.
  - cbn [app]. constructor; [|apply IH]. intros l r u I E _ _. pose proof (proj1 (forallb_forall _ _) T _ I) as K. change (t :: rest ++ c) with ((t :: rest) ++ c) in E. destruct (tail_split l r (t :: rest) c u K Hc E ltac:(discriminate)) as (v & Ev & _). exact (N l r v I Ev Logic.I Logic.I).
Qed.
Definition local_op (o : op) : bool := match o with Rewrite rs None None => forallb tailed rs | _ => false end.
Lemma opens_concat bs : Forall (fun b => gheaded b = true) bs -> opens (concat bs).
Proof. intros H. destruct H as [|b bs H _]; [left; reflexivity|]. right. cbn [concat]. destruct b as [|[s|s|s|] b]; try discriminate H. reflexivity. Qed.
Lemma local_pieces o bs os : local_op o = true -> Forall (fun b => gheaded b = true) bs -> Forall2 (performs o) bs os -> performs o (concat bs) (concat os).
Proof.
  intros L G H. destruct o as [rs [p|] [f|]| |]; try discriminate L. cbn [local_op performs] in *. induction H as [|b o bs os H _ IH]; [constructor|]. inversion G as [|? ? _ G']; subst. cbn [concat]. apply local_join; [exact L|exact (opens_concat bs G')|exact H|exact (IH G')].
Qed.
(** By running them on each piece *)
Fixpoint local_run (l : list op) (b : word) : option word :=
  match l with
  | [] => Some b
  | o :: l' => if gheaded b then match run [o] b with b' :: _ => local_run l' b' | [] => None end else None
  end.
Definition first_run (o : op) (b : word) : word := match run [o] b with b' :: _ => b' | [] => [] end.
Lemma first_run_ok o b : nonempty_op o -> run [o] b <> [] -> performs o b (first_run o b).
Proof.
  intros N H. unfold first_run. destruct (run [o] b) as [|b' bs] eqn:E; [destruct (H eq_refl)|]. assert (P : performs_all [o] b b') by (apply run_ok; [repeat constructor; exact N|rewrite E; left; reflexivity]). inversion P as [|? ? ? m ? P1 P2]; subst. inversion P2; subst. exact P1.
Qed.
Lemma local_run_ok l : Forall nonempty_op l -> forallb local_op l = true -> forall bs f, (forall b, In b bs -> local_run l b = Some (f b)) -> performs_all l (concat bs) (concat (map f bs)).
Proof.
  induction 1 as [|o l No N IH]; intros L bs f H.
  - replace (map f bs) with bs; [constructor|]. induction bs as [|b bs IHb]; [reflexivity|]. pose proof (H b (or_introl eq_refl)) as E. cbn [local_run] in E. injection E as E. cbn [map]. rewrite <- E, <- IHb; [reflexivity|]. intros c I. apply H. right. exact I.
  - cbn [forallb] in L. apply andb_prop in L as [Lo L]. apply (pa_op _ _ _ (concat (map (first_run o) bs))).
    + apply local_pieces; [exact Lo|apply Forall_forall; intros b I; pose proof (H b I) as E; cbn [local_run] in E; destruct (gheaded b); [reflexivity|discriminate E]|]. clear IH. induction bs as [|b bs IHb]; constructor; [|apply IHb; intros c I; apply H; right; exact I].
      pose proof (H b (or_introl eq_refl)) as E. cbn [local_run] in E. destruct (gheaded b); [|discriminate E]. apply first_run_ok; [exact No|]. destruct (run [o] b); [discriminate E|discriminate].
    + assert (P : performs_all l (concat (map (first_run o) bs)) (concat (map (fun b => match local_run l b with Some x => x | None => [] end) (map (first_run o) bs)))).
      { apply IH; [exact L|]. intros b I. apply in_map_iff in I as (a & <- & I). pose proof (H a I) as E. cbn [local_run] in E. destruct (gheaded a); [|discriminate E]. unfold first_run. destruct (run [o] a); [discriminate E|]. rewrite E. reflexivity. }
      rewrite map_map in P. replace (map f bs) with (map (fun x => match local_run l (first_run o x) with Some y => y | None => [] end) bs); [exact P|]. apply map_ext_in. intros b I. pose proof (H b I) as E. cbn [local_run] in E. destruct (gheaded b); [|discriminate E]. unfold first_run. destruct (run [o] b); [discriminate E|]. rewrite E. reflexivity.
Qed.

(** ** Nasals *)
(** Aligned pieces *)
Definition piece (w : word) : bool := match w with Gr _ :: Eq :: r => forallb right_symbol r | _ => false end.
Definition onset (bs : list word) : option tok := match bs with (_ :: _ :: x :: _) :: _ => Some x | _ => None end.
Definition one_of (x : option tok) (l : list word) : bool := match x with Some t => existsb (fun w => word_eqb w [t]) l | None => false end.
Definition single_phoneme (w : word) : bool := match w with [Ph _] => true | _ => false end.
Lemma word_eqb_ok a b : word_eqb a b = true <-> a = b.
Proof. exact (word_eqb_spec a b). Qed.
Lemma followed_piece pl bs : forallb single_phoneme pl = true -> Forall (fun b => piece b = true) bs -> (followed (some_of pl) (concat bs) <-> one_of (onset bs) pl = true).
Proof.
  intros S P. unfold some_of, followed. split.
  - intros (x & a & u & E & M & K & _). remember (TWords pl) as re eqn:Er. destruct M as [l w I| | | | | | | | |]; try discriminate Er. injection Er as ->. pose proof (proj1 (forallb_forall _ _) S w I) as Sw. destruct w as [|[s|s|s|] [|]]; try discriminate Sw. clear Sw.
    destruct P as [|b bs Pb P]; [destruct x; discriminate E|]. destruct b as [|[g|g|g|] [|[h|h|h|] r]]; try discriminate Pb. cbn [concat app] in E. cbn [piece] in Pb. destruct K as [->|[(gs & -> & Hg)|(rs & -> & _)]]; [discriminate E| |discriminate E].
    destruct gs as [|g1 gs]; [discriminate E|]. cbn [app] in E. injection E as <- E. destruct gs as [|g2 gs]; [|cbn [app] in E; injection E as <- _; discriminate Hg]. cbn [app] in E. injection E as E.
    destruct r as [|y r].
    + exfalso. cbn [app] in E. destruct P as [|b bs Pb' P]; [discriminate E|]. destruct b as [|[k|k|k|] [|[h|h|h|] r]]; try discriminate Pb'. discriminate E.
    + cbn [app] in E. injection E as -> _. cbn [onset one_of]. apply existsb_exists. exists [Ph s]. split; [exact I|apply word_eqb_ok; reflexivity].
  - intros H. destruct P as [|b bs Pb P]; [discriminate H|]. destruct b as [|[g|g|g|] [|[h|h|h|] r]]; try discriminate Pb. destruct r as [|y r]; [discriminate H|]. cbn [onset one_of] in H. apply existsb_exists in H as (w & I & H). apply word_eqb_ok in H as ->.
    exists [Gr g; Eq], [y], (r ++ concat bs). split; [reflexivity|]. split; [constructor; exact I|]. split; [|discriminate]. right. left. exists [Gr g]. split; reflexivity.
Qed.
Lemma piece_headed b : piece b = true -> gheaded b = true.
Proof. destruct b as [|[g|g|g|] b]; try discriminate. reflexivity. Qed.
Lemma pieces_open bs : Forall (fun b => piece b = true) bs -> opens (concat bs).
Proof. intros H. apply opens_concat. eapply Forall_impl; [|exact H]. intros b. apply piece_headed. Qed.
Lemma copy_tail rs f w c o : (forall l r, In (l, r) rs -> gheaded l = true) -> forallb (fun t => negb (grapheme t)) w = true -> (forall d, rewriting rs None f d c o) -> forall d, rewriting rs None f d (w ++ c) (w ++ o).
Proof.
  intros G. induction w as [|t w IH]; intros H R d; [exact (R d)|]. cbn [forallb] in H. apply andb_prop in H as [Ht H]. cbn [app]. constructor; [|exact (IH H R _)].
  intros l r u I E _ _. apply G in I. destruct l as [|[g|g|g|] l]; try discriminate I. injection E as -> _. discriminate Ht.
Qed.
Lemma copy_piece rs f b c o : (forall l r, In (l, r) rs -> gheaded l = true) -> piece b = true -> (forall l r u, In (l, r) rs -> b ++ c = l ++ u -> followed f u -> False) -> (forall d, rewriting rs None f d c o) -> forall d, rewriting rs None f d (b ++ c) (b ++ o).
Proof.
  intros G P N R d. destruct b as [|[g|g|g|] [|[h|h|h|] b]]; try discriminate P. cbn [piece] in P. constructor; [intros l r u I E F _; exact (N l r u I E F)|].
  apply (copy_tail rs f (Eq :: b) c o G); [|exact R]. cbn [forallb]. apply andb_true_intro. split; [reflexivity|]. apply forallb_forall. intros t I. pose proof (proj1 (forallb_forall _ _) P t I) as K. destruct t; [discriminate K|reflexivity..].
Qed.
(** Nothing comes after in a piece that starts like that *)
Definition clean (l b : word) : Prop := forall u, b = l ++ u -> u = [].
Fixpoint nasal_step (l r : word) (pl : list word) (bs : list word) : list word :=
  match bs with [] => [] | b :: rest => (if word_eqb b l then if one_of (onset rest) pl then r else b else b) :: nasal_step l r pl rest end.
Lemma piece_tailed l r : piece l = true -> tailed (l, r) = true.
Proof.
  destruct l as [|[g|g|g|] [|[h|h|h|] b]]; try discriminate. cbn [piece]. intros P. unfold tailed. cbn [fst forallb grapheme negb andb]. apply forallb_forall. intros t I. pose proof (proj1 (forallb_forall _ _) P t I) as K. destruct t; [discriminate K|reflexivity..].
Qed.
Lemma piece_nonempty b : piece b = true -> b <> [].
Proof. intros P ->. discriminate P. Qed.
Lemma nasal_step_ok l r pl bs : piece l = true -> forallb single_phoneme pl = true -> Forall (fun b => piece b = true /\ clean l b) bs ->
  forall d, rewriting [(l, r)] None (some_of pl) d (concat bs) (concat (nasal_step l r pl bs)).
Proof.
  intros Pl S H. induction H as [|b bs [Pb Cb] H IH]; intros d; [constructor|]. cbn [nasal_step concat].
  assert (Ps : Forall (fun b => piece b = true) bs) by (eapply Forall_impl; [|exact H]; intros c [Q _]; exact Q).
  assert (Copy : (b = l -> one_of (onset bs) pl = false) -> rewriting [(l, r)] None (some_of pl) d (b ++ concat bs) (b ++ concat (nasal_step l r pl bs))).
  { intros No. apply copy_piece; [intros a e [E|[]]; injection E as <- _; apply piece_headed; exact Pl|exact Pb| |exact IH]. intros a e u [E|[]] X F. injection E as <- <-.
    destruct (tail_split l r b (concat bs) u (piece_tailed l r Pl) (pieces_open bs Ps) X (piece_nonempty b Pb)) as (v & -> & ->). rewrite (Cb v eq_refl) in *. cbn [app] in F. apply (followed_piece pl bs S Ps) in F. rewrite app_nil_r in No. rewrite (No eq_refl) in F. discriminate F. }
  destruct (word_eqb b l) eqn:E; [|apply Copy; intros ->; rewrite (proj2 (word_eqb_ok l l) eq_refl) in E; discriminate E]. destruct (one_of (onset bs) pl) eqn:O; [|apply Copy; reflexivity]. apply word_eqb_ok in E as ->.
  apply re_apply; [left; reflexivity|exact Logic.I|apply (followed_piece pl bs S Ps); exact O|apply IH].
Qed.
(** ** Two pieces *)
Fixpoint pair_step (l1 l2 r1 : word) (bs : list word) : list word :=
  match bs with [] => [] | b :: rest => (if word_eqb b l1 then match rest with c :: _ => if word_eqb c l2 then r1 else b | [] => b end else b) :: pair_step l1 l2 r1 rest end.
Lemma pair_step_ok l1 l2 r1 : piece l1 = true -> piece l2 = true -> l2 <> l1 -> forall n bs, List.length bs <= n -> Forall (fun b => piece b = true /\ clean l1 b /\ clean l2 b) bs ->
  forall d, rewriting [(l1 ++ l2, r1 ++ l2)] None None d (concat bs) (concat (pair_step l1 l2 r1 bs)).
Proof.
  intros P1 P2 Ne. induction n as [|n IH]; intros bs L H d; [destruct bs; [constructor|cbn in L; lia]|]. destruct H as [|b bs (Pb & C1 & C2) H]; [constructor|]. cbn [List.length] in L. cbn [concat].
  assert (Ps : Forall (fun b => piece b = true) bs) by (eapply Forall_impl; [|exact H]; intros c [Q _]; exact Q).
  assert (Copy : (b = l1 -> forall rest, bs <> l2 :: rest) -> rewriting [(l1 ++ l2, r1 ++ l2)] None None d (b ++ concat bs) (b ++ concat (pair_step l1 l2 r1 bs))).
  { intros No. apply copy_piece; [intros a e [E|[]]; injection E as <- _; destruct l1 as [|[g|g|g|] l1]; try discriminate P1; reflexivity|exact Pb| |intros d'; apply IH; [lia|exact H]].
    intros a e u [E|[]] X _. injection E as <- <-. rewrite <- app_assoc in X. destruct (tail_split l1 [] b (concat bs) _ (piece_tailed l1 [] P1) (pieces_open bs Ps) X (piece_nonempty b Pb)) as (v & -> & Y). rewrite (C1 v eq_refl) in *. cbn [app] in Y. rewrite app_nil_r in No.
    destruct bs as [|c bs]; [destruct l2; [discriminate P2|discriminate Y]|]. cbn [concat] in Y. inversion H as [|? ? (Pc & _ & C2') H']; subst. inversion Ps as [|? ? _ Ps']; subst. symmetry in Y. destruct (tail_split l2 [] c (concat bs) u (piece_tailed l2 [] P2) (pieces_open bs Ps') Y (piece_nonempty c Pc)) as (v' & -> & _). rewrite (C2' v' eq_refl), app_nil_r in No. exact (No eq_refl bs eq_refl). }
  cbn [pair_step concat]. destruct (word_eqb b l1) eqn:E; [|apply Copy; intros ->; rewrite (proj2 (word_eqb_ok l1 l1) eq_refl) in E; discriminate E]. destruct bs as [|c bs]; [apply Copy; discriminate|]. destruct (word_eqb c l2) eqn:O; [|apply Copy; intros _ rest X; injection X as -> _; rewrite (proj2 (word_eqb_ok l2 l2) eq_refl) in O; discriminate O].
  apply word_eqb_ok in E as ->. apply word_eqb_ok in O as ->. cbn [concat pair_step]. destruct (word_eqb l2 l1) eqn:E; [apply word_eqb_ok in E; destruct (Ne E)|]. rewrite !app_assoc. cbn [List.length] in L.
  apply re_apply; [left; reflexivity|exact Logic.I|exact Logic.I|]. inversion H as [|? ? _ H']; subst. apply IH; [lia|exact H'].
Qed.
