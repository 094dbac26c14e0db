(** Which operation rewrote which letters. *)
From Coq Require Import String.
From Verif Require Import Base RuleModel RegexModel RegexProofs IsoModel AlignModel AlignSpec AlignProofs AlignMore NatModel NatSpec NatProofs NatBytes NatBlocks NatBlocksProofs NatTyp NatTypMain DeromBytes.
Local Open Scope list_scope.

(** A letter that is still there, or letters [l] that operation [k] rewrote to [r] *)
Inductive piece := Raw (t : tok) | Seg (k : nat) (l r : word).
Definition piece_toks (x : piece) : word := match x with Raw t => [t] | Seg _ _ r => r end.
Definition piece_from (x : piece) : word := match x with Raw t => [t] | Seg _ l _ => l end.
Definition toks (L : list piece) : word := flat_map piece_toks L.
Definition from (L : list piece) : word := flat_map piece_from L.
Definition below (n : nat) (x : piece) : Prop := match x with Raw _ => True | Seg k _ _ => k < n end.
(** As it was before operation [k] *)
Definition undo (k : nat) (x : piece) : list piece := match x with Raw t => [x] | Seg j l r => if j =? k then map Raw l else [x] end.
Definition earlier (k : nat) (x : piece) : list piece := match x with Raw t => [x] | Seg j l r => if j <? k then [x] else map Raw l end.
Definition down (k : nat) (L : list piece) : list piece := flat_map (earlier k) L.

Definition good_rule (q : word * word) : Prop := fst q <> [] /\ forallb grapheme (fst q) = true /\ snd q <> [] /\ forallb translit (snd q) = true.
Definition good_piece (x : piece) : Prop := match x with Raw t => grapheme t = true | Seg _ l r => good_rule (l, r) end.
Definition good_op (o : op) : Prop := match o with Rewrite rs _ _ => Forall good_rule rs | _ => False end.

Lemma toks_app A B : toks (A ++ B) = toks A ++ toks B. Proof. apply flat_map_app. Qed.
Lemma toks_cons x L : toks (x :: L) = piece_toks x ++ toks L. Proof. reflexivity. Qed.
Lemma from_app A B : from (A ++ B) = from A ++ from B. Proof. apply flat_map_app. Qed.
Lemma down_app k A B : down k (A ++ B) = down k A ++ down k B. Proof. apply flat_map_app. Qed.
Lemma toks_raw l : toks (map Raw l) = l. Proof. induction l as [|t l IH]; cbn; [reflexivity|f_equal; exact IH]. Qed.
Lemma from_raw l : from (map Raw l) = l. Proof. induction l as [|t l IH]; cbn; [reflexivity|f_equal; exact IH]. Qed.
Lemma undo_raw k l : flat_map (undo k) (map Raw l) = map Raw l. Proof. induction l as [|t l IH]; cbn; [reflexivity|f_equal; exact IH]. Qed.
Lemma down_raw k l : down k (map Raw l) = map Raw l. Proof. induction l as [|t l IH]; cbn; [reflexivity|f_equal; exact IH]. Qed.

Inductive step (k : nat) (rs : list (word * word)) (p f : tctx) : list piece -> list piece -> list piece -> Prop :=
| s_end D : step k rs p f D [] []
| s_apply D l r B O : In (l, r) rs -> preceded p (toks D) -> followed f (toks B) -> step k rs p f (D ++ [Seg k l r]) B O -> step k rs p f D (map Raw l ++ B) (Seg k l r :: O)
| s_raw D t B O : (forall l r u, In (l, r) rs -> t :: toks B = l ++ u -> followed f u -> ~ preceded p (toks D)) -> step k rs p f (D ++ [Raw t]) B O -> step k rs p f D (Raw t :: B) (Raw t :: O)
| s_seg D j l r B O : step k rs p f (D ++ [Seg j l r]) B O -> step k rs p f D (Seg j l r :: B) (Seg j l r :: O).

(** Letters stand at the start *)
Lemma take_letters l : forallb grapheme l = true -> forall L rest, Forall good_piece L -> l ++ rest = toks L -> exists B, L = map Raw l ++ B /\ rest = toks B.
Proof.
  induction l as [|t l IH]; intros G L rest H E; [exists L; auto|]. cbn [forallb] in G. apply andb_prop in G as [Gt Gl]. destruct L as [|x L]; [discriminate E|]. inversion H as [|? ? Hx HL]; subst.
  destruct x as [t'|k a r]; cbn [toks flat_map piece_toks app] in E.
  - injection E as -> E. destruct (IH Gl L rest HL E) as (B & -> & ->). exists B. auto.
  - destruct Hx as (_ & _ & Nr & Tr_r). cbn [snd] in *. destruct r as [|y r]; [congruence|]. cbn in E. injection E as -> _. cbn in Tr_r. apply andb_prop in Tr_r as [T _]. destruct y; discriminate.
Qed.
Lemma skip_translits rs p f r : Forall good_rule rs -> forallb translit r = true -> forall d rest out, rewriting rs p f d (r ++ rest) out -> exists o, out = r ++ o /\ rewriting rs p f (d ++ r) rest o.
Proof.
  intros G. induction r as [|t r IH]; intros T d rest out R; [exists out; rewrite app_nil_r; auto|]. cbn [forallb] in T. apply andb_prop in T as [Tt Tr_]. cbn [app] in R.
  apply rewriting_inv in R as [[E _]|[(l' & r' & u & o & I' & _ & _ & E & Eo & R')|(t' & rest' & o & N & E & Eo & R')]]; [discriminate E| |].
  - exfalso. pose proof (proj1 (Forall_forall _ _) G _ I') as (Nl & Gl & _). cbn [fst] in *. destruct l' as [|y l']; [congruence|]. cbn in E. injection E as <- _. cbn in Gl. apply andb_prop in Gl as [Gy _]. destruct t; discriminate.
  - injection E as <- <-. subst out. destruct (IH Tr_ _ _ _ R') as (o' & -> & R''). exists o'. split; [reflexivity|]. rewrite <- app_assoc in R''. exact R''.
Qed.
Lemma step_of k rs p f : Forall good_rule rs -> forall n I D out, List.length I <= n -> Forall good_piece I -> rewriting rs p f (toks D) (toks I) out ->
  exists O, toks O = out /\ step k rs p f D I O.
Proof.
  intros G. induction n as [|n IH]; intros I D out Hn HI R.
  - destruct I; [|cbn in Hn; lia]. cbn in R. apply rewriting_nil in R; [|eapply Forall_impl; [|exact G]; intros q (H & _); exact H]. subst. exists []. split; [reflexivity|constructor].
  - destruct I as [|x I]; [apply (IH [] D out); [cbn; lia|constructor|exact R]|]. inversion HI as [|? ? Hx HI']; subst. destruct x as [t|j a b].
    + cbn [toks flat_map piece_toks app] in R. apply rewriting_inv in R as [[E _]|[(l & r & u & o & I' & P & F & E & Eo & R)|(t' & rest' & o & N & E & Eo & R)]]; [discriminate E| |].
      * pose proof (proj1 (Forall_forall _ _) G _ I') as (Nl & Gl & _). cbn [fst] in *. destruct (take_letters l Gl (Raw t :: I) u HI) as (B & EB & ->); [cbn; symmetry; exact E|]. rewrite EB in *. 
        destruct (IH B (D ++ [Seg k l r]) o) as (O & EO & S).
        { destruct l as [|y l]; [congruence|]. cbn in Hn. rewrite app_length, map_length in Hn. lia. }
        { apply Forall_app in HI as [_ H]. exact H. }
        { rewrite toks_app. cbn. rewrite app_nil_r. exact R. }
        exists (Seg k l r :: O). split; [rewrite toks_cons, EO; symmetry; exact Eo|]. apply s_apply; assumption.
      * injection E as <- <-. subst out. destruct (IH I (D ++ [Raw t]) o) as (O & EO & S); [cbn in Hn; lia|exact HI'|rewrite toks_app; exact R|]. exists (Raw t :: O). split; [rewrite toks_cons, EO; reflexivity|]. apply s_raw; assumption.
    + cbn [toks flat_map piece_toks] in R. destruct Hx as (_ & _ & _ & T). cbn [snd] in T. apply skip_translits in R as (o & -> & R); [|exact G|exact T]. destruct (IH I (D ++ [Seg j a b]) o) as (O & EO & S); [cbn in Hn; lia|exact HI'|rewrite toks_app; cbn; rewrite app_nil_r; exact R|].
      exists (Seg j a b :: O). split; [rewrite toks_cons, EO; reflexivity|]. apply s_seg; assumption.
Qed.
Lemma step_undo k rs p f D I O : step k rs p f D I O -> Forall (below k) I -> flat_map (undo k) O = I.
Proof.
  induction 1 as [D|D l r B O H P F S IH|D t B O N S IH|D j l r B O S IH]; intros W; [reflexivity| | |].
  - cbn. rewrite Nat.eqb_refl. f_equal. apply IH. apply Forall_app in W as [_ W]. exact W.
  - inversion W; subst. cbn. f_equal. auto.
  - inversion W as [|? ? Hb Hr]; subst. cbn in *. destruct (j =? k) eqn:E; [apply Nat.eqb_eq in E; lia|]. cbn. f_equal. auto.
Qed.
Lemma step_below k rs p f D I O : step k rs p f D I O -> Forall (below k) I -> Forall (below (S k)) O.
Proof.
  induction 1 as [D|D l r B O H P F S IH|D t B O N S IH|D j l r B O S IH]; intros W; [constructor| | |].
  - constructor; [cbn; lia|]. apply IH. apply Forall_app in W as [_ W]. exact W.
  - inversion W; subst. constructor; [exact Logic.I|auto].
  - inversion W as [|? ? Hb Hr]; subst. constructor; [cbn in *; lia|auto].
Qed.
Lemma step_good k rs p f D I O : Forall good_rule rs -> step k rs p f D I O -> Forall good_piece I -> Forall good_piece O.
Proof.
  intros G. induction 1 as [D|D l r B O H P F S IH|D t B O N S IH|D j l r B O S IH]; intros W; [constructor| | |].
  - constructor; [exact (proj1 (Forall_forall _ _) G _ H)|]. apply IH. apply Forall_app in W as [_ W]. exact W.
  - inversion W; subst. constructor; auto.
  - inversion W; subst. constructor; auto.
Qed.
(** What [step] says at each place *)
Lemma step_fire k rs p f D I O : step k rs p f D I O -> Forall (below k) I -> forall A l r B, O = A ++ Seg k l r :: B ->
  In (l, r) rs /\ preceded p (toks (D ++ A)) /\ followed f (toks (flat_map (undo k) B)).
Proof.
  induction 1 as [D|D l r B O H P F S IH|D t B O N S IH|D j l r B O S IH]; intros W A l' r' B' E; [destruct A; discriminate E| | |].
  - apply Forall_app in W as [_ W]. destruct A as [|x A]; cbn in E.
    + injection E as <- <- <-. rewrite app_nil_r. rewrite (step_undo _ _ _ _ _ _ _ S W). auto.
    + injection E as <- E. destruct (IH W A l' r' B' E) as (K1 & K2 & K3). rewrite <- app_assoc in K2. auto.
  - inversion W; subst. destruct A as [|x A]; cbn in E; [discriminate E|]. injection E as <- E. destruct (IH ltac:(assumption) A l' r' B' E) as (K1 & K2 & K3). rewrite <- app_assoc in K2. auto.
  - inversion W as [|? ? Hb Hr]; subst. destruct A as [|x A]; cbn in E; [injection E as -> _ _ _; cbn in Hb; lia|]. injection E as <- E. destruct (IH Hr A l' r' B' E) as (K1 & K2 & K3). rewrite <- app_assoc in K2. auto.
Qed.
Lemma step_keep k rs p f D I O : step k rs p f D I O -> Forall (below k) I -> forall A t B, O = A ++ Raw t :: B ->
  forall l r u, In (l, r) rs -> t :: toks (flat_map (undo k) B) = l ++ u -> followed f u -> ~ preceded p (toks (D ++ A)).
Proof.
  induction 1 as [D|D l r B O H P F S IH|D t B O N S IH|D j l r B O S IH]; intros W A t' B' E; [destruct A; discriminate E| | |].
  - apply Forall_app in W as [_ W]. destruct A as [|x A]; cbn in E; [discriminate E|]. injection E as <- E. intros l0 r0 u I0 E0 F0. pose proof (IH W A t' B' E l0 r0 u I0 E0 F0) as K. rewrite <- app_assoc in K. exact K.
  - inversion W as [|? ? _ W']; subst. destruct A as [|x A]; cbn in E.
    + injection E as -> ->. rewrite (step_undo _ _ _ _ _ _ _ S W'). rewrite app_nil_r. exact N.
    + injection E as <- E. intros l0 r0 u I0 E0 F0. pose proof (IH W' A t' B' E l0 r0 u I0 E0 F0) as K. rewrite <- app_assoc in K. exact K.
  - inversion W as [|? ? Hb Hr]; subst. destruct A as [|x A]; cbn in E; [discriminate E|]. injection E as <- E. intros l0 r0 u I0 E0 F0. pose proof (IH Hr A t' B' E l0 r0 u I0 E0 F0) as K. rewrite <- app_assoc in K. exact K.
Qed.

(** All operations *)
Lemma undo_down k L : flat_map (undo k) (down (S k) L) = down k L.
Proof.
  induction L as [|x L IH]; [reflexivity|]. unfold down in *. cbn [flat_map]. rewrite flat_map_app, IH. f_equal. destruct x as [t|j l r]; [reflexivity|]. cbn [earlier].
  destruct (j <? S k) eqn:E; [|rewrite undo_raw; replace (j <? k) with false; [reflexivity|symmetry; apply Nat.ltb_ge; apply Nat.ltb_ge in E; lia]].
  cbn [flat_map undo]. rewrite app_nil_r. destruct (j =? k) eqn:Ek.
  - apply Nat.eqb_eq in Ek. subst. rewrite Nat.ltb_irrefl. reflexivity.
  - apply Nat.ltb_lt in E. apply Nat.eqb_neq in Ek. replace (j <? k) with true; [reflexivity|symmetry; apply Nat.ltb_lt; lia].
Qed.
Lemma down_below k L : Forall (below k) L -> down k L = L.
Proof.
  induction 1 as [|x L Hx _ IH]; [reflexivity|]. unfold down in *. cbn [flat_map]. rewrite IH. destruct x as [t|j l r]; [reflexivity|]. cbn [earlier below] in *. apply Nat.ltb_lt in Hx. rewrite Hx. reflexivity.
Qed.
Lemma below_down k L : Forall (below k) (down k L).
Proof.
  apply Forall_forall. intros x I. apply in_flat_map in I as (y & _ & I). destruct y as [t|j l r]; cbn [earlier] in I; [destruct I as [<-|[]]; exact Logic.I|].
  destruct (j <? k) eqn:E; [destruct I as [<-|[]]; apply Nat.ltb_lt in E; exact E|]. apply in_map_iff in I as (t & <- & _). exact Logic.I.
Qed.
Definition step_op (k : nat) (o : op) (I O : list piece) : Prop := match o with Rewrite rs p f => step k rs p f [] I O | _ => False end.
Lemma run_pieces ops : Forall good_op ops -> forall k I out, Forall (below k) I -> Forall good_piece I -> performs_all ops (toks I) out ->
  exists L, toks L = out /\ down k L = I /\ Forall (below (k + List.length ops)) L /\ Forall good_piece L /\
    forall j o, nth_error ops j = Some o -> step_op (k + j) o (down (k + j) L) (down (S (k + j)) L).
Proof.
  induction 1 as [|o ops Go Gs IH]; intros k I out W HI P.
  - inversion P; subst. exists I. cbn [List.length]. rewrite Nat.add_0_r. split; [reflexivity|split; [apply down_below; exact W|split; [exact W|split; [exact HI|]]]]. intros j o E. destruct j; discriminate E.
  - inversion P as [|? ? ? mid ? P1 P2]; subst. destruct o as [rs p f| |]; cbn [good_op] in Go; try contradiction. cbn [performs] in P1.
    destruct (step_of k rs p f Go (List.length I) I [] mid (le_n _) HI P1) as (O & EO & St). subst mid.
    destruct (IH (S k) O out (step_below _ _ _ _ _ _ _ St W) (step_good _ _ _ _ _ _ _ Go St HI) P2) as (L & EL & EO & BL & GL & SL).
    exists L. assert (EI : down k L = I) by (rewrite <- undo_down, EO; exact (step_undo _ _ _ _ _ _ _ St W)).
    split; [exact EL|split; [exact EI|split; [cbn [List.length]; rewrite Nat.add_succ_r; exact BL|split; [exact GL|]]]].
    intros [|j] o E; cbn [nth_error] in E; [injection E as <-; rewrite Nat.add_0_r; cbn [step_op]; rewrite EI, EO; exact St|]. rewrite Nat.add_succ_r. exact (SL j o E).
Qed.

(** A text of letters that has been rewritten *)
Record traced (ops : list op) (ts : word) (L : list piece) : Prop := Traced {
  t_from : from L = ts;
  t_good : Forall good_piece L;
  t_fire : forall A k l r B, L = A ++ Seg k l r :: B -> exists rs p f, nth_error ops k = Some (Rewrite rs p f) /\ In (l, r) rs /\ preceded p (toks (down (S k) A)) /\ followed f (toks (down k B));
  t_keep : forall k rs p f A X B a t c l r u, nth_error ops k = Some (Rewrite rs p f) -> L = A ++ X ++ B -> down (S k) X = map Raw (from X) -> from X = a ++ t :: c ->
    In (l, r) rs -> t :: c ++ toks (down k B) = l ++ u -> followed f u -> ~ preceded p (toks (down (S k) A) ++ a) }.
Lemma from_down k L : from (down k L) = from L.
Proof.
  induction L as [|x L IH]; [reflexivity|]. unfold down in *. cbn [flat_map from]. rewrite from_app, IH. cbn [from flat_map]. f_equal. destruct x as [t|j l r]; [reflexivity|]. cbn [earlier]. destruct (j <? k); [cbn; apply app_nil_r|apply from_raw].
Qed.
Lemma trace ops ts out : Forall good_op ops -> forallb grapheme ts = true -> performs_all ops ts out -> exists L, toks L = out /\ traced ops ts L.
Proof.
  intros G Gt P. rewrite <- (toks_raw ts) in P. destruct (run_pieces ops G 0 (map Raw ts) out) as (L & EL & E0 & BL & GL & SL).
  { apply Forall_forall. intros x I. apply in_map_iff in I as (t & <- & _). exact Logic.I. }
  { apply Forall_forall. intros x I. apply in_map_iff in I as (t & <- & I). exact (proj1 (forallb_forall _ _) Gt _ I). }
  { exact P. }
  exists L. split; [exact EL|]. cbn [plus] in *. split.
  - rewrite <- (from_down 0 L), E0. apply from_raw.
  - exact GL.
  - intros A k l r B E. assert (K : k < List.length ops) by (subst L; apply Forall_app in BL as [_ BL]; inversion BL; subst; assumption). destruct (nth_error ops k) as [o|] eqn:Eo; [|apply nth_error_None in Eo; lia].
    pose proof (SL k o Eo) as St. destruct o as [rs p f| |]; cbn [step_op] in St; try contradiction. exists rs, p, f. split; [reflexivity|].
    assert (E1 : down (S k) L = down (S k) A ++ Seg k l r :: down (S k) B). { subst L. rewrite down_app. f_equal. unfold down. cbn [flat_map earlier]. replace (k <? S k) with true by (symmetry; apply Nat.ltb_lt; lia). reflexivity. }
    pose proof (step_fire _ _ _ _ _ _ _ St (below_down k L) _ _ _ _ E1) as K'. cbn [app] in K'. rewrite undo_down in K'. exact K'.
  - intros k rs p f A X B a t c l r u Eo E EX Ea I Ex F. pose proof (SL k _ Eo) as St. cbn [step_op] in St.
    assert (E1 : down (S k) L = (down (S k) A ++ map Raw a) ++ Raw t :: map Raw c ++ down (S k) B) by (subst L; rewrite !down_app, EX, Ea, map_app; cbn [map]; rewrite <- !app_assoc; reflexivity).
    pose proof (step_keep _ _ _ _ _ _ _ St (below_down k L) _ _ _ E1 l r u I) as K. cbn [app] in K. rewrite flat_map_app, undo_raw, undo_down, !toks_app, !toks_raw in K. exact (K Ex F).
Qed.
