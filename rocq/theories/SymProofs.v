From Verif Require Import Base RuleModel VisualModel ScriptData IsoModel IsoSpec IsoProofs MachineModel MachineProofs SymModel.
From Coq Require Import Lia.

(** ** Equality tests *)
Lemma swt_eqb_eq a : forall b, swt_eqb a b = true -> a = b.
Proof.
  induction a as [n|w|a1 IH1 a2 IH2|a1 IH1 a2 IH2|a IH]; intros b; destruct b; cbn [swt_eqb]; try discriminate; intros H.
  - apply Nat.eqb_eq in H. congruence.
  - apply N.eqb_eq in H. congruence.
  - destruct (swt_eqb a1 b1) eqn:E; [|discriminate]. apply IH1 in E. apply IH2 in H. congruence.
  - destruct (swt_eqb a1 b1) eqn:E; [|discriminate]. apply IH1 in E. apply IH2 in H. congruence.
  - apply IH in H. congruence.
Qed.
Lemma stack_eqb_eq a : forall b, stack_eqb a b = true -> a = b.
Proof.
  induction a as [|x a IH]; intros [|y b]; cbn [stack_eqb]; try discriminate; [reflexivity|]. destruct (swt_eqb x y) eqn:E; [|discriminate]. intros H.
  apply swt_eqb_eq in E. apply IH in H. congruence.
Qed.
Lemma sstate_eqb_eq a b : sstate_eqb a b = true -> a = b.
Proof.
  destruct a as [r k], b as [r' k']. unfold sstate_eqb. cbn [fst snd]. destruct (rest_eqb r r') eqn:E; [|discriminate]. intros H. apply stack_eqb_eq in H. subst k'.
  f_equal. destruct r as [[i o]|], r' as [[i' o']|]; cbn [rest_eqb] in E; try discriminate; [|reflexivity].
  destruct (str_eqb i i') eqn:E'; [|discriminate]. apply str_eqb_eq in E'. apply str_eqb_eq in E. congruence.
Qed.

(** ** The symbolic automaton *)
Section Sym.
Variable env : maps.
Notation den := (denote env).
Lemma nulls_rel s : swt_star_ok env s = true -> forall o w, In (o, w) (nulls env s) <-> rel (den s) [] o w.
Proof.
  induction s as [n|v|a IHa b IHb|a IHa b IHb|a IHa]; cbn [swt_star_ok nulls denote]; intros K o w.
  - rewrite in_flat_map. split.
    + intros ([i o'] & H & Q). destruct i; [|destruct Q]. destruct Q as [Q|[]]. injection Q as <- <-. constructor. exact H.
    + intros R. inversion R as [l i o' H| | | | | |]; subst. exists ([], o). split; [exact H|left; reflexivity].
  - split; [intros [H|[]]; injection H as <- <-; constructor|]. intros R. inversion R; subst. left. reflexivity.
  - apply andb_prop in K as [Ka Kb]. rewrite in_flat_map. split.
    + intros ([o1 w1] & H1 & H). apply in_map_iff in H as ([o2 w2] & E & H2). cbn in E. injection E as <- <-. apply (IHa Ka) in H1. apply (IHb Kb) in H2. exact (R_cat _ _ _ _ _ _ _ _ H1 H2).
    + intros R. inversion R as [| |a0 b0 i1 o1 w1 i2 o2 w2 R1 R2 E1 E2 E3 E4| | | |]; subst. apply app_eq_nil in E2 as [-> ->].
      exists (o1, w1). split; [apply IHa; assumption|]. apply in_map_iff. exists (o2, w2). split; [reflexivity|apply IHb; assumption].
  - apply andb_prop in K as [Ka Kb]. rewrite in_app_iff, (IHa Ka), (IHb Kb). split.
    + intros [R|R]; [apply R_alt1|apply R_alt2]; exact R.
    + intros R. inversion R; subst; [left|right]; assumption.
  - apply andb_prop in K as [Kn Ka]. destruct (nulls env a) as [|p l] eqn:E; [|discriminate]. split.
    + intros [H|[]]. injection H as <- <-. constructor.
    + intros R. inversion R as [| | | | |a0 E1 E2 E3 E4|a0 i1 o1 w1 i2 o2 w2 R1 R2 E1 E2 E3 E4]; subst; [left; reflexivity|].
      apply app_eq_nil in E2 as [-> ->]. apply (IHa Ka) in R1. destruct R1.
Qed.

Variable body : swt.
Hypothesis body_ok : swt_star_ok env body = true.
Hypothesis body_null : nulls env body = [].
(** What a stack, and a state, reads *)
Fixpoint stack_rel (k : list swt) (x o : str) (w : N) : Prop :=
  match k with
  | [] => rel (WStar (den body)) x o w
  | s :: r => exists x1 o1 w1 x2 o2 w2, rel (den s) x1 o1 w1 /\ stack_rel r x2 o2 w2 /\ x = x1 ++ x2 /\ o = o1 ++ o2 /\ w = (w1 + w2)%N
  end.
Definition state_rel (q : sstate) (x o : str) (w : N) : Prop :=
  match fst q with
  | None => stack_rel (snd q) x o w
  | Some (i, o') => i <> [] /\ exists x2 o2, stack_rel (snd q) x2 o2 w /\ x = i ++ x2 /\ o = o' ++ o2
  end.
Lemma read_row_sound i o1 k o w c q x o2 w2 : In (o, w, c, q) (read_row i o1 k) -> state_rel q x o2 w2 ->
  exists x' o' w', stack_rel k x' o' w' /\ c :: x = i ++ x' /\ o ++ o2 = o1 ++ o' /\ (w + w2)%N = w'.
Proof.
  destruct i as [|c0 [|c1 t]]; cbn [read_row]; [intros []| |]; intros [H|[]] R; injection H as <- <- <- <-; unfold state_rel in R; cbn [fst snd] in R.
  - exists x, o2, w2. repeat split; [exact R].
  - destruct R as (_ & x' & o' & R & -> & ->). exists x', o', w2. repeat split. exact R.
Qed.
Lemma read_row_complete c i o1 k x' o' w' : stack_rel k x' o' w' ->
  exists o w q o2 w2, In (o, w, c, q) (read_row (c :: i) o1 k) /\ state_rel q (i ++ x') o2 w2 /\ o1 ++ o' = o ++ o2 /\ w' = (w + w2)%N.
Proof.
  intros R. destruct i as [|c1 t]; cbn [read_row].
  - exists o1, 0%N, (None, k), o', w'. repeat split; [left; reflexivity|exact R].
  - exists [], 0%N, (Some (c1 :: t, o1), k), (o1 ++ o'), w'. repeat split; [left; reflexivity|discriminate|]. exists x', o'. repeat split. exact R.
Qed.
Lemma in_pre_moves (l : list (str * N)) (m : list move) o w c q : In (o, w, c, q) (flat_map (fun p => map (pre_move p) m) l) <->
  exists o1 w1 o2 w2, In (o1, w1) l /\ In (o2, w2, c, q) m /\ o = o1 ++ o2 /\ w = (w1 + w2)%N.
Proof.
  rewrite in_flat_map. split.
  - intros ([o1 w1] & H & K). apply in_map_iff in K as ([[[o2 w2] c2] q2] & E & K). cbn in E. injection E as <- <- <- <-. exists o1, w1, o2, w2. repeat split; assumption.
  - intros (o1 & w1 & o2 & w2 & H & K & -> & ->). exists (o1, w1). split; [exact H|]. apply in_map_iff. exists (o2, w2, c, q). split; [reflexivity|exact K].
Qed.
Lemma skip_null {A} (l : list A) {B} (f : A -> list B) : match l with [] => [] | p :: l0 => flat_map f (p :: l0) end = flat_map f l.
Proof. destruct l; reflexivity. Qed.
Lemma direct_sound s : swt_star_ok env s = true -> forall k o w c q x o2 w2, In (o, w, c, q) (direct env s k) -> state_rel q x o2 w2 ->
  exists x1 o1 w1 x' o' w', rel (den s) x1 o1 w1 /\ stack_rel k x' o' w' /\ c :: x = x1 ++ x' /\ o ++ o2 = o1 ++ o' /\ (w + w2)%N = (w1 + w')%N.
Proof.
  induction s as [n|v|a IHa b IHb|a IHa b IHb|a IHa]; cbn [swt_star_ok direct denote]; intros K k o w c q x o2 w2 H R.
  - apply in_flat_map in H as ([i o1] & Hl & H). destruct (read_row_sound _ _ _ _ _ _ _ _ _ _ H R) as (x' & o' & w' & S & E1 & E2 & E3).
    exists i, o1, 0%N, x', o', w'. repeat split; [constructor; exact Hl|exact S|exact E1|exact E2|lia].
  - destruct H.
  - apply andb_prop in K as [Ka Kb]. apply in_app_or in H as [H|H].
    + destruct (IHa Ka _ _ _ _ _ _ _ _ H R) as (x1 & o1 & w1 & x' & o' & w' & R1 & S & E1 & E2 & E3). cbn [stack_rel] in S.
      destruct S as (x3 & o3 & w3 & x4 & o4 & w4 & R3 & S & -> & -> & ->).
      exists (x1 ++ x3), (o1 ++ o3), (w1 + w3)%N, x4, o4, w4. repeat split; [constructor; assumption|exact S|rewrite E1, app_assoc; reflexivity|rewrite E2, app_assoc; reflexivity|lia].
    + cbv zeta in H. rewrite (skip_null (nulls env a) (fun p => map (pre_move p) (direct env b k))) in H. apply in_pre_moves in H as (o3 & w3 & o4 & w4 & Hn & H & -> & ->).
      destruct (IHb Kb _ _ _ _ _ _ _ _ H R) as (x1 & o1 & w1 & x' & o' & w' & R1 & S & E1 & E2 & E3). apply (nulls_rel a Ka) in Hn.
      exists x1, (o3 ++ o1), (w3 + w1)%N, x', o', w'. repeat split; [exact (R_cat _ _ _ _ _ _ _ _ Hn R1)|exact S|exact E1|rewrite <- !app_assoc, E2; reflexivity|lia].
  - apply andb_prop in K as [Ka Kb]. apply in_app_or in H as [H|H].
    + destruct (IHa Ka _ _ _ _ _ _ _ _ H R) as (x1 & o1 & w1 & x' & o' & w' & R1 & S). exists x1, o1, w1, x', o', w'. split; [apply R_alt1; exact R1|exact S].
    + destruct (IHb Kb _ _ _ _ _ _ _ _ H R) as (x1 & o1 & w1 & x' & o' & w' & R1 & S). exists x1, o1, w1, x', o', w'. split; [apply R_alt2; exact R1|exact S].
  - apply andb_prop in K as [Kn Ka]. destruct (IHa Ka _ _ _ _ _ _ _ _ H R) as (x1 & o1 & w1 & x' & o' & w' & R1 & S & E1 & E2 & E3). cbn [stack_rel denote] in S.
    destruct S as (x3 & o3 & w3 & x4 & o4 & w4 & R3 & S & -> & -> & ->).
    exists (x1 ++ x3), (o1 ++ o3), (w1 + w3)%N, x4, o4, w4. repeat split; [constructor; assumption|exact S|rewrite E1, app_assoc; reflexivity|rewrite E2, app_assoc; reflexivity|lia].
Qed.
Lemma rel_star_first a c x o w : rel (WStar a) (c :: x) o w -> (forall o w, ~ rel a [] o w) ->
  exists x1 o1 w1 x2 o2 w2, rel a (c :: x1) o1 w1 /\ rel (WStar a) x2 o2 w2 /\ x = x1 ++ x2 /\ o = o1 ++ o2 /\ w = (w1 + w2)%N.
Proof.
  intros R Hn. inversion R as [| | | | | |a0 i1 o1 w1 i2 o2 w2 R1 R2 E1 E2 E3 E4]; subst. destruct i1 as [|c1 i1]; [destruct (Hn _ _ R1)|].
  cbn in E2. injection E2 as <- <-. exists i1, o1, w1, i2, o2, w2. repeat split; assumption.
Qed.
Lemma direct_complete s : swt_star_ok env s = true -> forall k c x1 o1 w1 x' o' w', rel (den s) (c :: x1) o1 w1 -> stack_rel k x' o' w' ->
  exists o w q o2 w2, In (o, w, c, q) (direct env s k) /\ state_rel q (x1 ++ x') o2 w2 /\ o1 ++ o' = o ++ o2 /\ (w1 + w')%N = (w + w2)%N.
Proof.
  induction s as [n|v|a IHa b IHb|a IHa b IHb|a IHa]; cbn [swt_star_ok direct denote]; intros K k c x1 o1 w1 x' o' w' R S.
  - inversion R as [l i o0 Hl| | | | | |]; subst. destruct (read_row_complete c x1 o1 k x' o' w' S) as (o & w & q & o2 & w2 & H & Q & E1 & E2).
    exists o, w, q, o2, w2. repeat split; [apply in_flat_map; exists (c :: x1, o1); split; assumption|exact Q|exact E1|lia].
  - inversion R.
  - apply andb_prop in K as [Ka Kb]. inversion R as [| |a0 b0 i1 p1 v1 i2 p2 v2 R1 R2 E1 E2 E3 E4| | | |]; subst. destruct i1 as [|c1 i1].
    + cbn in E2. subst i2. destruct (IHb Kb k _ _ _ _ _ _ _ R2 S) as (o & w & q & o2 & w2 & H & Q & E1 & E2). apply (nulls_rel a Ka) in R1.
      exists (p1 ++ o), (v1 + w)%N, q, o2, w2. repeat split; [|exact Q|rewrite <- !app_assoc, E1; reflexivity|lia].
      apply in_or_app. right. cbv zeta. rewrite (skip_null (nulls env a) (fun p => map (pre_move p) (direct env b k))). apply in_pre_moves. exists p1, v1, o, w. repeat split; assumption.
    + cbn in E2. injection E2 as -> <-. destruct (IHa Ka (b :: k) c i1 p1 v1 (i2 ++ x') (p2 ++ o') (v2 + w')%N R1) as (o & w & q & o2 & w2 & H & Q & E1 & E2).
      { cbn [stack_rel]. exists i2, p2, v2, x', o', w'. repeat split; assumption. }
      exists o, w, q, o2, w2. repeat split; [apply in_or_app; left; exact H|rewrite <- app_assoc; exact Q|rewrite <- app_assoc; exact E1|lia].
  - apply andb_prop in K as [Ka Kb]. inversion R; subst.
    + destruct (IHa Ka k c x1 o1 w1 x' o' w') as (o & w & q & o2 & w2 & H & Q); [assumption|exact S|]. exists o, w, q, o2, w2. split; [apply in_or_app; left; exact H|exact Q].
    + destruct (IHb Kb k c x1 o1 w1 x' o' w') as (o & w & q & o2 & w2 & H & Q); [assumption|exact S|]. exists o, w, q, o2, w2. split; [apply in_or_app; right; exact H|exact Q].
  - apply andb_prop in K as [Kn Ka]. apply rel_star_first in R as (y1 & p1 & v1 & y2 & p2 & v2 & R1 & R2 & -> & -> & ->).
    + destruct (IHa Ka (SStar a :: k) c y1 p1 v1 (y2 ++ x') (p2 ++ o') (v2 + w')%N R1) as (o & w & q & o2 & w2 & H & Q & E1 & E2).
      { cbn [stack_rel]. exists y2, p2, v2, x', o', w'. repeat split; assumption. }
      exists o, w, q, o2, w2. repeat split; [exact H|rewrite <- app_assoc; exact Q|rewrite <- app_assoc; exact E1|lia].
    + intros o w R0. apply (nulls_rel a Ka) in R0. destruct (nulls env a); [destruct R0|discriminate].
Qed.
Definition stack_ok (k : list swt) : bool := forallb (swt_star_ok env) k.
Definition state_ok (q : sstate) : bool := stack_ok (snd q).
Lemma direct_ok s : forall k o w c q, swt_star_ok env s = true -> stack_ok k = true -> In (o, w, c, q) (direct env s k) -> state_ok q = true.
Proof.
  induction s as [n|v|a IHa b IHb|a IHa b IHb|a IHa]; cbn [swt_star_ok direct]; intros k o w c q K S H.
  - apply in_flat_map in H as ([i o1] & _ & H). unfold read_row in H. destruct i as [|c0 [|c1 t]]; [destruct H| |]; destruct H as [H|[]]; injection H as <- <- <- <-; exact S.
  - destruct H.
  - apply andb_prop in K as [Ka Kb]. apply in_app_or in H as [H|H].
    + apply (IHa _ _ _ _ _ Ka) in H; [exact H|]. cbn. rewrite Kb. exact S.
    + cbv zeta in H. rewrite (skip_null (nulls env a) (fun p => map (pre_move p) (direct env b k))) in H. apply in_pre_moves in H as (o3 & w3 & o4 & w4 & _ & H & _). exact (IHb _ _ _ _ _ Kb S H).
  - apply andb_prop in K as [Ka Kb]. apply in_app_or in H as [H|H]; [exact (IHa _ _ _ _ _ Ka S H)|exact (IHb _ _ _ _ _ Kb S H)].
  - pose proof K as K'. apply andb_prop in K as [_ Ka]. apply (IHa _ _ _ _ _ Ka) in H; [exact H|]. cbn [stack_ok forallb swt_star_ok]. rewrite K'. exact S.
Qed.
Lemma stack_moves_iff k : stack_ok k = true -> forall c x o w, stack_rel k (c :: x) o w <->
  exists o1 w1 q o2 w2, In (o1, w1, c, q) (stack_moves env body k) /\ state_rel q x o2 w2 /\ o = o1 ++ o2 /\ w = (w1 + w2)%N.
Proof.
  induction k as [|s k IH]; cbn [stack_ok forallb]; intros K c x o w.
  - cbn [stack_rel stack_moves]. split.
    + intros R. apply rel_star_first in R as (y1 & p1 & v1 & y2 & p2 & v2 & R1 & R2 & -> & -> & ->).
      * destruct (direct_complete body body_ok [] c y1 p1 v1 y2 p2 v2 R1 R2) as (o & w & q & o2 & w2 & H & Q & E1 & E2). exists o, w, q, o2, w2. repeat split; assumption.
      * intros o' w' R0. apply (nulls_rel body body_ok) in R0. rewrite body_null in R0. destruct R0.
    + intros (o1 & w1 & q & o2 & w2 & H & Q & -> & ->). destruct (direct_sound body body_ok _ _ _ _ _ _ _ _ H Q) as (x1 & p1 & v1 & x' & o' & w' & R1 & S & E1 & E2 & E3).
      rewrite E1, E2, E3. constructor; assumption.
  - apply andb_prop in K as [Ks Kk]. specialize (IH Kk). cbn [stack_rel stack_moves]. cbv zeta.
    rewrite (skip_null (nulls env s) (fun p => map (pre_move p) (stack_moves env body k))). split.
    + intros (x1 & o1 & w1 & x2 & o2 & w2 & R & S & E & -> & ->). destruct x1 as [|c1 x1].
      * cbn in E. subst x2. apply IH in S as (o3 & w3 & q & o4 & w4 & H & Q & -> & ->). apply (nulls_rel s Ks) in R.
        exists (o1 ++ o3), (w1 + w3)%N, q, o4, w4. rewrite <- app_assoc. repeat split; [|exact Q|lia]. apply in_or_app. right. apply in_pre_moves. exists o1, w1, o3, w3. repeat split; assumption.
      * cbn in E. injection E as -> ->. destruct (direct_complete s Ks k c1 x1 o1 w1 x2 o2 w2 R S) as (o & w & q & o4 & w4 & H & Q & E1 & E2).
        exists o, w, q, o4, w4. repeat split; [apply in_or_app; left; exact H|exact Q|exact E1|exact E2].
    + intros (o1 & w1 & q & o2 & w2 & H & Q & -> & ->). apply in_app_or in H as [H|H].
      * destruct (direct_sound s Ks _ _ _ _ _ _ _ _ H Q) as (x1 & p1 & v1 & x' & o' & w' & R1 & S & E1 & E2 & E3). exists x1, p1, v1, x', o', w'. repeat split; assumption.
      * apply in_pre_moves in H as (p1 & v1 & p2 & v2 & Hn & H & -> & ->). apply (nulls_rel s Ks) in Hn.
        exists [], p1, v1, (c :: x), (p2 ++ o2), (v2 + w2)%N. repeat split; [exact Hn| |rewrite app_assoc; reflexivity|lia]. apply IH. exists p2, v2, q, o2, w2. repeat split; assumption.
Qed.
Lemma moves_iff q : state_ok q = true -> forall c x o w, state_rel q (c :: x) o w <->
  exists o1 w1 q' o2 w2, In (o1, w1, c, q') (moves env body q) /\ state_rel q' x o2 w2 /\ o = o1 ++ o2 /\ w = (w1 + w2)%N.
Proof.
  destruct q as [[[i o0]|] k]; intros K c x o w; unfold moves; cbn [fst snd]; [|apply stack_moves_iff; exact K]. split.
  - intros (NE & x2 & o2 & S & E & ->). cbn [fst snd] in *. destruct i as [|c1 i]; [congruence|]. cbn in E. injection E as -> ->.
    destruct (read_row_complete c1 i o0 k x2 o2 w S) as (o & w' & q & o3 & w3 & H & Q & E1 & E2). exists o, w', q, o3, w3. repeat split; assumption.
  - intros (o1 & w1 & q & o2 & w2 & H & Q & -> & ->). destruct (read_row_sound _ _ _ _ _ _ _ _ _ _ H Q) as (x' & o' & w' & S & E1 & E2 & <-).
    split; [intros E; cbn [fst] in E; subst i; destruct H|]. exists x', o'. repeat split; assumption.
Qed.
Lemma moves_ok q o w c q' : state_ok q = true -> In (o, w, c, q') (moves env body q) -> state_ok q' = true.
Proof.
  destruct q as [[[i o0]|] k]; unfold moves, state_ok; cbn [fst snd]; intros K H.
  - unfold read_row in H. destruct i as [|c0 [|c1 t]]; [destruct H| |]; destruct H as [H|[]]; injection H as <- <- <- <-; exact K.
  - revert o w H. induction k as [|s k IH]; cbn [stack_moves]; intros o w H.
    + exact (direct_ok body [] _ _ _ _ body_ok eq_refl H).
    + cbn [stack_ok forallb] in K. apply andb_prop in K as [Ks Kk]. cbv zeta in H. rewrite (skip_null (nulls env s) (fun p => map (pre_move p) (stack_moves env body k))) in H.
      apply in_app_or in H as [H|H]; [exact (direct_ok s k _ _ _ _ Ks Kk H)|]. apply in_pre_moves in H as (o3 & w3 & o4 & w4 & _ & H & _). exact (IH Kk _ _ H).
Qed.
Lemma stack_nulls_iff k : stack_ok k = true -> forall o w, In (o, w) (stack_nulls env k) <-> stack_rel k [] o w.
Proof.
  induction k as [|s k IH]; cbn [stack_ok forallb]; intros K o w.
  - cbn [stack_nulls stack_rel]. split; [intros [H|[]]; injection H as <- <-; constructor|].
    intros R. inversion R as [| | | | |a0 E1 E2 E3 E4|a0 i1 o1 w1 i2 o2 w2 R1 R2 E1 E2 E3 E4]; subst; [left; reflexivity|].
    apply app_eq_nil in E2 as [-> ->]. apply (nulls_rel body body_ok) in R1. rewrite body_null in R1. destruct R1.
  - apply andb_prop in K as [Ks Kk]. specialize (IH Kk). cbn [stack_nulls stack_rel]. cbv zeta.
    transitivity (In (o, w) (flat_map (fun p : list N * N => map (fun q : list N * N => (fst p ++ fst q, (snd p + snd q)%N)) (stack_nulls env k)) (nulls env s))); [destruct (nulls env s); reflexivity|]. rewrite in_flat_map. split.
    + intros ([o1 w1] & Hn & H). apply in_map_iff in H as ([o2 w2] & E & H). cbn in E. injection E as <- <-. exists [], o1, w1, [], o2, w2. repeat split; [apply (nulls_rel s Ks); exact Hn|apply IH; exact H].
    + intros (x1 & o1 & w1 & x2 & o2 & w2 & R & S & E & -> & ->). symmetry in E. apply app_eq_nil in E as [-> ->]. exists (o1, w1). split; [apply (nulls_rel s Ks); exact R|].
      apply in_map_iff. exists (o2, w2). split; [reflexivity|apply IH; exact S].
Qed.
Lemma sruns_rel x : forall q, state_ok q = true -> forall o w, In (o, w) (runs sstate (sdelta env body) (sfinal env) q x) <-> state_rel q x o w.
Proof.
  induction x as [|c x IH]; intros q K o w.
  - cbn [runs]. unfold sfinal, state_rel. destruct q as [[[i o0]|] k]; cbn [fst snd].
    + split; [intros []|]. intros (NE & x2 & o2 & _ & E & _). symmetry in E. apply app_eq_nil in E as [E _]. congruence.
    + apply stack_nulls_iff. exact K.
  - rewrite runs_step, (moves_iff q K). split.
    + intros (o1 & w1 & q' & o2 & w2 & H & R & E). unfold sdelta in H. apply in_flat_map in H as ([[[o3 w3] c3] q3] & H & Q). destruct (N.eqb c c3) eqn:C; [|destruct Q].
      destruct Q as [Q|[]]. injection Q as -> -> ->. apply N.eqb_eq in C. subst c3. exists o1, w1, q', o2, w2. split; [exact H|]. split; [|exact E]. apply IH; [exact (moves_ok _ _ _ _ _ K H)|exact R].
    + intros (o1 & w1 & q' & o2 & w2 & H & R & E). exists o1, w1, q', o2, w2. split.
      * unfold sdelta. apply in_flat_map. exists (o1, w1, c, q'). split; [exact H|]. rewrite N.eqb_refl. left. reflexivity.
      * split; [|exact E]. apply IH; [exact (moves_ok _ _ _ _ _ K H)|exact R].
Qed.
(** ** The numbered automaton *)
Section Numbered.
Variable alphabet : list N.
Variable fuel : nat.
Variable A : nfa.
Hypothesis fueled : 0 < fuel.
Hypothesis made : make_nfa env body alphabet fuel = Some A.
Notation states := (sstates env body fuel).
Lemma nfa_row p q : pidx 1 (map fst states) p = Some q -> exists r, tfind p A = Some (group r, sfinal env q) /\
  row _ _ sstate_eqb sstate_hash (make_index _ sstate_hash 1 (map fst states)) (moves env body q) = Some r.
Proof.
  intros H. rewrite pidx_map in H. destruct (pidx 1 states p) as [[q0 e]|] eqn:E; [|discriminate]. cbn in H. injection H as ->.
  pose proof made as Hm. unfold make_nfa in Hm. cbv zeta in Hm. destruct (covered alphabet states); [|discriminate]. destruct (nfa_rows env states) as [rows|] eqn:Hr; [|discriminate]. injection Hm as <-.
  unfold nfa_rows in Hr. apply all_some_forall2 in Hr. pose proof (forall2_pidx _ _ _ Hr 1%positive p) as F. rewrite E in F. rewrite tfind_tlist. destruct (pidx 1 rows p) as [y|]; [|destruct F]. cbn [fst snd] in F.
  apply pidx_in in E as [E _]. pose proof (reached_expand _ _ sstate_eqb sstate_hash (moves env body) fuel (None, [])) as X. rewrite Forall_forall in X. specialize (X _ E). cbn in X. subst e.
  destruct (row _ _ _ _ _ _) as [r|]; [|discriminate]. injection F as <-. exists r. split; reflexivity.
Qed.
Lemma nruns_sruns x : forall p q, pidx 1 (map fst states) p = Some q -> forall o w, In (o, w) (nruns A p x) <-> In (o, w) (runs sstate (sdelta env body) (sfinal env) q x).
Proof.
  induction x as [|c x IH]; intros p q H o w; destruct (nfa_row p q H) as (r & T & Hr).
  - unfold nruns. cbn [runs]. unfold nfinal. rewrite T. reflexivity.
  - unfold nruns. rewrite !runs_step. apply (row_in _ _ _ _ sstate_eqb_eq) in Hr as [R1 R2]. unfold ndelta. rewrite T. split.
    + intros (o1 & w1 & p' & o2 & w2 & G & R & E). apply group_in in G. destruct (R2 _ _ G) as (q' & M & P). exists o1, w1, q', o2, w2. split; [|split; [apply (IH _ _ P); exact R|exact E]].
      unfold sdelta. apply in_flat_map. exists (o1, w1, c, q'). split; [exact M|]. rewrite N.eqb_refl. left. reflexivity.
    + intros (o1 & w1 & q' & o2 & w2 & G & R & E). unfold sdelta in G. apply in_flat_map in G as ([[[o3 w3] c3] q3] & G & Q). destruct (N.eqb c c3) eqn:C; [|destruct Q].
      destruct Q as [Q|[]]. injection Q as -> -> ->. apply N.eqb_eq in C. subst c3. destruct (R1 _ _ G) as (p' & M & P). exists o1, w1, p', o2, w2. split; [apply group_in; exact M|].
      split; [apply (IH _ _ P); exact R|exact E].
Qed.
Lemma nfa_rel x o w : In (o, w) (nruns A 1 x) <-> rel (WStar (den body)) x o w.
Proof.
  rewrite (nruns_sruns x 1%positive (None, [])).
  - apply (sruns_rel x (None, [])). reflexivity.
  - unfold sstates. destruct (reached_first _ _ sstate_eqb sstate_hash (moves env body) fuel (None, []) fueled) as (l & E). rewrite E. reflexivity.
Qed.
Lemma nfa_covered q c p : In p (ndelta A q c) -> In c alphabet.
Proof.
  unfold ndelta. pose proof made as Hm. unfold make_nfa in Hm. cbv zeta in Hm. destruct (covered alphabet states) eqn:C; [|discriminate]. destruct (nfa_rows env states) as [rows|] eqn:Hr; [|discriminate]. injection Hm as <-.
  rewrite tfind_tlist. unfold nfa_rows in Hr. apply all_some_forall2 in Hr. pose proof (forall2_pidx _ _ _ Hr 1%positive q) as F. destruct (pidx 1 rows q) as [[t f]|] eqn:E; [|intros []].
  destruct (pidx 1 states q) as [[s e]|] eqn:E'; [|destruct F]. cbn [fst snd] in F. destruct (row _ _ _ _ _ _) as [r|] eqn:R; [|discriminate]. injection F as <- <-.
  destruct p as [[o w] j]. intros G. apply group_in in G. apply (row_in _ _ _ _ sstate_eqb_eq) in R as [_ R2]. destruct (R2 _ _ G) as (s' & M & _).
  unfold covered in C. cbv zeta in C. rewrite all_in_iff in C. apply pidx_in in E' as [E' _]. specialize (C _ E'). cbn [snd] in C. rewrite all_in_iff in C. specialize (C _ M). cbn in C.
  destruct (tfind (key c) _) as [u|] eqn:T in C; [|discriminate]. clear - T. induction alphabet as [|d al IH]; cbn [fold_right] in T.
  - rewrite tfind_empty in T. discriminate.
  - rewrite tfind_tadd in T. destruct (Pos.eqb (key c) (key d)) eqn:Q; [apply Pos.eqb_eq, key_inj in Q; left; congruence|right; exact (IH T)].
Qed.
End Numbered.
End Sym.

(** ** Everything together *)
Lemma best_of_best r l x : (forall o w, In (o, w) l <-> rel r x o w) -> forall o, best_of l o <-> exists w, best r x o w.
Proof.
  intros H o. unfold best_of, best. split.
  - intros (w & K & M). exists w. split; [apply H; exact K|]. intros o' w' R. apply H in R. exact (M _ R).
  - intros (w & K & M). exists w. split; [apply H; exact K|]. intros [o' w'] R. apply (M o'). apply H. exact R.
Qed.
Lemma decide_sound env body l fuel M : 0 < fuel -> decide env body l fuel = Some M ->
  (forall x o, srun M 1 x = Some o <-> exists w, best (WStar (denote env body)) x o w) /\
  (forall i t f c y, tfind i M = Some (t, f) -> tfind (key c) t = Some y -> In c (alphabet_of env)).
Proof.
  intros Hf H. unfold decide in H. destruct (swt_star_ok env body) eqn:K; [|discriminate]. destruct (nulls env body) as [|? ?] eqn:Kn; [|discriminate]. cbv zeta in H.
  destruct (make_nfa env body (alphabet_of env) fuel) as [A|] eqn:HA; [|discriminate]. destruct (check_dists A (alphabet_of env) l) eqn:C; [|discriminate].
  unfold make_machine in H. destruct (config_rows A _) as [rows|] eqn:R; [|discriminate]. injection H as <-.
  assert (Ck : forall q p a b, In (q, p, a, b) l -> check_dist A (make_dists l) (alphabet_of env) p (q, a, b) = true).
  { unfold check_dists in C. cbv zeta in C. rewrite all_in_iff in C. intros q p a b I'. exact (C _ I'). }
  assert (Cv := nfa_covered env body (alphabet_of env) fuel A HA).
  set (ks := reached_from _ _ config_eqb config_hash (expand_config A (make_dists l) (alphabet_of env)) fuel (start_config 1)) in *.
  assert (Ex : Forall (fun p => snd p = expand_config A (make_dists l) (alphabet_of env) (fst p)) ks) by apply reached_expand. split.
  - intros x o. rewrite (srun_best A (alphabet_of env) l Cv Ck ks rows Ex R x 1%positive (start_config 1)).
    + apply best_of_best. intros o' w'. rewrite <- (nfa_rel env body K Kn (alphabet_of env) fuel A Hf HA). rewrite results_in. split.
      * intros (q & o1 & w1 & o2 & w2 & [I'|[]] & Q & -> & ->). injection I' as <- <- <-. exact Q.
      * intros Q. exists 1%positive, [], 0%N, o', w'. repeat split; [left; reflexivity|exact Q].
    + unfold ks. destruct (reached_first _ _ config_eqb config_hash (expand_config A (make_dists l) (alphabet_of env)) fuel (start_config 1) Hf) as (l' & E). rewrite E. reflexivity.
  - exact (machine_alphabet A (alphabet_of env) l ks rows Ex R).
Qed.
