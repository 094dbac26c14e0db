From Verif Require Import Base Utf8Model Utf8Proofs KbestModel KbestProofs ErrorRateModel ErrorRateSpec EditProofs.

(** ** Symbols *)
Lemma find_sym_some t syms i : find_sym t syms = Some i -> nth_error syms i = Some t.
Proof.
  revert i. induction syms as [|s syms IH]; intros i H; [discriminate|]. cbn [find_sym] in H.
  destruct (str_eqb t s) eqn:E.
  - apply str_eqb_eq in E. injection H as <-. simpl. congruence.
  - destruct (find_sym t syms) as [j|]; [|discriminate]. injection H as <-. simpl. auto.
Qed.
Lemma find_sym_none t syms : find_sym t syms = None -> ~ In t syms.
Proof.
  induction syms as [|s syms IH]; intros H I; [destruct I|]. cbn [find_sym] in H.
  destruct (str_eqb t s) eqn:E; [discriminate|]. apply str_eqb_neq in E.
  destruct (find_sym t syms); [discriminate|]. destruct I as [->|I]; auto. apply IH; auto.
Qed.

Definition named (syms : list str) (t : str) (l : nat) : Prop := nth_error syms l = Some t.
Lemma named_app syms more t l : named syms t l -> named (syms ++ more) t l.
Proof. intros H. unfold named in *. rewrite nth_error_app1; auto. apply nth_error_Some. congruence. Qed.

Lemma string_fst toks : forall syms ls syms', NoDup syms -> GetStringFst toks syms = (ls, syms') ->
  NoDup syms' /\ (exists more, syms' = syms ++ more) /\ Forall2 (named syms') toks ls.
Proof.
  induction toks as [|t toks IH]; intros syms ls syms' ND E; cbn [GetStringFst] in E.
  - injection E as <- <-. repeat split; auto. exists []. rewrite app_nil_r. auto.
  - destruct (match find_sym t syms with Some i => (i, syms) | None => (length syms, syms ++ [t]) end) as [sym syms1] eqn:F.
    destruct (GetStringFst toks syms1) as [ls0 syms2] eqn:G. injection E as <- <-.
    assert (NoDup syms1 /\ (exists more, syms1 = syms ++ more) /\ named syms1 t sym) as (ND1 & (m1 & E1) & N1).
    { destruct (find_sym t syms) as [i|] eqn:Fs; injection F as <- <-.
      - repeat split; auto. { exists []. rewrite app_nil_r; auto. } apply find_sym_some; auto.
      - repeat split; [|eauto|].
        + apply find_sym_none in Fs. apply (Permutation_NoDup (l := t :: syms)); [|constructor; auto].
          apply Permutation_cons_append.
        + unfold named. rewrite nth_error_app2, Nat.sub_diag; auto. }
    destruct (IH syms1 ls0 syms2 ND1 G) as (ND2 & (m2 & E2) & F2). repeat split; auto.
    + exists (m1 ++ m2). rewrite E2, E1, app_assoc. auto.
    + constructor; auto. rewrite E2. apply named_app; auto.
Qed.

Lemma named_unique syms a b x y : NoDup syms -> named syms a x -> named syms b y -> (a = b <-> x = y).
Proof.
  intros ND Hx Hy. unfold named in *. split.
  - intros ->. apply (proj1 (NoDup_nth_error syms) ND); [apply nth_error_Some|]; congruence.
  - intros ->. congruence.
Qed.

(** ** The alignment model *)
Lemma mod_arcs n i o w : In (i, o, w) (align_mod n) <->
  (0 < i < n /\ o = 0 /\ w = 1) \/ (i = 0 /\ 0 < o < n /\ w = 1) \/
  (0 < i < n /\ 0 < o < n /\ w = if Nat.eqb i o then 0 else 1).
Proof.
  unfold align_mod. rewrite in_flat_map. split.
  - intros (sym & Is & H). apply in_seq in Is. cbn [app] in H. destruct H as [H|[H|H]].
    + injection H as <- <- <-. left. lia.
    + injection H as <- <- <-. right. left. lia.
    + apply in_map_iff in H. destruct H as (sub & H & Ib). apply in_seq in Ib. injection H as <- <- <-.
      right. right. repeat split; lia.
  - intros [(Hi & -> & ->)|[(-> & Ho & ->)|(Hi & Ho & ->)]].
    + exists i. split; [apply in_seq; lia|]. left. auto.
    + exists o. split; [apply in_seq; lia|]. right. left. auto.
    + exists i. split; [apply in_seq; lia|]. right. right. apply in_map_iff. exists o. split; auto. apply in_seq; lia.
Qed.

Definition positive (n : nat) (l : list nat) : Prop := Forall (fun x => 0 < x < n) l.

Definition added (e : edit_distance) (s i d : nat) : edit_distance :=
  EditDistance (reference_length e) (substitutions e + s) (insertions e + i) (deletions e + d).

(** A path is a script from the output to the input string. *)
Lemma path_script n xs ys p c : composed (align_mod n) xs ys p c -> positive n xs -> positive n ys ->
  exists s i d, script ys xs s i d /\ c = s + i + d /\ forall e, count_edits p e = added e s i d.
Proof.
  induction 1 as [|xs ys p c H IH|xs ys p c H IH|x w xs ys p c Nx I H IH|y w xs ys p c Ny I H IH|x y w xs ys p c Nx Ny I H IH];
    intros Px Py.
  - exists 0, 0, 0. repeat split; [apply script_nil|]. intros [l s i d]. unfold added. cbn. f_equal; lia.
  - inversion Px; lia.
  - inversion Py; lia.
  - inversion Px as [|? ? Hx Px']; subst. destruct (IH Px' Py) as (s & i & d & Sc & -> & E).
    apply mod_arcs in I. destruct I as [(_ & _ & ->)|[(-> & _)|(_ & F & _)]]; [|lia|lia].
    exists s, (S i), d. split; [apply script_ins; auto|]. split; [lia|]. intros e. cbn [count_edits].
    destruct (Nat.eqb_spec x 0) as [|_]; [lia|]. cbn [negb]. rewrite E. unfold added. cbn. f_equal; lia.
  - inversion Py as [|? ? Hy Py']; subst. destruct (IH Px Py') as (s & i & d & Sc & -> & E).
    apply mod_arcs in I. destruct I as [(F & _)|[(_ & _ & ->)|(F & _)]]; [lia| |lia].
    exists s, i, (S d). split; [apply script_del; auto|]. split; [lia|]. intros e. cbn [count_edits].
    destruct (Nat.eqb_spec 0 y) as [|_]; [lia|]. cbn [negb Nat.eqb]. rewrite E. unfold added. cbn. f_equal; lia.
  - inversion Px as [|? ? Hx Px']; inversion Py as [|? ? Hy Py']; subst. destruct (IH Px' Py') as (s & i & d & Sc & -> & E).
    apply mod_arcs in I. destruct I as [(_ & F & _)|[(F & _)|(_ & _ & ->)]]; [lia|lia|].
    destruct (Nat.eqb_spec x y) as [->|N].
    + exists s, i, d. split; [apply script_keep; auto|]. split; [lia|]. intros e. cbn [count_edits].
      rewrite Nat.eqb_refl. cbn [negb]. apply E.
    + exists (S s), i, d. split; [apply script_sub; auto|]. split; [lia|]. intros e. cbn [count_edits].
      destruct (Nat.eqb_spec x y) as [|_]; [contradiction|]. destruct (Nat.eqb_spec x 0) as [|_]; [lia|].
      destruct (Nat.eqb_spec y 0) as [|_]; [lia|]. cbn [negb]. rewrite E. unfold added. cbn. f_equal; lia.
Qed.
Lemma script_path n ys xs s i d : script ys xs s i d -> positive n xs -> positive n ys ->
  exists p, composed (align_mod n) xs ys p (s + i + d).
Proof.
  induction 1 as [|a r t s i d H IH|a b r t s i d N H IH|b r t s i d H IH|a r t s i d H IH]; intros Px Py.
  - exists []. constructor.
  - inversion Px as [|? ? Hx Px']; inversion Py as [|? ? Hy Py']; subst. destruct (IH Px' Py') as (p & C).
    exists ((a, a) :: p). apply (composed_both _ a a 0); auto; try lia. apply mod_arcs. right. right.
    rewrite Nat.eqb_refl. repeat split; lia.
  - inversion Px as [|? ? Hx Px']; inversion Py as [|? ? Hy Py']; subst. destruct (IH Px' Py') as (p & C).
    exists ((b, a) :: p). apply (composed_both _ b a 1); auto; try lia. apply mod_arcs. right. right.
    destruct (Nat.eqb_spec b a); [congruence|]. repeat split; lia.
  - inversion Px as [|? ? Hx Px']; subst. destruct (IH Px' Py) as (p & C).
    exists ((b, 0) :: p). replace (s + S i + d) with (1 + (s + i + d)) by lia.
    apply (composed_in _ b 1); auto; try lia. apply mod_arcs. left. lia.
  - inversion Py as [|? ? Hy Py']; subst. destruct (IH Px Py') as (p & C).
    exists ((0, a) :: p). replace (s + i + S d) with (1 + (s + i + d)) by lia.
    apply (composed_out _ a 1); auto; try lia. apply mod_arcs. right. left. lia.
Qed.

Section Distances.
  Variable search : list mod_arc -> list nat -> list nat -> list (nat * nat).
  Hypothesis best : forall n, finds_best (align_mod n) (search (align_mod n)).

  Lemma pair_distance ref test : ~ In epsilon_token ref -> ~ In epsilon_token test ->
    let e := CalculatePairEditDistance search ref test in
    script ref test (substitutions e) (insertions e) (deletions e) /\ distance ref test (Edits e) /\
    reference_length e = length ref.
  Proof.
    intros Nr Nt. unfold CalculatePairEditDistance.
    destruct (GetStringFst ref [epsilon_token]) as [rl syms1] eqn:Er.
    destruct (GetStringFst test syms1) as [tl syms2] eqn:Et. cbv zeta.
    assert (NoDup [epsilon_token]) as ND0 by (constructor; [intros []|constructor]).
    destruct (string_fst ref _ _ _ ND0 Er) as (ND1 & (m1 & E1) & F1).
    destruct (string_fst test _ _ _ ND1 Et) as (ND2 & (m2 & E2) & F2).
    assert (Forall2 (named syms2) ref rl) as F1'.
    { rewrite E2. clear - F1. induction F1; constructor; auto. apply named_app; auto. }
    assert (forall toks ls, ~ In epsilon_token toks -> Forall2 (named syms2) toks ls -> positive (length syms2) ls) as Pos.
    { intros toks ls N F. induction F as [|t l toks ls H F IH]; [constructor|]. constructor.
      - split; [|apply nth_error_Some; unfold named in H; congruence]. destruct l; [|lia].
        exfalso. apply N. left. unfold named in H. rewrite E2, E1 in H. simpl in H. congruence.
      - apply IH. intros I. apply N. right; auto. }
    pose proof (Pos ref rl Nr F1') as Pr. pose proof (Pos test tl Nt F2) as Pt.
    destruct (script_all rl tl) as (s0 & i0 & d0 & S0).
    destruct (script_path _ _ _ _ _ _ S0 Pt Pr) as (p0 & C0).
    destruct (best (length syms2) tl rl) as (c & C & Min); [eauto|].
    destruct (path_script _ _ _ _ _ C Pt Pr) as (s & i & d & Sc & -> & Cnt). rewrite Cnt. unfold added, Edits. cbn.
    assert (forall a b x y, named syms2 a x -> named syms2 b y -> (a = b <-> x = y)) as U
      by (intros; eapply named_unique; eauto).
    assert (Forall2 (fun l t => named syms2 t l) rl ref) as G1 by (clear - F1'; induction F1'; constructor; auto).
    assert (Forall2 (fun l t => named syms2 t l) tl test) as G2 by (clear - F2; induction F2; constructor; auto).
    assert (script ref test s i d) as Sc'.
    { eapply (script_rel (fun l t => named syms2 t l)); [exact Sc|exact G1|exact G2|].
      intros a b x y _ _ Ha Hb. destruct (U x y a b Ha Hb). split; auto. }
    split; [exact Sc'|]. split.
    - split; [exists s, i, d; auto|]. intros s' i' d' H'.
      assert (script rl tl s' i' d') as H2.
      { eapply (script_rel (named syms2)); [exact H'|exact F1'|exact F2|]. intros a b x y _ _. apply U. }
      destruct (script_path _ _ _ _ _ _ H2 Pt Pr) as (p & Cp). apply (Min _ _ Cp).
    - symmetry. eapply Forall2_len. exact F1'.
  Qed.

  Lemma edits_distance ref test : ~ In epsilon_token ref -> ~ In epsilon_token test ->
    distance ref test (CalculatePairEditDistanceValue search ref test).
  Proof. intros H1 H2. apply (pair_distance ref test H1 H2). Qed.

  Lemma lengths_consistent ref test : ~ In epsilon_token ref -> ~ In epsilon_token test ->
    let e := CalculatePairEditDistance search ref test in
    reference_length e = length ref /\ reference_length e + insertions e = length test + deletions e.
  Proof.
    intros H1 H2 e. destruct (pair_distance ref test H1 H2) as (S & _ & L). fold e in S, L. split; auto.
    rewrite L. eapply script_lengths; eauto.
  Qed.
  Lemma edits_metric a b c : ~ In epsilon_token a -> ~ In epsilon_token b -> ~ In epsilon_token c ->
    let D := CalculatePairEditDistanceValue search in
    (D a b = 0 <-> a = b) /\ D a b = D b a /\ D a c <= D a b + D b c.
  Proof.
    intros Ha Hb Hc D. pose proof (edits_distance a b Ha Hb) as Dab. pose proof (edits_distance b a Hb Ha) as Dba.
    pose proof (edits_distance a c Ha Hc) as Dac. pose proof (edits_distance b c Hb Hc) as Dbc. fold D in Dab, Dba, Dac, Dbc.
    split; [|split].
    - rewrite <- (distance_zero a b). split; intros H; [rewrite H in Dab; auto|]. eapply distance_unique; eauto.
    - eapply distance_unique; [exact Dab|]. apply distance_sym; auto.
    - eapply distance_triangle; eauto.
  Qed.

  Lemma epsilon_vanishes : CalculatePairEditDistanceValue search [epsilon_token] [] = 0 /\
    reference_length (CalculatePairEditDistance search [epsilon_token] []) = 1.
  Proof.
    unfold CalculatePairEditDistanceValue, CalculatePairEditDistance.
    replace (GetStringFst [epsilon_token] [epsilon_token]) with ([0], [epsilon_token]) by reflexivity.
    cbn [GetStringFst length]. 
    assert (composed (align_mod 1) [] [0] [(0, 0)] 0) as C by (apply composed_eps_out; constructor).
    destruct (best 1 [] [0]) as (c & C' & M); [eauto|]. specialize (M _ _ C).
    remember (search (align_mod 1) [] [0]) as p. clear Heqp.
    inversion C' as [|xs ys q d H E|xs ys q d H E| |y w xs ys q d Ny I H|]; subst.
    - inversion H; subst. split; reflexivity.
    - contradiction.
  Qed.
End Distances.

(** ** A search that finds the best alignment *)
Definition step_cost (x : nat * nat) : nat := if Nat.eqb (fst x) (snd x) then 0 else 1.
Definition path_cost (p : list (nat * nat)) : nat := fold_right (fun x c => step_cost x + c) 0 p.
Definition cheaper (p q : list (nat * nat)) := if path_cost p <=? path_cost q then p else q.
Fixpoint lev (xs : list nat) : list nat -> list (nat * nat) :=
  fix aux (ys : list nat) : list (nat * nat) :=
    match xs with
    | [] => map (pair 0) ys
    | x :: xs' =>
      if Nat.eqb x 0 then (0, 0) :: lev xs' ys
      else match ys with
           | [] => (x, 0) :: lev xs' []
           | y :: ys' =>
             if Nat.eqb y 0 then (0, 0) :: aux ys'
             else cheaper ((x, y) :: lev xs' ys') (cheaper ((x, 0) :: lev xs' ys) ((0, y) :: aux ys'))
           end
    end.

Lemma lev_nil ys : lev [] ys = map (pair 0) ys.
Proof. destruct ys; reflexivity. Qed.
Lemma lev_zero xs ys : lev (0 :: xs) ys = (0, 0) :: lev xs ys.
Proof. destruct ys; reflexivity. Qed.
Lemma lev_cons_nil x xs : x <> 0 -> lev (x :: xs) [] = (x, 0) :: lev xs [].
Proof. intros H. cbn [lev]. destruct (Nat.eqb_spec x 0); [contradiction|reflexivity]. Qed.
Lemma lev_cons_zero x xs ys : x <> 0 -> lev (x :: xs) (0 :: ys) = (0, 0) :: lev (x :: xs) ys.
Proof. intros H. cbn [lev]. destruct (Nat.eqb_spec x 0); [contradiction|reflexivity]. Qed.
Lemma lev_cons x xs y ys : x <> 0 -> y <> 0 -> lev (x :: xs) (y :: ys) =
  cheaper ((x, y) :: lev xs ys) (cheaper ((x, 0) :: lev xs (y :: ys)) ((0, y) :: lev (x :: xs) ys)).
Proof.
  intros H1 H2. cbn [lev]. destruct (Nat.eqb_spec x 0); [contradiction|]. destruct (Nat.eqb_spec y 0); [contradiction|]. reflexivity.
Qed.
Lemma cheaper_cost p q : path_cost (cheaper p q) = Nat.min (path_cost p) (path_cost q).
Proof. unfold cheaper. destruct (path_cost p <=? path_cost q) eqn:E; [apply Nat.leb_le in E|apply Nat.leb_gt in E]; lia. Qed.
Lemma cost_cons x p : path_cost (x :: p) = step_cost x + path_cost p.
Proof. reflexivity. Qed.
Lemma step_in x : x <> 0 -> step_cost (x, 0) = 1.
Proof. intros H. unfold step_cost. simpl. destruct (Nat.eqb_spec x 0); [contradiction|auto]. Qed.
Lemma step_out x : x <> 0 -> step_cost (0, x) = 1.
Proof. intros H. unfold step_cost. cbn [fst snd]. destruct (Nat.eqb_spec 0 x); [lia|auto]. Qed.

Lemma lev_zero_r xs : forall ys, path_cost (lev xs (0 :: ys)) = path_cost (lev xs ys).
Proof.
  induction xs as [|x xs IH]; intros ys; [rewrite !lev_nil; reflexivity|].
  destruct (Nat.eq_dec x 0) as [->|N]; [rewrite !lev_zero, !cost_cons, IH; reflexivity|].
  rewrite lev_cons_zero by auto. reflexivity.
Qed.
Lemma lev_in x xs ys : x <> 0 -> path_cost (lev (x :: xs) ys) <= 1 + path_cost (lev xs ys).
Proof.
  intros N. induction ys as [|y ys IH].
  - rewrite lev_cons_nil by auto. rewrite cost_cons, step_in by auto. lia.
  - destruct (Nat.eq_dec y 0) as [->|Ny].
    + rewrite lev_cons_zero by auto. rewrite cost_cons, lev_zero_r. change (step_cost (0, 0)) with 0. lia.
    + rewrite lev_cons by auto. rewrite !cheaper_cost, !cost_cons, step_in by auto. lia.
Qed.
Lemma lev_out y xs ys : y <> 0 -> path_cost (lev xs (y :: ys)) <= 1 + path_cost (lev xs ys).
Proof.
  intros N. induction xs as [|x xs IH].
  - rewrite !lev_nil. cbn [map]. rewrite cost_cons, step_out by auto. lia.
  - destruct (Nat.eq_dec x 0) as [->|Nx].
    + rewrite !lev_zero, !cost_cons. lia.
    + rewrite lev_cons by auto. rewrite !cheaper_cost, !cost_cons, step_out by auto. lia.
Qed.
Lemma lev_least n xs ys p c : composed (align_mod n) xs ys p c -> path_cost (lev xs ys) <= c.
Proof.
  induction 1 as [|xs ys p c H IH|xs ys p c H IH|x w xs ys p c Nx I H IH|y w xs ys p c Ny I H IH|x y w xs ys p c Nx Ny I H IH].
  - simpl. lia.
  - rewrite lev_zero, cost_cons. change (step_cost (0, 0)) with 0. lia.
  - rewrite lev_zero_r. auto.
  - apply mod_arcs in I. assert (w = 1) as -> by lia. pose proof (lev_in x xs ys Nx). lia.
  - apply mod_arcs in I. assert (w = 1) as -> by lia. pose proof (lev_out y xs ys Ny). lia.
  - apply mod_arcs in I. assert (w = step_cost (x, y)) as ->.
    { unfold step_cost. cbn [fst snd]. destruct I as [I|[I|(_ & _ & I)]]; [lia|lia|exact I]. }
    rewrite lev_cons by auto. rewrite !cheaper_cost, !cost_cons. lia.
Qed.
Lemma lev_path n xs : Forall (fun x => x < n) xs -> forall ys, Forall (fun y => y < n) ys ->
  composed (align_mod n) xs ys (lev xs ys) (path_cost (lev xs ys)).
Proof.
  induction 1 as [|x xs Hx Fx IH].
  - induction 1 as [|y ys Hy Fy IHy]; [constructor|]. rewrite lev_nil in *. cbn [map]. rewrite cost_cons.
    destruct (Nat.eq_dec y 0) as [->|N]; [apply composed_eps_out; auto|].
    rewrite step_out by auto. apply composed_out; auto. apply mod_arcs. right. left. lia.
  - induction 1 as [|y ys Hy Fy IHy].
    + destruct (Nat.eq_dec x 0) as [->|N]; [rewrite lev_zero, cost_cons; apply composed_eps_in; apply IH; constructor|].
      rewrite lev_cons_nil, cost_cons, step_in by auto. apply composed_in; auto. apply mod_arcs. left. lia.
    + destruct (Nat.eq_dec x 0) as [->|N].
      { rewrite lev_zero, cost_cons. apply composed_eps_in. apply IH. constructor; auto. }
      destruct (Nat.eq_dec y 0) as [->|Ny]; [rewrite lev_cons_zero, cost_cons by auto; apply composed_eps_out; auto|].
      rewrite lev_cons by auto. unfold cheaper.
      repeat match goal with |- context [if ?b then _ else _] => destruct b end.
      all: rewrite cost_cons.
      all: first
        [ apply composed_both; auto; apply mod_arcs; right; right; repeat split; lia
        | rewrite step_in by auto; apply composed_in; auto; apply mod_arcs; left; lia
        | rewrite step_out by auto; apply composed_out; auto; apply mod_arcs; right; left; lia ].
Qed.

Lemma composed_labels n xs ys p c : composed (align_mod n) xs ys p c -> 0 < n ->
  Forall (fun x => x < n) xs /\ Forall (fun y => y < n) ys.
Proof.
  induction 1 as [|xs ys p c H IH|xs ys p c H IH|x w xs ys p c Nx I H IH|y w xs ys p c Ny I H IH|x y w xs ys p c Nx Ny I H IH];
    intros Hn; try (destruct (IH Hn) as [F1 F2]); split; auto; constructor; auto; try lia;
    apply mod_arcs in I; lia.
Qed.
Lemma lev_best n : finds_best (align_mod n) lev.
Proof.
  intros xs ys (p & c & C). exists (path_cost (lev xs ys)). split; [|intros; eapply lev_least; eauto].
  destruct n as [|n].
  - change (align_mod 0) with (align_mod 1) in *.
    destruct (composed_labels _ _ _ _ _ C ltac:(lia)). apply lev_path; auto.
  - destruct (composed_labels _ _ _ _ _ C ltac:(lia)). apply lev_path; auto.
Qed.
