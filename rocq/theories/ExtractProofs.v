From Verif Require Import Base Utf8Model Utf8Spec Utf8Proofs DelimModel DelimSpec KbestModel KbestSpec
  KbestProofs RejoinProofs SearchProofs.

Lemma positioned_snoc {A} i (l : list A) x : positioned i (l ++ [x]) = positioned i l ++ [((i, Z.of_nat (length l)), x)].
Proof.
  unfold positioned. rewrite app_length. cbn [length]. rewrite Nat.add_1_r, seq_S, map_app.
  assert (forall (a : list (Z * Z)) b (c : list A) d, length a = length c ->
    combine (a ++ [b]) (c ++ [d]) = combine a c ++ [(b, d)]) as G.
  { induction a as [|x0 a IH]; intros b [|y c] d L; simpl in *; try discriminate; auto. f_equal. auto. }
  cbn [map]. rewrite G by (rewrite map_length, seq_length; auto). reflexivity.
Qed.
Lemma placed_snoc {A} index (ll : list (list A)) i l : length index = length ll ->
  placed (index ++ [i]) (ll ++ [l]) = placed index ll ++ positioned i l.
Proof.
  unfold placed. revert ll. induction index as [|j index IH]; intros [|m ll] L; simpl in *; try discriminate.
  - rewrite app_nil_r. reflexivity.
  - rewrite IH by lia. rewrite app_assoc. reflexivity.
Qed.

Section Extract.
  Variable stod : str -> option Z.
  Variable stoi : str -> option Z.
  Notation line_entry_of := (line_entry_of stod stoi).

  Definition einv (es : list ((Z * Z) * (str * hyp))) (segs : list ((Z * Z) * list (str * hyp))) (s : extract_state) : Prop :=
    exists segs' vs A c W w, segs = segs' ++ [((last_idx s, last_pos s), vs)] /\ runs es segs /\
      str_arcs s = A ++ [c] /\ words s = W ++ [w] /\ length A = length W /\ last_pos s = Z.of_nat (length A) /\
      (0 <= last_idx s)%Z /\ map snd vs = c /\ (exists v r, vs = v :: r /\ w = fst v) /\
      length (input_index s) = length (input_arcs s) /\ length (input_index s) = length (input_words s) /\
      placed (input_index s) (input_arcs s) ++ positioned (last_idx s) A = map cands_of segs' /\
      Forall2 word_of (placed (input_index s) (input_words s) ++ positioned (last_idx s) W) segs' /\
      neighbours_differ (input_index s ++ [last_idx s]) /\
      Forall (fun l => l <> []) (input_arcs s).

  Lemma extract_first line e : line_entry_of line e -> (0 <= fst (fst e))%Z ->
    (snd (fst e) = 0%Z -> exists s, extract_line stod stoi (ExtractState [] [] [] [] [] (-1) (-1)) line = Fine s /\
        einv [e] [(fst e, [snd e])] s /\ (last_idx s, last_pos s) = fst e) /\
    (snd (fst e) <> 0%Z -> extract_line stod stoi (ExtractState [] [] [] [] [] (-1) (-1)) line = Check).
  Proof.
    destruct e as [[i p] [w [o x]]]. intros (fi & fp & sc & HF & Hi & Hp & Hs) H0. cbn [fst snd] in *.
    apply fields_spec in HF. unfold extract_line. rewrite HF, Hi, Hp. cbn [last_idx last_pos].
    change (0 <=? -1)%Z with false. rewrite andb_false_r.
    destruct (Z.eqb_spec i (-1)) as [|_]; [lia|]. cbn [negb orb input_arcs input_words input_index str_arcs words app length].
    split.
    - intros ->. change (Z.of_nat 1 =? 0 + 1)%Z with true. cbn [qcheck]. rewrite Hs. cbn [push_back_last bind app].
      eexists. split; [reflexivity|]. split; [|reflexivity].
      exists [], [(w, (o, x))], [], [(o, x)], [], w.
      cbn [last_idx last_pos str_arcs words input_index input_arcs input_words app length map].
      repeat split; auto; try discriminate.
      + constructor; auto; discriminate.
      + apply neighbours_one.
      + exists (w, (o, x)), []. auto.
      + constructor.
      + apply neighbours_one.
    - intros N. destruct (Z.eqb_spec (Z.of_nat 1) (p + 1)); [lia|reflexivity].
  Qed.

  Lemma extract_next es segs s line e : einv es segs s -> line_entry_of line e -> (0 <= fst (fst e))%Z ->
    (follows (last_idx s, last_pos s) (fst e) -> exists s2 segs2, extract_line stod stoi s line = Fine s2 /\
        einv (es ++ [e]) segs2 s2 /\ (last_idx s2, last_pos s2) = fst e) /\
    (~ follows (last_idx s, last_pos s) (fst e) -> extract_line stod stoi s line = Check).
  Proof.
    intros (segs' & vs & A & c & W & w0 & -> & R & EA & EW & LW & Lp & L0 & Ec & (v0 & vr & Ev & Ew) & La & Lw & P & PW & Nd & Ne).
    destruct e as [[i p] [w [o x]]]. intros (fi & fp & sc & HF & Hi & Hp & Hs) H0. cbn [fst snd] in *.
    apply fields_spec in HF. unfold extract_line. rewrite HF, Hi, Hp.
    destruct (Z.eqb_spec i (last_idx s)) as [->|Ni]; cbn [negb andb orb].
    - destruct (Z.eqb_spec p (last_pos s)) as [->|Np]; cbn [negb].
      + (* same position *)
        split; [intros _|intros N; exfalso; apply N; left; auto].
        rewrite EA, app_length, Lp. cbn [length]. replace (Z.eqb _ _) with true by (symmetry; apply Z.eqb_eq; lia).
        cbn [qcheck]. rewrite Hs, push_last. cbn [bind]. eexists _, _. split; [reflexivity|].
        split; [|cbn [last_idx last_pos]; auto; rewrite Lp; auto].
        exists segs', (vs ++ [(w, (o, x))]), A, (c ++ [(o, x)]), W, w0.
        cbn [last_idx last_pos str_arcs words input_index input_arcs input_words].
        assert (runs (es ++ [((last_idx s, last_pos s), (w, (o, x)))]) (segs' ++ [((last_idx s, last_pos s), vs ++ [(w, (o, x))])])) as R'
          by (apply runs_same; auto).
        rewrite <- Lp. split; [reflexivity|]. split; [exact R'|]. repeat split; auto.
        * rewrite map_app, Ec. reflexivity.
        * exists v0, (vr ++ [(w, (o, x))]). rewrite Ev. auto.
      + (* next position *)
        rewrite EA. cbn [str_arcs]. rewrite !app_length. cbn [length]. split.
        * intros Fo. assert (p = (last_pos s + 1)%Z) as ->.
          { destruct Fo as [E|[[_ E]|[E _]]]; [|exact E|contradiction]. injection E as E. contradiction. }
          replace (Z.eqb _ _) with true by (symmetry; apply Z.eqb_eq; lia). cbn [qcheck]. rewrite Hs.
          rewrite push_last. cbn [bind app input_arcs input_words input_index words].
          eexists _, _. split; [reflexivity|]. split; [|reflexivity].
          exists (segs' ++ [((last_idx s, last_pos s), vs)]), [(w, (o, x))], (A ++ [c]), [(o, x)], (W ++ [w0]), w.
          cbn [last_idx last_pos str_arcs words input_index input_arcs input_words].
          assert (runs (es ++ [((last_idx s, last_pos s + 1)%Z, (w, (o, x)))])
                    ((segs' ++ [((last_idx s, last_pos s), vs)]) ++ [((last_idx s, last_pos s + 1)%Z, [(w, (o, x))])])) as R'.
          { apply runs_new; auto. intros E. injection E as E. lia. }
          split; [reflexivity|]. split; [exact R'|]. repeat split; auto.
          -- rewrite EW. reflexivity.
          -- rewrite !app_length. simpl. lia.
          -- rewrite app_length. cbn [length]. lia.
          -- exists (w, (o, x)), []. auto.
          -- rewrite positioned_snoc, app_assoc, P, map_app. cbn [map cands_of fst snd]. rewrite Lp, <- Ec. reflexivity.
          -- rewrite positioned_snoc, app_assoc. apply Forall2_app; auto. constructor; [|constructor].
             split; [cbn [fst]; congruence|]. exists v0, vr. cbn [snd]. auto.
        * intros N. destruct (Z.eqb_spec (Z.of_nat (length A + 1 + 1)) (p + 1)); [|reflexivity].
          exfalso. apply N. right. left. cbn [fst snd]. split; auto. lia.
    - (* next example *)
      replace (0 <=? last_idx s)%Z with true by (symmetry; apply Z.leb_le; auto).
      cbn [str_arcs words input_arcs input_words input_index app length]. split.
      + intros Fo. assert (p = 0%Z) as ->.
        { destruct Fo as [E|[[E _]|[_ E]]]; [|contradiction|exact E]. injection E as E. contradiction. }
        change (Z.of_nat 1 =? 0 + 1)%Z with true. cbn [qcheck]. rewrite Hs. cbn [push_back_last bind app].
        eexists _, _. split; [reflexivity|]. split; [|reflexivity].
        exists (segs' ++ [((last_idx s, last_pos s), vs)]), [(w, (o, x))], [], [(o, x)], [], w.
        cbn [last_idx last_pos str_arcs words input_index input_arcs input_words].
        assert (runs (es ++ [((i, 0%Z), (w, (o, x)))])
                  ((segs' ++ [((last_idx s, last_pos s), vs)]) ++ [((i, 0%Z), [(w, (o, x))])])) as R'.
        { apply runs_new; auto. intros E. injection E as E. congruence. }
        split; [reflexivity|]. split; [exact R'|]. repeat split; auto.
        * exists (w, (o, x)), []. auto.
        * rewrite !app_length. simpl. lia.
        * rewrite !app_length. simpl. lia.
        * cbn [positioned length seq map combine]. rewrite app_nil_r, placed_snoc by auto. rewrite EA, positioned_snoc, app_assoc, P, map_app.
          cbn [map cands_of fst snd]. rewrite Lp, <- Ec. reflexivity.
        * cbn [positioned length seq map combine]. rewrite app_nil_r, placed_snoc by auto. rewrite EW, positioned_snoc, app_assoc.
          apply Forall2_app; auto. constructor; [|constructor].
          split; [cbn [fst]; congruence|]. exists v0, vr. cbn [snd]. auto.
        * rewrite <- app_assoc. apply neighbours_snoc; auto.
        * apply Forall_app. split; auto. constructor; auto. rewrite EA. destruct A; discriminate.
      + intros N. destruct (Z.eqb_spec (Z.of_nat 1) (p + 1)); [|reflexivity].
        exfalso. apply N. right. right. cbn [fst snd]. split; auto. lia.
  Qed.

  Lemma extract_stop lines (r : run extract_state) : (forall s, r <> Fine s) ->
    fold_left (fun acc line => bind acc (fun s => extract_line stod stoi s line)) lines r = r.
  Proof.
    intros H. induction lines as [|l lines IH]; auto. cbn [fold_left].
    replace (bind r (fun s => extract_line stod stoi s l)) with r; auto. destruct r; auto. destruct (H a eq_refl).
  Qed.

  Lemma follows_dec a b : {follows a b} + {~ follows a b}.
  Proof.
    unfold follows. destruct a as [i p], b as [j q]. cbn [fst snd].
    destruct (Z.eq_dec j i) as [->|N].
    - destruct (Z.eq_dec q p) as [->|N]; [left; auto|]. destruct (Z.eq_dec q (p + 1)) as [->|N2]; [left; auto|].
      right. intros [E|[[_ E]|[E _]]]; congruence.
    - destruct (Z.eq_dec q 0) as [->|N2]; [left; auto|]. right. intros [E|[[E _]|[_ E]]]; congruence.
  Qed.

  Lemma extract_fold lines es : Forall2 line_entry_of lines es -> Forall (fun e => (0 <= fst (fst e))%Z) es ->
    forall es0 segs0 s0, einv es0 segs0 s0 ->
    (keys_ok (last_idx s0, last_pos s0) (map fst es) /\ exists s segs,
       fold_left (fun acc line => bind acc (fun s => extract_line stod stoi s line)) lines (Fine s0) = Fine s /\
       einv (es0 ++ es) segs s) \/
    (~ keys_ok (last_idx s0, last_pos s0) (map fst es) /\
       fold_left (fun acc line => bind acc (fun s => extract_line stod stoi s line)) lines (Fine s0) = Check).
  Proof.
    intros HF. induction HF as [|line e lines es He HF IH]; intros H0 es0 segs0 s0 I.
    - left. split; [exact Logic.I|]. exists s0, segs0. rewrite app_nil_r. split; auto.
    - inversion H0 as [|? ? He0 H0']; subst. destruct (extract_next es0 segs0 s0 line e I He He0) as [G1 G2].
      cbn [fold_left bind map keys_ok]. destruct (follows_dec (last_idx s0, last_pos s0) (fst e)) as [Fo|Fo].
      + destruct (G1 Fo) as (s2 & segs2 & E & I2 & K). rewrite E. destruct (IH H0' _ _ _ I2) as [(Ko & s & segs & E2 & I3)|(Ko & E2)].
        * left. rewrite K in Ko. split; auto. exists s, segs. rewrite <- app_assoc in I3. auto.
        * right. rewrite K in Ko. split; auto. intros [_ ?]; auto.
      + right. split; [intros [? _]; auto|]. rewrite (G2 Fo). apply extract_stop. discriminate.
  Qed.

  Lemma extract_spec lines es : Forall2 line_entry_of lines es -> Forall (fun e => (0 <= fst (fst e))%Z) es ->
    (keys_good (map fst es) /\ exists r, InitializeKbestExtractor stod stoi lines = Fine r /\ extract_result es r) \/
    (~ keys_good (map fst es) /\ InitializeKbestExtractor stod stoi lines = Check).
  Proof.
    intros HF H0. destruct HF as [|line e lines es He HF].
    - left. split; [exact Logic.I|]. eexists. split; [reflexivity|]. exists [].
      assert (forall K, @neighbours_differ K []) as N. { intros K pre a b post E. destruct pre; discriminate. }
      split; [split; [reflexivity|split; [constructor|apply N]]|]. split; [reflexivity|].
      split; [constructor|]. split; [reflexivity|]. split; [reflexivity|]. split; [apply N|constructor].
    - inversion H0 as [|? ? He0 H0']; subst. destruct (extract_first line e He He0) as [G1 G2].
      unfold InitializeKbestExtractor. cbn [fold_left bind map keys_good].
      destruct (Z.eq_dec (snd (fst e)) 0) as [Z0|Z0].
      + destruct (G1 Z0) as (s1 & E1 & I1 & K1). rewrite E1.
        destruct (extract_fold lines es HF H0' _ _ _ I1) as [(Ko & s & segs & E2 & I2)|(Ko & E2)]; rewrite K1 in Ko.
        * left. split; auto. rewrite E2. cbn [bind]. eexists. split; [reflexivity|].
          destruct I2 as (segs' & vs & A & c & W & w0 & -> & R & EA & EW & LW & Lp & L0 & Ec & (v0 & vr & Ev & Ew) & La & Lw & P & PW & Nd & Ne).
          exists (segs' ++ [((last_idx s, last_pos s), vs)]). split; [exact R|]. repeat split.
          -- rewrite placed_snoc by auto. rewrite EA, positioned_snoc, app_assoc, P, map_app. cbn [map cands_of fst snd].
             rewrite Lp, <- Ec. reflexivity.
          -- rewrite placed_snoc by auto. rewrite EW, positioned_snoc, app_assoc. apply Forall2_app; auto.
             constructor; [|constructor]. split; [cbn [fst]; congruence|]. exists v0, vr. cbn [snd]. auto.
          -- rewrite !app_length. simpl. lia.
          -- rewrite !app_length. simpl. lia.
          -- exact Nd.
          -- apply Forall_app. split; auto. constructor; auto. rewrite EA. destruct A; discriminate.
        * right. split; [intros [_ ?]; auto|]. rewrite E2. reflexivity.
      + right. split; [intros [? _]; auto|]. rewrite (G2 Z0), extract_stop by discriminate. reflexivity.
  Qed.
End Extract.

Section Accepted.
  Variable stod : str -> option Z.
  Variable stoi : str -> option Z.
  Lemma extract_line_entry s line s' : extract_line stod stoi s line = Fine s' -> exists e, line_entry_of stod stoi line e.
  Proof.
    unfold extract_line. destruct (fields line) as [|a [|b [|c [|d [|f [|]]]]]] eqn:F; try discriminate. intros H.
    apply fields_spec in F. destruct (stoi a) as [i|] eqn:I; [|discriminate]. destruct (stoi b) as [p|] eqn:P; [|discriminate].
    match type of H with qcheck ?x _ = _ => destruct x; [|discriminate] end. cbn [qcheck] in H.
    destruct (stod f) as [x|] eqn:S; [|discriminate]. exists ((i, p), (c, (d, x))). exists a, b, f. auto.
  Qed.
  Lemma extract_lines_entries lines : forall s s',
    fold_left (fun acc line => bind acc (fun s => extract_line stod stoi s line)) lines (Fine s) = Fine s' ->
    exists es, Forall2 (line_entry_of stod stoi) lines es.
  Proof.
    induction lines as [|l lines IH]; intros s s' H.
    - exists []. constructor.
    - cbn [fold_left bind] in H. destruct (extract_line stod stoi s l) as [| | |s1] eqn:E.
      1-3: rewrite extract_stop in H by discriminate; discriminate.
      destruct (extract_line_entry _ _ _ E) as (e & He). destruct (IH _ _ H) as (es & HF). exists (e :: es). auto.
  Qed.
  Lemma extract_accepted lines r : InitializeKbestExtractor stod stoi lines = Fine r ->
    exists es, Forall2 (line_entry_of stod stoi) lines es.
  Proof.
    intros H. unfold InitializeKbestExtractor in H. destruct lines as [|l lines]; [exists []; constructor|].
    match type of H with bind ?x _ = _ => destruct x as [| | |s] eqn:E; try discriminate end.
    eapply extract_lines_entries; eauto.
  Qed.
End Accepted.

Lemma negative_example : exists stoi lines es r, Forall2 (line_entry_of SearchProofs.zero_stod stoi) lines es /\
  InitializeKbestExtractor SearchProofs.zero_stod stoi lines = Fine r /\ ~ extract_result es r.
Proof.
  exists (fun s => match s with [45; _] => Some (-2)%Z | [c] => Some (Z.of_N c - 48)%Z | _ => None end%N).
  exists [[45; 50; 9; 48; 9; 120; 9; 97; 9; 48]; [53; 9; 49; 9; 121; 9; 98; 9; 48]]%N.
  exists [((-2, 0)%Z, ([120]%N, ([97]%N, 0%Z))); ((5, 1)%Z, ([121]%N, ([98]%N, 0%Z)))]. eexists. split.
  { constructor; [|constructor; [|constructor]].
    - exists [45; 50]%N, [48]%N, [48]%N. split; [apply fields_spec|split; [|split]]; reflexivity.
    - exists [53]%N, [49]%N, [48]%N. split; [apply fields_spec|split; [|split]]; reflexivity. }
  split; [vm_compute; reflexivity|]. intros (segs & (S & F & _) & P & _).
  destruct segs as [|[k vs] segs]; [discriminate|]. inversion F as [|? ? V _]; subst. simpl in V.
  destruct vs as [|v vs]; [contradiction|]. simpl in S. injection S as -> _ _. vm_compute in P. discriminate.
Qed.
