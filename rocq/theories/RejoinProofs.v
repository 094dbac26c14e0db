From Verif Require Import Base Utf8Model Utf8Spec Utf8Proofs DelimModel DelimSpec DelimProofs KbestModel KbestSpec KbestProofs.

(** ** Fields *)
Lemma split_char_spec s : forall p ps, split_char 9%N s = (p, ps) ->
  join_tab (p :: ps) = s /\ Forall (fun p => ~ In 9%N p) (p :: ps).
Proof.
  induction s as [|c s IH]; intros p ps H; cbn [split_char] in H.
  - injection H as <- <-. split; auto.
  - destruct (split_char 9%N s) as [q qs]. destruct (IH q qs eq_refl) as [J F].
    destruct (N.eqb c 9%N) eqn:E.
    + apply N.eqb_eq in E. injection H as <- <-. split.
      * change (join_tab ([] :: q :: qs)) with ([] ++ 9%N :: join_tab (q :: qs)). rewrite J, E. reflexivity.
      * constructor; auto.
    + apply N.eqb_neq in E. injection H as <- <-. split.
      * destruct qs as [|r qs]; simpl in J |- *; congruence.
      * inversion F; subst. constructor; auto. intros [?|?]; auto.
Qed.
Lemma split_char_complete parts : forall s, parts <> [] -> join_tab parts = s ->
  Forall (fun p => ~ In 9%N p) parts -> exists p ps, split_char 9%N s = (p, ps) /\ parts = p :: ps.
Proof.
  assert (forall p rest, ~ In 9%N p -> forall q qs, split_char 9%N rest = (q, qs) ->
    split_char 9%N (p ++ rest) = (p ++ q, qs)) as G.
  { induction p as [|c p IH]; intros rest N q qs E; simpl; auto.
    rewrite (IH rest) with (q := q) (qs := qs); auto. 2: { intros I. apply N. right; auto. }
    destruct (N.eqb_spec c 9%N) as [->|]; auto. exfalso. apply N. left; auto. }
  induction parts as [|p parts IH]; intros s Hn J F; [contradiction|].
  inversion F as [|? ? Np F']; subst. destruct parts as [|q parts].
  - exists p, []. simpl. split; auto. rewrite <- (app_nil_r p) at 1.
    rewrite (G p [] Np [] [] eq_refl), app_nil_r. reflexivity.
  - destruct (IH (join_tab (q :: parts)) ltac:(discriminate) eq_refl F') as (p' & ps & E & Ep).
    exists p, (q :: parts). split; auto.
    change (join_tab (p :: q :: parts)) with (p ++ 9%N :: join_tab (q :: parts)).
    rewrite (G p _ Np [] (q :: parts)); [rewrite app_nil_r; auto|].
    cbn [split_char]. rewrite E, Ep. reflexivity.
Qed.

Lemma skip_filter (l : list str) : filter SkipEmpty l = filter non_empty l.
Proof. induction l as [|[|c w] l IH]; simpl; auto; f_equal; auto. Qed.

Lemma fields_spec line fs : fields line = fs <-> has_fields line fs.
Proof.
  unfold fields, has_fields. split.
  - intros H. destruct (split_char 9%N line) as [p ps] eqn:E. apply split_char_spec in E. destruct E as [J F].
    exists (p :: ps). split; [discriminate|]. repeat split; auto; rewrite <- skip_filter; auto.
  - intros (parts & Hn & J & F & ->). destruct (split_char_complete parts line Hn J F) as (p & ps & -> & ->).
    apply skip_filter.
Qed.

Lemma fields_nonempty line fs f : has_fields line fs -> In f fs -> f <> [].
Proof.
  intros (parts & _ & _ & _ & ->) I. apply filter_In in I. destruct I as [_ I]. destruct f; [discriminate|congruence].
Qed.

(** ** Runs *)
Section Runs.
  Context {K V : Type}.
  Implicit Types (segs : list (K * list V)) (l : list (K * V)).

  Lemma neighbours_cons (a b : K) (l : list K) : neighbours_differ (a :: b :: l) <-> a <> b /\ neighbours_differ (b :: l).
  Proof.
    split.
    - intros H. split; [apply (H [] a b l eq_refl)|]. intros pre x y post E. apply (H (a :: pre) x y post).
      simpl. f_equal. exact E.
    - intros [N H] pre x y post E. destruct pre as [|z pre]; simpl in E.
      + injection E as -> -> _. auto.
      + injection E as _ E. apply (H pre x y post E).
  Qed.
  Lemma neighbours_one (a : K) : neighbours_differ [a].
  Proof. intros pre x y post E. destruct pre as [|z [|? ?]]; discriminate. Qed.
  Lemma neighbours_snoc (l : list K) a b : neighbours_differ (l ++ [a]) -> a <> b -> neighbours_differ (l ++ [a; b]).
  Proof.
    induction l as [|x l IH]; intros H N; simpl.
    - apply neighbours_cons. split; auto. apply neighbours_one.
    - destruct l as [|y l].
      + simpl in *. apply neighbours_cons in H. destruct H as [H1 H2]. apply neighbours_cons. split; auto.
      + simpl in *. apply neighbours_cons in H. destruct H as [H1 H2]. apply neighbours_cons. split; auto.
  Qed.
  Lemma neighbours_tail (a : K) (l : list K) : neighbours_differ (a :: l) -> neighbours_differ l.
  Proof. intros H pre x y post E. apply (H (a :: pre) x y post). simpl. congruence. Qed.

  Lemma spread_app a b : spread (a ++ b) = spread a ++ @spread K V b.
  Proof. unfold spread. apply flat_map_app. Qed.

  Lemma runs_unique : forall a b l, runs l a -> runs l b -> a = b.
  Proof.
    induction a as [|[k vs] a IH]; intros [|[k' vs'] b] l (Sa & Fa & Na) (Sb & Fb & Nb); auto.
    - exfalso. inversion Fb as [|? ? H _]; subst. simpl in *. destruct vs'; [contradiction|discriminate].
    - exfalso. inversion Fa as [|? ? H _]; subst. simpl in *. destruct vs; [contradiction|discriminate].
    - inversion Fa as [|? ? Va Fa']; inversion Fb as [|? ? Vb Fb']; subst. simpl in Va, Vb.
      cbn [spread flat_map fst snd] in Sb. fold (@spread K V b) in Sb. fold (@spread K V a) in Sb.
      cbn [map fst] in Na, Nb.
      assert (k' = k) as ->.
      { destruct vs; [contradiction|]. destruct vs'; [contradiction|]. simpl in Sb. congruence. }
      assert (forall ws c : list (K * list V), forall x xs, Forall (fun s => snd s <> []) c ->
        neighbours_differ (k :: map fst c) -> spread c = map (pair k) (x :: xs) ++ spread ws -> False) as Bad.
      { intros ws [|[kc vc] c] x xs F N E; [discriminate|]. inversion F as [|? ? Vc _]; subst. simpl in Vc.
        cbn [spread flat_map fst snd map app] in E. destruct vc as [|v vc]; [contradiction|].
        simpl in E. injection E as E1 _ _. simpl in N. apply neighbours_cons in N. destruct N as [N _]. congruence. }
      assert (vs = vs' /\ spread a = spread b) as [-> E].
      { clear Va Vb Fa Fb. revert vs' Sb. induction vs as [|v vs IHv]; intros [|v' vs'] E; simpl in E.
        - auto.
        - exfalso. apply (Bad b a v' vs' Fa' Na). symmetry. exact E.
        - exfalso. apply (Bad a b v vs Fb' Nb). exact E.
        - injection E as -> E. destruct (IHv vs' E) as [-> E']. auto. }
      f_equal. apply (IH b (spread a)); repeat split; auto; try (eapply neighbours_tail; eauto; fail).
  Qed.

  Lemma runs_same l segs k vs v : runs l (segs ++ [(k, vs)]) -> runs (l ++ [(k, v)]) (segs ++ [(k, vs ++ [v])]).
  Proof.
    intros (S & F & N). repeat split.
    - rewrite <- S, !spread_app. cbn [spread flat_map fst snd]. rewrite map_app, !app_nil_r, <- app_assoc. reflexivity.
    - apply Forall_app in F. destruct F as [F1 F2]. apply Forall_app. split; auto.
      constructor; auto. simpl. destruct vs; discriminate.
    - rewrite map_app in *. exact N.
  Qed.
  Lemma runs_new l segs k vs k' v : runs l (segs ++ [(k, vs)]) -> k <> k' ->
    runs (l ++ [(k', v)]) ((segs ++ [(k, vs)]) ++ [(k', [v])]).
  Proof.
    intros (S & F & N) D. repeat split.
    - rewrite <- S, (spread_app (segs ++ [(k, vs)])). reflexivity.
    - apply Forall_app. split; auto. constructor; auto. discriminate.
    - rewrite !map_app in *. cbn [map fst] in *. rewrite <- app_assoc. apply neighbours_snoc; auto.
  Qed.
  Lemma runs_first k v : runs [(k, v)] [(k, [v])] (K := K) (V := V).
  Proof. repeat split; auto. constructor; auto; discriminate. apply neighbours_one. Qed.
End Runs.

(** ** Numbered lists *)
Lemma numbered_app {A} (a b : list (list A)) n : numbered n (a ++ b) = numbered n a ++ numbered (n + Z.of_nat (length a)) b.
Proof.
  revert n. induction a as [|x a IH]; intros n.
  - simpl. rewrite Z.add_0_r. reflexivity.
  - cbn [app numbered length]. rewrite IH, <- app_assoc. f_equal. f_equal. f_equal. lia.
Qed.
Lemma numbered_last {A} (a : list (list A)) l x n :
  numbered n (a ++ [l ++ [x]]) = numbered n (a ++ [l]) ++ [((n + Z.of_nat (length a))%Z, x)].
Proof.
  rewrite !numbered_app. cbn [numbered]. rewrite !app_nil_r, map_app, app_assoc. reflexivity.
Qed.
Lemma numbered_empty {A} (a : list (list A)) n : numbered n (a ++ [[]]) = numbered n a.
Proof. rewrite numbered_app. simpl. apply app_nil_r. Qed.
Lemma combine_snoc {A B} (l : list A) (r : list B) i b : nth_error l (length r) = Some i ->
  combine l (r ++ [b]) = combine l r ++ [(i, b)].
Proof.
  revert r. induction l as [|x l IH]; intros [|y r] E; simpl in *; try discriminate.
  - injection E as ->. destruct l; reflexivity.
  - f_equal. auto.
Qed.

Lemma push_last {A} (l : list (list A)) a x : push_back_last (l ++ [a]) x = Fine (l ++ [a ++ [x]]).
Proof.
  induction l as [|y l IH]; auto. cbn [app push_back_last].
  destruct (l ++ [a]) as [|z r] eqn:E; [destruct l; discriminate|]. rewrite IH. reflexivity.
Qed.

Lemma max_size_spec l : forall m, max_size m l = Nat.max m (longest l).
Proof.
  unfold max_size, longest. induction l as [|x l IH]; intros m; cbn [fold_left map fold_right]; [lia|].
  rewrite IH. destruct (m <? length x) eqn:E; [apply Nat.ltb_lt in E|apply Nat.ltb_ge in E]; lia.
Qed.
Lemma longest_app {A} (a b : list (list A)) : longest (a ++ b) = Nat.max (longest a) (longest b).
Proof. unfold longest. rewrite map_app. induction (map (@length A) a); simpl; auto. rewrite IHl. lia. Qed.

Lemma steps_spec indices : steps_ok indices = true <-> steps indices.
Proof.
  induction indices as [|a [|b l] IH]; simpl; try (split; auto; fail).
  rewrite !andb_true_iff, Z.leb_le, Z.leb_le. rewrite IH. simpl. split; intros [H1 H2]; split; auto; lia.
Qed.
Lemma steps_nth indices : steps indices -> forall i a b, nth_error indices i = Some a ->
  nth_error indices (S i) = Some b -> (b = a \/ b = a + 1)%Z.
Proof.
  induction indices as [|x [|y l] IH]; intros H i a b Ha Hb.
  - destruct i; discriminate.
  - destruct i as [|[|i]]; discriminate.
  - destruct H as [H H']. destruct i as [|i].
    + simpl in *. congruence.
    + apply (IH H' i a b Ha Hb).
Qed.

Section Rejoin.
  Variable stod : str -> option Z.
  Notation entry_of := (entry_of stod).

  Definition inv (first : Z) (indices : list Z) (es : list (str * hyp)) (segs : list (str * list hyp))
    (s : rejoin_state) : Prop :=
    exists segs' c cl, segs = segs' ++ [(last_input s, c)] /\ curr_list s = cl ++ [c] /\
      last_input s <> [] /\ runs es segs /\ output_idx s = length segs' /\
      numbered first (kbest_lists s ++ [cl]) = combine indices (map snd segs') /\
      nth_error indices (length segs') = Some (first + Z.of_nat (length (kbest_lists s)))%Z /\
      max_kbest s = longest (concat (kbest_lists s)) /\
      Forall (fun l => l <> []) (kbest_lists s).

  Lemma entry_input line e : entry_of line e -> fst e <> [].
  Proof. intros (sc & H & _). eapply fields_nonempty; [exact H|]. left; auto. Qed.

  Lemma first_line first rest line e : entry_of line e ->
    exists s, rejoin_line stod (first :: rest) (RejoinState [] [[]] [] 0 0) line = Fine s /\
      inv first (first :: rest) [e] [(fst e, [snd e])] s.
  Proof.
    intros He. pose proof (entry_input _ _ He) as Hn. destruct He as (sc & Hf & Hs).
    apply fields_spec in Hf. unfold rejoin_line. rewrite Hf. cbn [last_input SkipEmpty andb bind]. rewrite Hs.
    cbn [curr_list push_back_last bind]. eexists. split; [reflexivity|].
    destruct e as [i [o x]]. cbn [fst snd] in *.
    exists [], [(o, x)], []. cbn [last_input curr_list output_idx kbest_lists max_kbest app length numbered map combine concat].
    repeat split; auto.
    - constructor; auto. discriminate.
    - apply neighbours_one.
    - simpl. f_equal. lia.
  Qed.

  Lemma next_line first indices es segs s line e : steps indices -> inv first indices es segs s -> entry_of line e ->
    exists segs2, runs (es ++ [e]) segs2 /\
      (length segs <= length indices -> length segs <= length segs2) /\
      ((length segs2 <= length indices /\ exists s2, rejoin_line stod indices s line = Fine s2 /\
          inv first indices (es ++ [e]) segs2 s2) \/
       (length indices < length segs2 /\ rejoin_line stod indices s line = Check)).
  Proof.
    intros Hst (segs' & c & cl & -> & Ec & Hl & Hr & Ho & Hnum & Hnth & Hm & Hne) He.
    pose proof (entry_input _ _ He) as Hn. destruct He as (sc & Hf & Hs). apply fields_spec in Hf.
    destruct e as [i [o x]]. cbn [fst snd] in *. unfold rejoin_line. rewrite Hf.
    replace (SkipEmpty (last_input s)) with true by (destruct (last_input s); [contradiction|auto]). cbn [andb].
    destruct (str_eqb i (last_input s)) eqn:E; cbn [negb].
    - apply str_eqb_eq in E. subst i. exists (segs' ++ [(last_input s, c ++ [(o, x)])]).
      assert (runs (es ++ [(last_input s, (o, x))]) (segs' ++ [(last_input s, c ++ [(o, x)])])) as R by (apply runs_same; auto).
      split; auto. split; [rewrite !app_length; simpl; lia|]. left.
      assert (length segs' < length indices) as L by (apply nth_error_Some; congruence).
      split; [rewrite app_length; simpl; lia|]. cbn [bind]. rewrite Hs, Ec, push_last. cbn [bind].
      eexists. split; [reflexivity|]. exists segs', (c ++ [(o, x)]), cl.
      cbn [last_input curr_list output_idx kbest_lists max_kbest]. repeat split; auto; apply R.
    - apply str_eqb_neq in E. exists ((segs' ++ [(last_input s, c)]) ++ [(i, [(o, x)])]).
      assert (runs (es ++ [(i, (o, x))]) ((segs' ++ [(last_input s, c)]) ++ [(i, [(o, x)])])) as R by (apply runs_new; auto).
      split; auto. split; [rewrite !app_length; simpl; lia|].
      assert (length segs' < length indices) as L by (apply nth_error_Some; congruence).
      replace (match indices with [] => true | _ => output_idx s <? length indices - 1 end)
        with (output_idx s <? length indices - 1).
      2:{ destruct indices; [simpl in L; lia|auto]. }
      rewrite Ho. destruct (length segs' <? length indices - 1) eqn:Q; [apply Nat.ltb_lt in Q|apply Nat.ltb_ge in Q].
      2:{ right. split; [rewrite !app_length; simpl; lia|reflexivity]. }
      left. split; [rewrite !app_length; simpl; lia|]. cbn [qcheck]. unfold at_. rewrite Hnth. cbn [bind].
      destruct (nth_error indices (S (length segs'))) as [j|] eqn:Hj.
      2:{ apply nth_error_None in Hj. lia. }
      cbn [bind].
      assert (numbered first (kbest_lists s ++ [cl ++ [c]]) = combine indices (map snd (segs' ++ [(last_input s, c)]))) as Hnum2.
      { rewrite numbered_last, Hnum, map_app. cbn [map snd]. symmetry. apply combine_snoc.
        rewrite map_length. exact Hnth. }
      destruct (steps_nth _ Hst _ _ _ Hnth Hj) as [->| ->].
      + rewrite Z.eqb_refl. cbn [kbest_lists curr_list last_input output_idx max_kbest bind]. rewrite Hs.
        rewrite Ec. rewrite push_last. cbn [bind].
        eexists. split; [reflexivity|]. exists (segs' ++ [(last_input s, c)]), [(o, x)], (cl ++ [c]).
        cbn [last_input curr_list output_idx kbest_lists max_kbest app].
        repeat split; auto; try apply R; try (rewrite app_length; cbn [length]; try lia).
        replace (length segs' + 1) with (S (length segs')) by lia. exact Hj.
      + destruct (Z.eqb_spec (first + Z.of_nat (length (kbest_lists s))) (first + Z.of_nat (length (kbest_lists s)) + 1)) as [F|_]; [lia|].
        cbn [kbest_lists curr_list last_input output_idx max_kbest bind app]. rewrite Hs.
        cbn [push_back_last bind app].
        eexists. split; [reflexivity|]. exists (segs' ++ [(last_input s, c)]), [(o, x)], [].
        cbn [last_input curr_list output_idx kbest_lists max_kbest app].
        repeat split; auto; try apply R.
        * rewrite app_length; cbn [length]; lia.
        * rewrite numbered_empty, Ec. exact Hnum2.
        * rewrite !app_length. cbn [length]. replace (length segs' + 1) with (S (length segs')) by lia.
          rewrite Hj. f_equal. lia.
        * rewrite max_size_spec, concat_app, longest_app, Hm. cbn [concat]. rewrite app_nil_r. reflexivity.
        * apply Forall_app. split; auto. constructor; auto. rewrite Ec. destruct cl; discriminate.
  Qed.

  Lemma fold_stop indices lines (r : run rejoin_state) : (forall s, r <> Fine s) ->
    fold_left (fun acc line => bind acc (fun s => rejoin_line stod indices s line)) lines r = r.
  Proof.
    intros H. induction lines as [|l lines IH]; auto. cbn [fold_left].
    replace (bind r (fun s => rejoin_line stod indices s l)) with r; auto. destruct r; auto. destruct (H a eq_refl).
  Qed.

  Lemma fold_lines first indices lines es : Forall2 entry_of lines es -> steps indices -> forall es0 segs0 s0,
    inv first indices es0 segs0 s0 ->
    exists segs, runs (es0 ++ es) segs /\ length segs0 <= length segs /\
      ((length segs <= length indices /\ exists s,
          fold_left (fun acc line => bind acc (fun s => rejoin_line stod indices s line)) lines (Fine s0) = Fine s /\
          inv first indices (es0 ++ es) segs s) \/
       (length indices < length segs /\
          fold_left (fun acc line => bind acc (fun s => rejoin_line stod indices s line)) lines (Fine s0) = Check)).
  Proof.
    intros HF Hst. induction HF as [|line e lines es He HF IH]; intros es0 segs0 s0 HI.
    - exists segs0. rewrite app_nil_r. pose proof HI as (segs' & c & cl & E & _ & _ & R & _ & _ & Hnth & _).
      repeat split; auto; try apply R. left. split; [|exists s0; split; [reflexivity|exact HI]].
      rewrite E. rewrite app_length. cbn [length]. assert (length segs' < length indices) by (apply nth_error_Some; congruence). lia.
    - destruct (next_line first indices es0 segs0 s0 line e Hst HI He) as (segs2 & R2 & Le & [[L (s2 & E2 & I2)]|[L E2]]).
      + cbn [fold_left bind]. rewrite E2. destruct (IH _ _ _ I2) as (segs & R & Le2 & D). rewrite <- app_assoc in *.
        exists segs. repeat split; auto; try apply R. 
        assert (length segs0 <= length indices).
        { destruct HI as (segs' & c & cl & -> & _ & _ & _ & _ & _ & Hnth & _). rewrite app_length. cbn [length].
          assert (length segs' < length indices) by (apply nth_error_Some; congruence). lia. }
        specialize (Le H). lia.
      + cbn [fold_left bind]. rewrite E2, fold_stop by discriminate.
        (* the runs of the whole are at least those of the prefix *)
        assert (forall l : list (str * hyp), forall p sp, p <> [] -> runs p sp -> exists sq, runs (p ++ l) sq /\ length sp <= length sq) as G.
        { clear. induction l as [|[k v] l IH]; intros p sp Hp R.
          - exists sp. rewrite app_nil_r. auto.
          - assert (exists sq, runs (p ++ [(k, v)]) sq /\ length sp <= length sq) as (sq & Rq & Lq).
            { destruct (exists_last (l := sp)) as (sp' & [k' vs] & ->).
              { intros ->. destruct R as (R & _). apply Hp. symmetry. exact R. }
              destruct (str_eq_dec k' k) as [->|N].
              - exists (sp' ++ [(k, vs ++ [v])]). split; [apply runs_same; auto|]. rewrite !app_length. simpl. lia.
              - exists ((sp' ++ [(k', vs)]) ++ [(k, [v])]). split; [apply runs_new; auto|]. rewrite !app_length. simpl. lia. }
            destruct (IH (p ++ [(k, v)]) sq) as (sr & Rr & Lr); auto.
            { destruct p; discriminate. }
            exists sr. rewrite <- app_assoc in Rr. split; auto. lia. }
        destruct (G es (es0 ++ [e]) segs2) as (sq & Rq & Lq); auto; [destruct es0; discriminate|].
        rewrite <- app_assoc in Rq. exists sq. repeat split; auto; try apply Rq.
        * assert (length segs0 <= length indices).
          { destruct HI as (segs' & c & cl & -> & _ & _ & _ & _ & _ & Hnth & _). rewrite app_length. cbn [length].
            assert (length segs' < length indices) by (apply nth_error_Some; congruence). lia. }
          specialize (Le H). lia.
        * right. split; auto. lia.
  Qed.

  Lemma rejoin_lines_spec first rest line lines e es : entry_of line e -> Forall2 entry_of lines es ->
    steps (first :: rest) ->
    exists segs, runs (e :: es) segs /\
      ((length segs <= length (first :: rest) /\ exists s, rejoin_lines stod (first :: rest) (line :: lines) = Fine s /\
          inv first (first :: rest) (e :: es) segs s) \/
       (length (first :: rest) < length segs /\ rejoin_lines stod (first :: rest) (line :: lines) = Check)).
  Proof.
    intros He HF Hst. destruct (first_line first rest line e He) as (s1 & E1 & I1).
    destruct (fold_lines first (first :: rest) lines es HF Hst _ _ _ I1) as (segs & R & _ & D).
    exists segs. split; [exact R|]. unfold rejoin_lines. cbn [fold_left bind]. rewrite E1. exact D.
  Qed.

  (** Every accepted line has an entry. *)
  Lemma line_entry indices s line s' : rejoin_line stod indices s line = Fine s' -> exists e, entry_of line e.
  Proof.
    unfold rejoin_line. destruct (fields line) as [|a [|b [|c [|]]]] eqn:F; try discriminate. intros H.
    apply fields_spec in F. destruct (stod c) as [x|] eqn:S.
    - exists (a, (b, x)). exists c. auto.
    - exfalso. match type of H with bind ?r _ = _ => destruct r end; discriminate.
  Qed.
  Lemma lines_entries indices lines : forall s s',
    fold_left (fun acc line => bind acc (fun s => rejoin_line stod indices s line)) lines (Fine s) = Fine s' ->
    exists es, Forall2 entry_of lines es.
  Proof.
    induction lines as [|l lines IH]; intros s s' H.
    - exists []. constructor.
    - cbn [fold_left bind] in H. destruct (rejoin_line stod indices s l) as [| | |s1] eqn:E.
      1-3: rewrite fold_stop in H by discriminate; discriminate.
      destruct (line_entry _ _ _ _ E) as (e & He). destruct (IH _ _ H) as (es & HF). exists (e :: es). auto.
  Qed.

  Lemma rev_last (a : Z) l : exists r, rev (a :: l) = last_index (a :: l) :: r.
  Proof.
    destruct (exists_last (l := a :: l)) as (l' & b & E); [discriminate|]. rewrite E.
    unfold last_index. rewrite last_last, rev_unit. eauto.
  Qed.
  Lemma last_ge indices : steps indices -> forall i a, nth_error indices i = Some a -> (a <= last_index indices)%Z.
  Proof.
    induction indices as [|x [|y l] IH]; intros H i a Hi.
    - destruct i; discriminate.
    - destruct i as [|[|i]]; simpl in Hi; try discriminate. injection Hi as <-. unfold last_index. simpl. lia.
    - change (last_index (x :: y :: l)) with (last_index (y :: l)). destruct H as [H H']. destruct i as [|i].
      + simpl in Hi. injection Hi as <-. specialize (IH H' 0 y eq_refl). lia.
      + apply (IH H' i a Hi).
  Qed.

  Lemma init_sound lines first rest kbest lists k : lines <> [] -> (0 <= first)%Z ->
    InitializeKbestRejoiner stod lines (first :: rest) kbest = Fine (lists, k) ->
    exists es segs, Forall2 entry_of lines es /\ runs es segs /\ length segs <= length (first :: rest) /\
      first = 0%Z /\ steps (first :: rest) /\ grouped (first :: rest) segs lists /\
      k = if 0 <? kbest then kbest else longest (concat (removelast lists)).
  Proof.
    intros Hl H0 H. unfold InitializeKbestRejoiner in H.
    destruct (steps_ok (first :: rest)) eqn:St; [|discriminate]. cbn [qcheck] in H. apply steps_spec in St.
    destruct lines as [|line lines]; [contradiction|].
    destruct (rejoin_lines stod (first :: rest) (line :: lines)) as [| | |s] eqn:E; try discriminate. cbn [bind] in H.
    pose proof E as E'. unfold rejoin_lines in E'. apply lines_entries in E'. destruct E' as (es & HF).
    inversion HF as [|? e ? es' He HF']; subst.
    destruct (rejoin_lines_spec first rest line lines e es' He HF' St) as (segs & R & [[L (s' & E2 & I)]|[_ E2]]);
      [|congruence].
    rewrite E in E2. injection E2 as <-.
    destruct I as (segs' & c & cl & -> & Ec & Hne & _ & Ho & Hnum & Hnth & Hm & Hk).
    destruct (rev_last first rest) as (r & Er). rewrite Er in H.
    destruct (Z.eqb_spec (Z.of_nat (length (kbest_lists s ++ [curr_list s]))) (last_index (first :: rest) + 1)) as [Q|]; [|discriminate].
    cbn [qcheck] in H. injection H as <- <-.
    assert (first = 0%Z) as ->.
    { pose proof (last_ge _ St _ _ Hnth). rewrite app_length in Q. cbn [length] in Q. lia. }
    exists (e :: es'), (segs' ++ [(last_input s, c)]). repeat split; auto; try apply R.
    - rewrite Ec, numbered_last, Hnum, map_app. cbn [map snd]. symmetry. apply combine_snoc. rewrite map_length. exact Hnth.
    - apply Forall_app. split; auto. constructor; auto. rewrite Ec. destruct cl; discriminate.
    - rewrite removelast_last, Hm. reflexivity.
  Qed.

  Lemma init_complete lines es segs rest kbest : lines <> [] -> Forall2 entry_of lines es -> runs es segs ->
    steps (0%Z :: rest) -> length segs = length (0%Z :: rest) ->
    exists lists k, InitializeKbestRejoiner stod lines (0%Z :: rest) kbest = Fine (lists, k) /\
      grouped (0%Z :: rest) segs lists.
  Proof.
    intros Hl HF R St L. unfold InitializeKbestRejoiner. pose proof St as St'. apply steps_spec in St'. rewrite St'.
    cbn [qcheck]. inversion HF as [|line e lines' es' He HF' E1 E2]; subst; [contradiction|].
    destruct (rejoin_lines_spec 0 rest line lines' e es' He HF' St) as (segs2 & R2 & D).
    rewrite <- (runs_unique _ _ _ R R2) in *. destruct D as [[_ (s & E & I)]|[L2 _]]; [|lia].
    rewrite E. cbn [bind]. destruct I as (segs' & c & cl & -> & Ec & Hne & _ & Ho & Hnum & Hnth & Hm & Hk).
    destruct (rev_last 0%Z rest) as (r & Er). rewrite Er.
    assert (last_index (0%Z :: rest) = Z.of_nat (length (kbest_lists s))) as Q.
    { unfold last_index. destruct (exists_last (l := 0%Z :: rest)) as (l' & b & El); [discriminate|].
      rewrite El in *. rewrite last_last. rewrite !app_length in L. cbn [length] in L.
      assert (length segs' = length l') as L' by lia. rewrite L', nth_error_app2, Nat.sub_diag in Hnth by auto.
      simpl in Hnth. injection Hnth as ->. lia. }
    rewrite Q. replace (Z.eqb _ _) with true.
    2:{ symmetry. apply Z.eqb_eq. rewrite app_length. cbn [length]. lia. }
    cbn [qcheck]. eexists _, _. split; [reflexivity|]. repeat split.
    - rewrite Ec, numbered_last, Hnum, map_app. cbn [map snd]. symmetry. apply combine_snoc. rewrite map_length. exact Hnth.
    - apply Forall_app. split; auto. constructor; auto. rewrite Ec. destruct cl; discriminate.
    - rewrite Q, app_length. cbn [length]. lia.
  Qed.
End Rejoin.
