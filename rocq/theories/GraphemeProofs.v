From Coq Require Import Ascii String.
From Verif Require Import Base ContainerModel ContainerSpec ContainerProofs InventoryModel InventorySpec InventoryProofs OperationModel OperationProofs SymbolModel SymbolSpec SymbolProofs.
Local Open Scope list_scope.

(** The atomics are numbered in order. *)
Definition atoms_ok (s : sinv) : Prop :=
  c_type (i_container (atomics s)) = None /\ c_class (i_container (atomics s)) = inv_class /\
  forall x, In x (items_of (atomics s)) -> exists k, x = Plain 8 (N.of_nat k) /\ k < length (items_of (atomics s)).
Definition gsound (ys : list symbol) (s : sinv) : Prop := sound ys s /\ atoms_ok s /\ c_type (i_container (sbase s)) = Some [grapheme_class].

Lemma add_item_class b t added b' : add_item [] b t [] = Some (added, b') -> c_class (i_container b') = c_class (i_container b).
Proof.
  unfold add_item. destruct (negb (method b (codes "add_item")) || negb (method b (codes "valid_item"))); [discriminate|]. cbn [field_value].
  destruct (valid_item [] (i_container b) (t_self t)) as [ok|]; [|discriminate]. destruct (negb ok || existsb (obj_eqb (t_self t)) (items_of b)); [intros E; injection E as <- <-; auto|].
  destruct (negb (method b (codes "_add_field"))); [discriminate|]. unfold add_field. destruct (has_str (t_alias t) (i_reserved b) || has_str (t_alias t) (map fst (i_fields b))); intros E; injection E as <- <-; reflexivity.
Qed.

Definition set_atomics (s : sinv) (b : inv) : sinv := SInv (sbase s) (sid s) (s_index_dict s) (raw_dict s) (text_dict s) (sprefix s) (unknown_count s) b.
Lemma sound_atomics ys s b : sound ys s -> sound ys (set_atomics s b).
Proof. intros H. split; [exact (sound_ids _ _ H)|exact (sound_dicts _ _ H)|exact (sound_items _ _ H)]. Qed.
Lemma atoms_add s b added b' alias : atoms_ok s -> atomics s = b ->
  add_item [] b (Thing (Plain 8 (N.of_nat (length (items_of b)))) alias (Nought 0) []) [] = Some (added, b') -> atoms_ok (set_atomics s b').
Proof.
  intros (T & K & I) <- A. pose proof (add_item_class _ _ _ _ A) as Kc. apply add_item_full in A as (T' & _ & A). unfold atoms_ok. cbn [set_atomics atomics].
  split; [congruence|]. split; [congruence|]. destruct added; [|subst b'; exact I]. destruct A as (E & _ & _). cbn [t_self] in E. rewrite E, app_length. cbn [length].
  intros x J. apply in_app_iff in J as [J|[<-|[]]]; [destruct (I x J) as (k & -> & L); exists k; split; auto; lia|]. exists (length (items_of (atomics s))). split; auto. lia.
Qed.
Lemma atomic_cases ys s id added ys' s' : add_symbol_and_atomic ys s id = Some (added, ys', s') ->
  exists y ok s1, nth_error ys id = Some y /\ add_symbol ys s id = Some (ok, ys', s1) /\
  if ok then exists b, add_item [] (atomics s1) (Thing (Plain 8 (N.of_nat (length (items_of (atomics s1))))) (s_alias y) (Nought 0) []) [] = Some (added, b) /\ s' = set_atomics s1 b
  else added = false /\ s' = s1.
Proof.
  unfold add_symbol_and_atomic. destruct (add_symbol ys s id) as [[[ok ys1] s1]|] eqn:A; [|discriminate].
  destruct (add_symbol_cases _ _ _ _ _ _ A) as (y & E & _). destruct ok.
  - rewrite E. destruct (add_item [] (atomics s1) (Thing (Plain 8 (N.of_nat (length (items_of (atomics s1))))) (s_alias y) (Nought 0) []) []) as [[ad b]|] eqn:B; [|discriminate].
    intros H. injection H as <- <- <-. exists y, true, s1. split; auto. split; auto. exists b. auto.
  - intros H. injection H as <- <- <-. exists y, false, s1. auto.
Qed.
Lemma add_symbol_atoms ys s id ok ys' s' : add_symbol ys s id = Some (ok, ys', s') -> atomics s' = atomics s /\ c_type (i_container (sbase s')) = c_type (i_container (sbase s)).
Proof. intros A. apply add_symbol_cases in A as (y & _ & A). destruct ok; [|destruct A as [_ ->]; auto]. destruct A as (y' & _ & _ & _ & Q & _ & _ & _ & _ & T & _). auto. Qed.
Lemma atomic_gsound ys s id added ys' s' : gsound ys s -> add_symbol_and_atomic ys s id = Some (added, ys', s') -> gsound ys' s' /\ extends ys ys' /\ length ys' = length ys.
Proof.
  intros (S0 & At & T) A. apply atomic_cases in A as (y & ok & s1 & E & A & B). destruct (add_symbol_sound _ _ _ _ _ _ S0 A) as (S1 & X & L).
  destruct (add_symbol_atoms _ _ _ _ _ _ A) as (Ea & Et).
  assert (At1 : atoms_ok s1) by (unfold atoms_ok in *; rewrite Ea; exact At).
  destruct ok; [|destruct B as [_ ->]; split; [split; [auto|split; [auto|congruence]]|auto]].
  destruct B as (b & B & ->). split; auto. split; [apply sound_atomics; auto|]. split; [eapply atoms_add; [exact At1|reflexivity|exact B]|cbn [set_atomics sbase]; congruence].
Qed.
Lemma gsound_app ys s y : gsound ys s -> gsound (ys ++ [y]) s.
Proof. intros (S0 & Q). split; auto. apply sound_app; auto. Qed.
Lemma gsound_home ys s id y n : gsound ys s -> nth_error ys id = Some y -> gsound (replace ys id (set_home y n)) s /\ extends ys (replace ys id (set_home y n)).
Proof.
  intros (S0 & Q) E. assert (X : extends ys (replace ys id (set_home y n))) by (eapply extends_replace; [exact E|repeat split]). split; auto. split; auto. split.
  - rewrite replace_length. apply (sound_ids _ _ S0).
  - eapply dicts_extends; [exact X|apply (sound_ids _ _ S0)|apply (sound_dicts _ _ S0)].
  - intros x I. destruct (sound_items _ _ S0 x I) as (j & z & -> & Ez & Lz). destruct (X j z Ez) as (w & Ew & Aw). exists j, w. destruct Aw as (K & Aa & _).
    split; [unfold sym_obj; rewrite K; reflexivity|]. split; auto. rewrite Aa. exact Lz.
Qed.
Lemma add_graphemes_gsound ids : forall ys s ys' s', gsound ys s -> add_graphemes ys s ids = Some (ys', s') -> gsound ys' s' /\ extends ys ys'.
Proof.
  induction ids as [|id ids IH]; cbn [add_graphemes]; intros ys s ys' s' G H; [injection H as <- <-; auto using extends_refl|].
  destruct (add_symbol_and_atomic ys s id) as [[[ad ys1] s1]|] eqn:A; [|discriminate]. destruct (atomic_gsound _ _ _ _ _ _ G A) as (G1 & X1 & _).
  destruct ad; [destruct (nth_error ys1 id) as [y|] eqn:E|].
  - destruct (gsound_home _ _ _ _ (sid s) G1 E) as (G2 & X2). destruct (IH _ _ _ _ G2 H) as (G3 & X3). split; auto. eapply extends_trans; [exact X1|]. eapply extends_trans; eauto.
  - destruct (IH _ _ _ _ G1 H) as (G3 & X3). split; auto. eapply extends_trans; eauto.
  - destruct (IH _ _ _ _ G1 H) as (G3 & X3). split; auto. eapply extends_trans; eauto.
Qed.
Lemma from_unknown_gsound ys s raw id ys' s' : gsound ys s -> grapheme_from_unknown ys s raw = Some (id, ys', s') -> gsound ys' s' /\ extends ys ys'.
Proof.
  unfold grapheme_from_unknown. intros G. destruct raw as [|c [|d r]]; try discriminate. destruct (add_symbol_and_atomic (ys ++ [grapheme_of c]) s (length ys)) as [[[ad ys1] s1]|] eqn:A; [|discriminate].
  intros H. injection H as _ <- <-. destruct (atomic_gsound _ _ _ _ _ _ (gsound_app _ _ _ G) A) as (G1 & X & _). split; auto. eapply extends_trans; [apply extends_app|exact X].
Qed.
Lemma gparse_gsound text : forall ys s ids ys' s', gsound ys s -> str_to_raw_symbols grapheme_from_unknown ys s text = Some (ids, ys', s') -> gsound ys' s' /\ extends ys ys' /\ length ids = length text.
Proof.
  induction text as [|c text IH]; cbn [str_to_raw_symbols]; intros ys s ids ys' s' G H; [injection H as <- <- <-; auto using extends_refl|].
  destruct (lookup [c] (raw_dict s)) as [id|].
  - destruct (str_to_raw_symbols grapheme_from_unknown ys s text) as [[[l ys2] s2]|] eqn:E; [|discriminate]. injection H as <- <- <-. destruct (IH _ _ _ _ _ G E) as (G2 & X2 & L). cbn [length]. auto.
  - destruct (grapheme_from_unknown ys s [c]) as [[[id ys1] s1]|] eqn:U; [|discriminate]. destruct (from_unknown_gsound _ _ _ _ _ _ G U) as (G1 & X1).
    destruct (str_to_raw_symbols grapheme_from_unknown ys1 s1 text) as [[[l ys2] s2]|] eqn:E; [|discriminate]. injection H as <- <- <-. destruct (IH _ _ _ _ _ G1 E) as (G2 & X2 & L). cbn [length].
    split; auto. split; auto. eapply extends_trans; eauto.
Qed.
Lemma new_gsound n prefix : gsound controls (new_sinv n [grapheme_class] prefix grapheme_attributes).
Proof. split; [apply new_sound|]. split; [|reflexivity]. split; [reflexivity|]. split; [reflexivity|]. intros x []. Qed.
Lemma reached_gsound n prefix st : reached_graphemes n prefix st -> gsound (fst st) (snd st).
Proof.
  intros (os & E). revert E. unfold gr_run. pose proof (new_gsound n prefix) as G. change (gsound (fst (controls, new_sinv n [grapheme_class] prefix grapheme_attributes)) (snd (controls, new_sinv n [grapheme_class] prefix grapheme_attributes))) in G.
  revert G. generalize (controls, new_sinv n [grapheme_class] prefix grapheme_attributes) as s0. induction os as [|o os IH]; cbn [for_each]; intros [ys s] G E; [injection E as <-; exact G|].
  destruct (gr_do (ys, s) o) as [[ys1 s1]|] eqn:D; [|discriminate]. apply (IH (ys1, s1)); auto. clear IH E. cbn [fst snd] in *. destruct o as [y|ids|text]; cbn [gr_do] in D.
  - injection D as <- <-. apply gsound_app. exact G.
  - eapply add_graphemes_gsound; eauto.
  - destruct (str_to_raw_symbols grapheme_from_unknown ys s text) as [[[l ys2] s2]|] eqn:A; [|discriminate]. injection D as <- <-. eapply gparse_gsound; eauto.
Qed.

Lemma grapheme_lookups n prefix ys s : reached_graphemes n prefix (ys, s) ->
  (forall i, exists r, latest ys (all_ids s) (fun y => s_index y = i) r /\ found r (sym_index_lookup s i)) /\
  (forall t, t <> [] -> exists r, latest ys (all_ids s) (fun y => s_text y = t) r /\ found r (text_lookup s t)) /\
  (forall t, t <> [] -> exists r, latest ys (all_ids s) (fun y => s_raw y = t) r /\ found r (raw_lookup s t)).
Proof.
  intros R. apply reached_gsound in R. destruct R as (R & _). cbn [fst snd] in R. destruct (sound_dicts _ _ R) as (A & B & C & _).
  assert (Q : forall o, found o (or_unk o)) by (intros [x|]; [left|right]; auto).
  split; [intros i; eexists; split; [apply A|apply Q]|]. split; [intros t N; eexists; split; [apply C; exact N|apply Q]|].
  intros t N; eexists; split; [apply B; exact N|apply Q].
Qed.

(** ** Unknown characters *)
Definition gparse_inv (ys : list symbol) (s : sinv) (t : str) : Prop :=
  gsound ys s /\ methods_there (sbase s) /\ methods_there (atomics s) /\
  forall c, In c t -> lookup [c] (raw_dict s) = None -> ~ In (u_alias c) (taken (sbase s)) /\ ~ In (u_alias c) (taken (atomics s)).
Lemma gparse_make ys s c t : gparse_inv ys s (c :: t) -> lookup [c] (raw_dict s) = None ->
  exists ys1 s1, grapheme_from_unknown ys s [c] = Some (length ys, ys1, s1) /\ gparse_inv ys1 s1 t /\ lookup [c] (raw_dict s1) = Some (length ys) /\
    (forall r, r <> [c] -> lookup r (raw_dict s1) = lookup r (raw_dict s)) /\ extends ys ys1 /\
    exists y, nth_error ys1 (length ys) = Some y /\ alike (grapheme_of c) y.
Proof.
  intros (G & M & Ma & Fr) L. destruct (Fr c (or_introl eq_refl) L) as (N & Na). destruct G as (S0 & At & T).
  destruct (add_fresh ys s s (grapheme_of c) S0 eq_refl M) as (ys' & s' & A); [exists [grapheme_class]; split; [exact T|left; reflexivity]|exact N|].
  destruct (add_symbol_atoms _ _ _ _ _ _ A) as (Ea & _).
  destruct (add_item_ok (atomics s') (Thing (Plain 8 (N.of_nat (length (items_of (atomics s'))))) (s_alias (grapheme_of c)) (Nought 0) [])) as (b & B).
  { rewrite Ea. exact Ma. }
  { rewrite Ea. destruct At as (Ta & Ka & _). unfold valid_item. cbn [t_self class_of]. rewrite Ta, Ka. reflexivity. }
  { rewrite Ea. cbn [t_self]. destruct At as (_ & _ & I). intros J. destruct (I _ J) as (k & E & Lk). injection E as E. apply Nat2N.inj in E. lia. }
  { rewrite Ea. exact Na. }
  assert (AA : add_symbol_and_atomic (ys ++ [grapheme_of c]) s (length ys) = Some (true, ys', set_atomics s' b)).
  { unfold add_symbol_and_atomic. rewrite A, nth_error_app2, Nat.sub_diag by lia. cbn [nth_error]. rewrite B. reflexivity. }
  assert (U : grapheme_from_unknown ys s [c] = Some (length ys, ys', set_atomics s' b)) by (unfold grapheme_from_unknown; rewrite AA; reflexivity).
  exists ys', (set_atomics s' b). split; auto.
  destruct (from_unknown_gsound _ _ _ _ _ _ (conj S0 (conj At T)) U) as (G1 & X).
  pose proof (add_symbol_sound _ _ _ _ _ _ (sound_app _ _ (grapheme_of c) S0) A) as (_ & X1 & _).
  apply add_symbol_cases in A as (y & E & y' & Al & Ey & Er & _ & Eu & Ep & _ & _ & Et & Ev & Ei & Ef & _ & _).
  rewrite nth_error_app2, Nat.sub_diag in E by lia. injection E as <-.
  apply add_item_full in B as (_ & Rb & _ & Fb & _). cbn [t_alias t_self] in Fb.
  assert (Lk : forall r, lookup r (raw_dict (set_atomics s' b)) = if str_eqb r [c] then Some (length ys) else lookup r (raw_dict s)).
  { intros r. cbn [set_atomics raw_dict]. rewrite Er. cbn [add_to_dicts raw_dict grapheme_of s_raw]. apply lookup_set. }
  split; [|split; [|split; [|split]]].
  - split; auto. split; [|split].
    + cbn [set_atomics sbase]. intros a I. rewrite Ef, map_app in I. apply in_app_iff in I as [I|[<-|[]]]; [apply M; exact I|apply u_alias_method].
    + cbn [set_atomics atomics]. intros a I. rewrite Fb, Ea, map_app in I. apply in_app_iff in I as [I|[<-|[]]]; [apply Ma; exact I|apply u_alias_method].
    + intros d Id Ld. rewrite Lk in Ld. destruct (str_eqb_spec [d] [c]) as [Q|Q]; [discriminate|]. destruct (Fr d (or_intror Id) Ld) as (N1 & N2).
      assert (Nd : u_alias c <> u_alias d) by (intros W; apply u_alias_inj in W; congruence).
      unfold taken in *. cbn [set_atomics sbase atomics]. rewrite Ev, Ef, Rb, Fb, Ea, !map_app. cbn [map fst grapheme_of s_alias]. split; intros I; rewrite app_assoc in I; apply in_app_iff in I as [I|[I|[]]]; auto.
  - rewrite Lk, (proj2 (str_eqb_eq _ _) eq_refl). reflexivity.
  - intros r Nr. rewrite Lk. destruct (str_eqb_spec r [c]); [contradiction|reflexivity].
  - exact X.
  - apply X1. rewrite nth_error_app2, Nat.sub_diag by lia. reflexivity.
Qed.
Lemma gparse_skip ys s c t : gparse_inv ys s (c :: t) -> lookup [c] (raw_dict s) <> None -> gparse_inv ys s t.
Proof. intros (G & M & Ma & Fr) _. split; auto. split; auto. split; auto. intros d I. apply Fr. right. exact I. Qed.

Lemma gparse_new text : forall ys s ids ys' s', gparse_inv ys s text -> str_to_raw_symbols grapheme_from_unknown ys s text = Some (ids, ys', s') ->
  extends ys ys' /\ forall c id, In (c, id) (combine text ids) -> lookup [c] (raw_dict s) = None -> length ys <= id /\ exists y, nth_error ys' id = Some y /\ alike (grapheme_of c) y.
Proof.
  induction text as [|c text IH]; cbn [str_to_raw_symbols]; intros ys s ids ys' s' G H; [injection H as <- <- <-; split; [apply extends_refl|intros c id []]|].
  destruct (lookup [c] (raw_dict s)) as [x|] eqn:L.
  - destruct (str_to_raw_symbols grapheme_from_unknown ys s text) as [[[l ys2] s2]|] eqn:E; [|discriminate]. injection H as <- <- <-.
    destruct (IH _ _ _ _ _ (gparse_skip _ _ _ _ G ltac:(congruence)) E) as (X & Q). split; auto. intros d id [J|J] Ld; [injection J as <- <-; congruence|eauto].
  - destruct (gparse_make _ _ _ _ G L) as (ys1 & s1 & U & G1 & Lc & Lo & X1 & y & Ey & Ay). rewrite U in H.
    destruct (str_to_raw_symbols grapheme_from_unknown ys1 s1 text) as [[[l ys2] s2]|] eqn:E; [|discriminate]. injection H as <- <- <-.
    destruct (IH _ _ _ _ _ G1 E) as (X & Q). split; [eapply extends_trans; eauto|].
    assert (Hd : length ys <= length ys /\ exists z, nth_error ys2 (length ys) = Some z /\ alike (grapheme_of c) z).
    { split; auto. destruct (X _ _ Ey) as (z & Ez & Az). exists z. split; auto. unfold alike in *. intuition congruence. }
    intros d id [J|J] Ld; [injection J as <- <-; exact Hd|].
    destruct (N.eq_dec d c) as [->|Nd].
    + (* the same character again *)
      assert (Kp : In (c, id) (combine text l) -> id = length ys).
      { clear - E G1 Lc. destruct (parse_all grapheme_from_unknown gparse_inv) with (text := text) (ys := ys1) (s := s1) as (ids & a & b & E' & _ & Kp & F); auto.
        - intros a b e t Ga La. destruct (gparse_make _ _ _ _ Ga La) as (a1 & b1 & U1 & H1 & H2 & H3 & _). exists (length a), a1, b1. auto.
        - apply gparse_skip.
        - rewrite E in E'. injection E' as <- <- <-. intros J. specialize (Kp _ _ Lc). clear - J F Kp. induction F as [|e x t ids H F IH]; [destruct J|]. destruct J as [J|J]; [injection J as <- <-; congruence|auto]. }
      rewrite (Kp J). exact Hd.
    + rewrite <- (Lo [d]) in Ld by congruence. destruct (Q d id J Ld) as (L1 & z & Ez & Az). split; [|exists z; auto]. pose proof (extends_length _ _ X1). lia.
Qed.

Lemma parse_graphemes n prefix ys s text : reached_graphemes n prefix (ys, s) -> methods_there (sbase s) -> methods_there (atomics s) ->
  (forall c, In c text -> raw_lookup s [c] = unk -> ~ In (u_alias c) (taken (sbase s)) /\ ~ In (u_alias c) (taken (atomics s))) ->
  exists ids ys' s', str_to_raw_symbols grapheme_from_unknown ys s text = Some (ids, ys', s') /\
    Forall2 (fun c id => raw_lookup s' [c] = id /\ exists y, nth_error ys' id = Some y /\ s_raw y = [c]) text ids /\
    (forall i j c d x y, nth_error text i = Some c -> nth_error text j = Some d -> nth_error ids i = Some x -> nth_error ids j = Some y -> (c = d <-> x = y)) /\
    (forall c id, In (c, id) (combine text ids) -> raw_lookup s [c] = unk ->
       length ys <= id /\ exists y, nth_error ys' id = Some y /\ s_index y = (2000000 + c)%N /\ s_alias y = u_alias c /\ s_text y = [c]) /\
    str_to_raw_symbols grapheme_from_unknown ys' s' text = Some (ids, ys', s').
Proof.
  intros R M Ma Fr. pose proof (reached_gsound _ _ _ R) as G. cbn [fst snd] in G.
  assert (I0 : gparse_inv ys s text).
  { split; auto. split; auto. split; auto. intros c I L. apply Fr; auto. unfold raw_lookup. rewrite L. reflexivity. }
  assert (Nu : forall c, raw_lookup s [c] = unk -> lookup [c] (raw_dict s) = None).
  { intros c. unfold raw_lookup. destruct (lookup [c] (raw_dict s)) as [x|] eqn:L; auto. cbn [or_unk]. intros ->. destruct G as (S0 & _). destruct (raw_lookup_raw _ _ _ _ S0 L) as (y & Ey & Ry).
    exfalso. assert (X : extends controls ys).
    { destruct R as (os & E). clear - E. unfold gr_run in E. pose proof (new_gsound n prefix) as G. change controls with (fst (controls, new_sinv n [grapheme_class] prefix grapheme_attributes)) at 1. change ys with (fst (ys, s)).
      change (gsound (fst (controls, new_sinv n [grapheme_class] prefix grapheme_attributes)) (snd (controls, new_sinv n [grapheme_class] prefix grapheme_attributes))) in G.
      revert G E. generalize (controls, new_sinv n [grapheme_class] prefix grapheme_attributes) as s0. induction os as [|o os IH]; cbn [for_each]; intros [a b] G E; [injection E as -> ->; apply extends_refl|].
      destruct (gr_do (a, b) o) as [[a1 b1]|] eqn:D; [|discriminate]. cbn [fst snd] in *.
      assert (Q : gsound a1 b1 /\ extends a a1).
      { destruct o as [y|ids|t]; cbn [gr_do] in D.
        - injection D as <- <-. split; [apply gsound_app; exact G|apply extends_app].
        - eapply add_graphemes_gsound; eauto.
        - destruct (str_to_raw_symbols grapheme_from_unknown a b t) as [[[l a2] b2]|] eqn:A; [|discriminate]. injection D as <- <-. destruct (gparse_gsound _ _ _ _ _ _ G A) as (Q1 & Q2 & _). auto. }
      destruct Q as (Q1 & Q2). eapply extends_trans; [exact Q2|]. apply (IH (a1, b1)); auto. }
    destruct (X unk (Sym sym_class (codes "unk") [8203; 9254; 8203]%N [] 1000001 None) eq_refl) as (z & Ez & Az). rewrite Ez in Ey. injection Ey as <-. destruct Az as (_ & _ & _ & Ar & _). rewrite Ar in Ry. discriminate. }
  destruct (parse_all grapheme_from_unknown gparse_inv) with (text := text) (ys := ys) (s := s) as (ids & ys' & s' & E & I1 & Kp & F); auto.
  { intros a b c t Ga La. destruct (gparse_make _ _ _ _ Ga La) as (a1 & b1 & U1 & H1 & H2 & H3 & _). exists (length a), a1, b1. auto. }
  { apply gparse_skip. }
  destruct I1 as ((S1 & _) & _). exists ids, ys', s'. split; auto. split; [|split; [|split]].
  - assert (Rw : forall c id, lookup [c] (raw_dict s') = Some id -> raw_is ys' c id) by (intros c id; apply raw_lookup_raw; exact S1).
    clear - F Rw. induction F as [|c id text ids H F IH]; constructor; auto. split; [unfold raw_lookup; rewrite H; reflexivity|apply Rw; exact H].
  - intros i j c d x y Ec Ed Ex Ey. destruct (pairs_same (fun c => lookup [c] (raw_dict s')) text ids i j c d x y F Ec Ed Ex Ey) as [A B]. split; [congruence|]. intros <-.
    eapply raw_is_unique; eapply raw_lookup_raw; eauto.
  - intros c id J L. destruct (gparse_new _ _ _ _ _ _ I0 E) as (_ & Q). destruct (Q c id J (Nu c L)) as (L1 & y & Ey & Ay). split; auto. exists y. split; auto. destruct Ay as (_ & A1 & A2 & _ & A3). auto.
  - apply parse_again. exact F.
Qed.
Lemma grapheme_length n prefix ys s text ids ys' s' : reached_graphemes n prefix (ys, s) ->
  str_to_raw_symbols grapheme_from_unknown ys s text = Some (ids, ys', s') -> length ids = length text.
Proof. intros R E. apply reached_gsound in R. eapply gparse_gsound; eauto. Qed.

(** ** What goes wrong *)
(** An inventory of phonemes does not take the new symbols. *)
Lemma typed_unknown : exists ids ys' s', str_to_raw_symbols raw_from_unknown controls (new_sinv 0 [phon_class] UNDEFINED_PREFIX phon_attributes) [97; 97]%N = Some (ids, ys', s') /\
  ids = [7; 8] /\ items_of (sbase s') = [] /\ raw_lookup s' [97%N] = unk.
Proof. eexists _, _, _. split; [vm_compute; reflexivity|]. repeat split. Qed.
(** A symbol called from_unk_1 *)
Lemma unknown_alias_taken : exists ys s ids ys' s', reached 0 [sym_class] UNDEFINED_PREFIX [] (ys, s) /\
  str_to_raw_symbols raw_from_unknown ys s [97; 97]%N = Some (ids, ys', s') /\ ids = [8; 9].
Proof. eexists _, _, _, _, _. split; [exists [NewSymbol (letter sym_class "from_unk_1" 120 1); AddSymbols [7]]; vm_compute; reflexivity|]. split; [vm_compute; reflexivity|reflexivity]. Qed.
(** An unknown character takes the index of a symbol. *)
Lemma unknown_index_taken : exists ys s ids ys' s', reached 0 [sym_class] UNDEFINED_PREFIX [] (ys, s) /\
  sym_index_lookup s 9000001 = 7 /\ str_to_raw_symbols raw_from_unknown ys s [97]%N = Some (ids, ys', s') /\ sym_index_lookup s' 9000001 = 8 /\ In 7 (item_ids s').
Proof.
  eexists _, _, _, _, _. split; [exists [NewSymbol (letter sym_class "x" 120 9000001); AddSymbols [7]]; vm_compute; reflexivity|].
  split; [vm_compute; reflexivity|]. split; [vm_compute; reflexivity|]. split; [vm_compute; reflexivity|]. vm_compute. auto.
Qed.
(** A grapheme with the alias of another character: that character becomes nor. *)
Lemma grapheme_alias_taken : exists ys s ids ys' s', reached_graphemes 0 2215000 (ys, s) /\
  str_to_raw_symbols grapheme_from_unknown ys s [97; 98]%N = Some (ids, ys', s') /\ ids = [7; nor].
Proof.
  eexists _, _, _, _, _. split; [exists [NewGrapheme (letter grapheme_class "u_0x62" 97 2000097); AddGraphemes [7]]; vm_compute; reflexivity|].
  split; [vm_compute; reflexivity|reflexivity].
Qed.
(** A combined inventory that is not of the class of the receiver is ignored (class 0:
    Symbol.Inventory, 1: Grapheme.Inventory). *)
Lemma combined_ignored : exists ys self other ids ys' s', reached 1 [sym_class; grapheme_class] UNDEFINED_PREFIX [] (ys, other) /\ raw_lookup other [97%N] = 7 /\
  self = new_sinv 0 [grapheme_class] 2215000 grapheme_attributes /\
  str_to_raw_symbols grapheme_from_unknown ys (chosen (fun sub super => N.eqb sub super || N.eqb super 0) 1 0 self other) [97%N] = Some (ids, ys', s') /\ ids = [8].
Proof.
  eexists _, _, _, _, _, _. split; [exists [NewSymbol (letter grapheme_class "a" 97 2000097); AddSymbols [7]]; vm_compute; reflexivity|].
  split; [vm_compute; reflexivity|]. split; [reflexivity|]. split; [vm_compute; reflexivity|reflexivity].
Qed.
