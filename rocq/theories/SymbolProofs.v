From Coq Require Import Ascii String Decimal Hexadecimal DecimalN HexadecimalN.
From Verif Require Import Base ContainerModel ContainerSpec ContainerProofs InventoryModel InventorySpec InventoryProofs OperationModel OperationProofs SymbolModel SymbolSpec.
Local Open Scope list_scope.

(** ** Dictionaries *)
Lemma dict_get_set {A} k (v : A) k' d : dict_get k (dict_set k' v d) = if N.eqb k k' then Some v else dict_get k d.
Proof.
  induction d as [|[a b] d IH]; cbn [dict_set dict_get].
  - destruct (N.eqb k k'); reflexivity.
  - destruct (N.eqb_spec k' a) as [->|N1]; cbn [dict_get].
    + destruct (N.eqb k a); reflexivity.
    + rewrite IH. destruct (N.eqb_spec k a) as [->|N2]; [|reflexivity]. destruct (N.eqb_spec a k'); [congruence|reflexivity].
Qed.
Lemma str_eqb_spec a b : reflect (a = b) (str_eqb a b).
Proof. destruct (str_eqb a b) eqn:E; constructor; [apply str_eqb_eq; exact E|]. intros ->. rewrite (proj2 (str_eqb_eq b b) eq_refl) in E. discriminate. Qed.
Lemma lookup_set {A} k (v : A) k' d : lookup k (set_key k' v d) = if str_eqb k k' then Some v else lookup k d.
Proof.
  induction d as [|[a b] d IH]; cbn [set_key lookup].
  - destruct (str_eqb k k'); reflexivity.
  - destruct (str_eqb_spec k' a) as [->|N1]; cbn [lookup].
    + destruct (str_eqb k a); reflexivity.
    + rewrite IH. destruct (str_eqb_spec k a) as [->|N2]; [|reflexivity]. destruct (str_eqb_spec a k'); [congruence|reflexivity].
Qed.
Lemma lookup_app {A} k (d e : list (str * A)) : lookup k (d ++ e) = match lookup k d with Some v => Some v | None => lookup k e end.
Proof. induction d as [|[a b] d IH]; cbn [app lookup]; auto. destruct (str_eqb k a); auto. Qed.

(** ** latest *)
Lemma latest_yes ys ids P id : has_prop ys P id -> latest ys (ids ++ [id]) P (Some id).
Proof. intros H. exists ids, []. split; [reflexivity|]. split; [exact H|]. intros j []. Qed.
Lemma latest_no ys ids P r id : ~ has_prop ys P id -> latest ys ids P r -> latest ys (ids ++ [id]) P r.
Proof.
  intros H. destruct r as [x|]; simpl.
  - intros (b & a & -> & Hx & Ha). exists b, (a ++ [id]). split; [rewrite <- app_assoc; reflexivity|]. split; auto.
    intros j I. apply in_app_iff in I as [I|[->|[]]]; auto.
  - intros A j I. apply in_app_iff in I as [I|[->|[]]]; auto.
Qed.
Lemma latest_same ys ys' ids P r : (forall id, In id ids -> (has_prop ys P id <-> has_prop ys' P id)) -> latest ys ids P r -> latest ys' ids P r.
Proof.
  intros Q. destruct r as [x|]; simpl.
  - intros (b & a & -> & Hx & Ha). exists b, a. split; auto. split; [apply Q; auto; apply in_app_iff; simpl; auto|].
    intros j I H. apply (Ha j I). apply Q; auto. apply in_app_iff; simpl; auto.
  - intros A j I H. apply (A j I). apply Q; auto.
Qed.
Lemma latest_some ys ids P id : latest ys ids P (Some id) -> In id ids /\ has_prop ys P id.
Proof. intros (b & a & -> & H & _). split; auto. apply in_app_iff; simpl; auto. Qed.
Lemma latest_unique ys ids P r r' : latest ys ids P r -> latest ys ids P r' -> r = r'.
Proof.
  destruct r as [x|], r' as [x'|]; simpl; auto.
  - intros (b & a & E & Hx & Ha) (b' & a' & E' & Hx' & Ha'). f_equal. rewrite E in E'.
    revert b' E'. clear E. induction b as [|z b IH]; intros [|z' b'] E'; cbn [app] in E'; injection E' as E1 E2; auto.
    + subst a. destruct (Ha x'); auto. apply in_app_iff; simpl; auto.
    + subst a'. destruct (Ha' x); auto. apply in_app_iff; simpl; auto.
    + apply (IH b'); auto.
  - intros (b & a & -> & Hx & _) A. destruct (A x); auto. apply in_app_iff; simpl; auto.
  - intros A (b & a & -> & Hx & _). destruct (A x'); auto. apply in_app_iff; simpl; auto.
Qed.

(** ** The dictionaries of an inventory *)
Definition dicts (ys : list symbol) (ids : list nat) (s : sinv) : Prop :=
  (forall i, latest ys ids (fun y => s_index y = i) (dict_get i (s_index_dict s))) /\
  (forall r, r <> [] -> latest ys ids (fun y => s_raw y = r) (lookup r (raw_dict s))) /\
  (forall t, t <> [] -> latest ys ids (fun y => s_text y = t) (lookup t (text_dict s))) /\
  lookup [] (raw_dict s) = None /\ lookup [] (text_dict s) = None.
Lemma has_prop_at ys P id y : nth_error ys id = Some y -> (has_prop ys P id <-> P y).
Proof. intros E. split; [intros (z & F & H); rewrite E in F; injection F as <-; exact H|intros H; exists y; auto]. Qed.
Lemma dicts_add ys ids s id y : nth_error ys id = Some y -> dicts ys ids s -> dicts ys (ids ++ [id]) (add_to_dicts y id s).
Proof.
  intros E (A & B & C & D & F).
  assert (K : forall (key : symbol -> str) d, (forall r, r <> [] -> latest ys ids (fun y => key y = r) (lookup r d)) -> lookup [] d = None ->
    (forall r, r <> [] -> latest ys (ids ++ [id]) (fun y => key y = r) (lookup r (match key y with [] => d | k => set_key k id d end))) /\
    lookup [] (match key y with [] => d | k => set_key k id d end) = None).
  { intros key d L N. destruct (key y) as [|a k] eqn:Ek; split; auto.
    - intros r R. apply latest_no; auto. rewrite (has_prop_at _ _ _ _ E). congruence.
    - intros r R. rewrite lookup_set. destruct (str_eqb_spec r (a :: k)) as [->|Nk].
      + apply latest_yes. apply (has_prop_at _ _ _ _ E). exact Ek.
      + apply latest_no; auto. rewrite (has_prop_at _ _ _ _ E). congruence.
    - rewrite lookup_set. exact N. }
  destruct (K s_raw (raw_dict s) B D) as [B1 B2]. destruct (K s_text (text_dict s) C F) as [C1 C2].
  split; [|split; [exact B1|split; [exact C1|split; [exact B2|exact C2]]]].
  intros i. cbn [add_to_dicts s_index_dict]. rewrite dict_get_set. destruct (N.eqb_spec i (s_index y)) as [->|Ni].
  - apply latest_yes. apply (has_prop_at _ _ _ _ E). reflexivity.
  - apply latest_no; auto. rewrite (has_prop_at _ _ _ _ E). congruence.
Qed.

(** Same key fields, class and alias *)
Definition alike (y z : symbol) : Prop :=
  s_class z = s_class y /\ s_alias z = s_alias y /\ s_text z = s_text y /\ s_raw z = s_raw y /\ s_index z = s_index y.
Definition extends (ys ys' : list symbol) : Prop := forall id y, nth_error ys id = Some y -> exists z, nth_error ys' id = Some z /\ alike y z.
Lemma alike_refl y : alike y y.
Proof. repeat split. Qed.
Lemma extends_refl ys : extends ys ys.
Proof. intros id y E. exists y. split; auto using alike_refl. Qed.
Lemma extends_trans a b c : extends a b -> extends b c -> extends a c.
Proof.
  intros H1 H2 id y E. destruct (H1 id y E) as (z & Ez & A). destruct (H2 id z Ez) as (w & Ew & B). exists w. split; auto.
  unfold alike in *. intuition congruence.
Qed.
Lemma extends_length a b : extends a b -> length a <= length b.
Proof.
  intros H. destruct (le_lt_dec (length a) (length b)) as [L|L]; auto.
  destruct (nth_error a (length b)) as [y|] eqn:E; [|apply nth_error_None in E; lia].
  destruct (H _ _ E) as (z & Ez & _). assert (length b < length b) by (apply nth_error_Some; congruence). lia.
Qed.
Lemma extends_app ys y : extends ys (ys ++ [y]).
Proof. intros id z E. exists z. split; auto using alike_refl. rewrite nth_error_app1; auto. apply nth_error_Some. congruence. Qed.
Lemma extends_replace ys id y z : nth_error ys id = Some y -> alike y z -> extends ys (replace ys id z).
Proof.
  intros E A j w F. destruct (Nat.eq_dec id j) as [<-|N].
  - exists z. split; [eapply replace_same; eauto|]. congruence.
  - exists w. split; auto using alike_refl. rewrite replace_other; auto.
Qed.
Lemma dicts_extends ys ys' ids s : extends ys ys' -> (forall id, In id ids -> id < length ys) -> dicts ys ids s -> dicts ys' ids s.
Proof.
  intros X L (A & B & C & D).
  assert (Q : forall P : symbol -> Prop, (forall y z, alike y z -> (P y <-> P z)) -> forall id, In id ids -> (has_prop ys P id <-> has_prop ys' P id)).
  { intros P HP id I. destruct (nth_error ys id) as [y|] eqn:E; [|apply nth_error_None in E; specialize (L id I); lia].
    destruct (X id y E) as (z & Ez & Al). rewrite (has_prop_at _ _ _ _ E), (has_prop_at _ _ _ _ Ez). apply HP. exact Al. }
  split; [|split; [|split; [|exact D]]].
  - intros i. eapply latest_same; [|apply A]. apply Q. intros y z (_ & _ & _ & _ & ->). tauto.
  - intros r R. eapply latest_same; [|apply B; exact R]. apply Q. intros y z (_ & _ & _ & -> & _). tauto.
  - intros t R. eapply latest_same; [|apply C; exact R]. apply Q. intros y z (_ & _ & -> & _ & _). tauto.
Qed.

(** ** The invariant *)
Record sound (ys : list symbol) (s : sinv) : Prop := Sound {
  sound_ids : forall id, In id (all_ids s) -> id < length ys;
  sound_dicts : dicts ys (all_ids s) s;
  sound_items : forall x, In x (items_of (sbase s)) -> exists id y, x = sym_obj y id /\ nth_error ys id = Some y /\ lookup (s_alias y) (i_fields (sbase s)) = Some x
}.
Lemma sound_seven ys s : sound ys s -> 7 <= length ys.
Proof. intros H. assert (6 < length ys); [|lia]. apply (sound_ids _ _ H). unfold all_ids. apply in_app_iff. left. apply in_seq. lia. Qed.

Lemma new_sound n typed prefix more : sound controls (new_sinv n typed prefix more).
Proof.
  assert (I : item_ids (new_sinv n typed prefix more) = []) by reflexivity.
  split.
  - unfold all_ids. rewrite I, app_nil_r. intros id J. apply in_seq in J. cbn. lia.
  - unfold all_ids. rewrite I, app_nil_r. unfold new_sinv.
    assert (D0 : dicts controls [] (empty_sinv n typed prefix more)).
    { split; [intros i j []|]. split; [intros r _ j []|]. split; [intros r _ j []|]. split; reflexivity. }
    assert (G : forall l pre ids s, controls = pre ++ l -> dicts controls ids s -> ids = seq 0 (length pre) ->
      dicts controls (seq 0 (length pre + length l)) (add_all_to_dicts l (length pre) s)).
    { induction l as [|y l IH]; intros pre ids s E D Ei; cbn [add_all_to_dicts length].
      - rewrite Nat.add_0_r. rewrite <- Ei. exact D.
      - specialize (IH (pre ++ [y]) (ids ++ [length pre]) (add_to_dicts y (length pre) s)).
        rewrite app_length in IH. cbn [length] in IH. replace (length pre + S (length l)) with (length pre + 1 + length l) by lia.
        replace (S (length pre)) with (length pre + 1) by lia. apply IH.
        + rewrite <- app_assoc. exact E.
        + apply dicts_add; auto. rewrite E, nth_error_app2, Nat.sub_diag by lia. reflexivity.
        + rewrite seq_app, Ei. reflexivity. }
    exact (G controls [] [] _ eq_refl D0 eq_refl).
  - intros x [].
Qed.

(** ** Adding a symbol *)
Lemma add_item_full b t added b' : add_item [] b t [] = Some (added, b') ->
  c_type (i_container b') = c_type (i_container b) /\ i_reserved b' = i_reserved b /\
  if added then items_of b' = items_of b ++ [t_self t] /\ i_fields b' = i_fields b ++ [(t_alias t, t_self t)] /\ ~ In (t_alias t) (taken b) else b' = b.
Proof.
  unfold add_item. destruct (negb (method b (codes "add_item")) || negb (method b (codes "valid_item"))); [discriminate|]. cbn [field_value].
  destruct (valid_item [] (i_container b) (t_self t)) as [ok|]; [|discriminate]. destruct (negb ok || existsb (obj_eqb (t_self t)) (items_of b)); [intros E; injection E as <- <-; auto|].
  destruct (negb (method b (codes "_add_field"))); [discriminate|]. unfold add_field.
  destruct (has_str (t_alias t) (i_reserved b)) eqn:R; [intros E; injection E as <- <-; auto|].
  destruct (has_str (t_alias t) (map fst (i_fields b))) eqn:F; intros E; injection E as <- <-; auto.
  split; [reflexivity|]. split; [reflexivity|]. split; [reflexivity|]. split; [reflexivity|].
  unfold taken. intros I. apply in_app_iff in I as [I|I]; [apply has_str_not in R|apply has_str_not in F]; auto.
Qed.
Lemma with_base_same s : with_base s (sbase s) = s.
Proof. destruct s; reflexivity. Qed.
Lemma item_ids_app s s' x i : items_of (sbase s') = items_of (sbase s) ++ [Plain x (N.of_nat i)] -> item_ids s' = item_ids s ++ [i].
Proof. intros E. unfold item_ids. rewrite E, flat_map_app. cbn [flat_map]. rewrite app_nil_r, Nat2N.id. reflexivity. Qed.

Lemma add_symbol_cases ys s id added ys' s' : add_symbol ys s id = Some (added, ys', s') ->
  exists y, nth_error ys id = Some y /\
  if added then
    exists y', alike y y' /\ ys' = replace ys id y' /\ raw_dict s' = raw_dict (add_to_dicts y id s) /\ atomics s' = atomics s /\
    unknown_count s' = unknown_count s /\ sprefix s' = sprefix s /\ sid s' = sid s /\
    s_home y' = (match s_home y with Some h => Some h | None => if is_control id then None else Some (sid s) end) /\
    c_type (i_container (sbase s')) = c_type (i_container (sbase s)) /\ i_reserved (sbase s') = i_reserved (sbase s) /\
    items_of (sbase s') = items_of (sbase s) ++ [sym_obj y id] /\ i_fields (sbase s') = i_fields (sbase s) ++ [(s_alias y, sym_obj y id)] /\
    ~ In (s_alias y) (taken (sbase s)) /\ exists s0, item_ids s0 = item_ids s /\ s' = add_to_dicts y' id (with_base s (sbase s'))
  else ys' = ys /\ s' = s.
Proof.
  unfold add_symbol. destruct (nth_error ys id) as [y|] eqn:E; [|discriminate]. intros H. exists y. split; auto.
  destruct (add_item [] (sbase s) (Thing (sym_obj y id) (s_alias y) (sym_obj y id) []) []) as [[ok b]|] eqn:A; [|discriminate].
  apply add_item_full in A. cbn [t_self t_alias] in A. destruct A as (T & R & A). destruct ok; injection H as <- <- <-.
  - destruct A as (I & F & N).
    eexists. split; [|split; [reflexivity|]].
    + destruct (s_home y); [apply alike_refl|]. destruct (is_control id); [apply alike_refl|]. repeat split.
    + assert (Q : forall y', alike y y' -> raw_dict (add_to_dicts y' id (with_base s b)) = raw_dict (add_to_dicts y id s)).
      { intros y' (_ & _ & _ & Er & _). cbn [add_to_dicts raw_dict with_base]. rewrite Er. reflexivity. }
      split; [apply Q; destruct (s_home y); [apply alike_refl|]; destruct (is_control id); [apply alike_refl|]; repeat split|].
      cbn [add_to_dicts with_base atomics unknown_count sprefix sid sbase].
      split; [reflexivity|]. split; [reflexivity|]. split; [reflexivity|]. split; [reflexivity|].
      split; [destruct (s_home y) eqn:Eh; [exact Eh|]; destruct (is_control id); [exact Eh|reflexivity]|].
      split; [exact T|]. split; [exact R|]. split; [exact I|]. split; [exact F|]. split; [exact N|]. exists s. split; reflexivity.
  - subst b. split; auto. apply with_base_same.
Qed.

Lemma add_symbol_sound ys s id added ys' s' : sound ys s -> add_symbol ys s id = Some (added, ys', s') -> sound ys' s' /\ extends ys ys' /\ length ys' = length ys.
Proof.
  intros S0 H. apply add_symbol_cases in H as (y & E & H). destruct added; [|destruct H as [-> ->]; auto using extends_refl].
  destruct H as (y' & Al & -> & _ & _ & _ & _ & _ & _ & _ & _ & I & F & N & _ & _ & Es).
  assert (X : extends ys (replace ys id y')) by (eapply extends_replace; eauto).
  assert (L : length (replace ys id y') = length ys) by apply replace_length.
  assert (Ids : all_ids s' = all_ids s ++ [id]).
  { unfold all_ids. rewrite (item_ids_app s s' (s_class y) id I). apply app_assoc. }
  split; [|split; auto]. split.
  - rewrite Ids, L. intros j J. apply in_app_iff in J as [J|[->|[]]]; [apply (sound_ids _ _ S0); auto|]. apply nth_error_Some. congruence.
  - rewrite Ids, Es. apply dicts_add; [eapply replace_same; eauto|].
    pose proof (dicts_extends _ _ _ _ X (sound_ids _ _ S0) (sound_dicts _ _ S0)) as D. exact D.
  - rewrite I. intros x J. apply in_app_iff in J as [J|[<-|[]]].
    + destruct (sound_items _ _ S0 x J) as (j & z & -> & Ez & Lz). destruct (X j z Ez) as (z' & Ez' & Az).
      exists j, z'. destruct Az as (K & Aa & _). split; [unfold sym_obj; rewrite K; reflexivity|]. split; auto. rewrite Aa, F, lookup_app, Lz. reflexivity.
    + exists id, y'. destruct Al as (K & Aa & _). split; [unfold sym_obj; rewrite K; reflexivity|]. split; [eapply replace_same; eauto|].
      rewrite Aa, F, lookup_app. rewrite (proj2 (lookup_None _ _)); [cbn [lookup]; rewrite (proj2 (str_eqb_eq _ _) eq_refl); reflexivity|].
      intros J. apply N. unfold taken. apply in_app_iff. auto.
Qed.
Lemma sound_app ys s y : sound ys s -> sound (ys ++ [y]) s.
Proof.
  intros H. pose proof (extends_app ys y) as X. split.
  - intros id I. rewrite app_length. pose proof (sound_ids _ _ H id I). lia.
  - eapply dicts_extends; [exact X|apply (sound_ids _ _ H)|apply (sound_dicts _ _ H)].
  - intros x I. destruct (sound_items _ _ H x I) as (j & z & -> & Ez & Lz). exists j, z. split; auto. split; auto. rewrite nth_error_app1; auto. apply nth_error_Some. congruence.
Qed.
Lemma sound_counted ys s : sound ys s -> sound ys (counted s).
Proof. intros H. split; [exact (sound_ids _ _ H)|exact (sound_dicts _ _ H)|exact (sound_items _ _ H)]. Qed.

Lemma add_symbols_sound ids : forall ys s l ys' s', sound ys s -> add_symbols ys s ids = Some (l, ys', s') -> sound ys' s' /\ extends ys ys'.
Proof.
  induction ids as [|id ids IH]; cbn [add_symbols]; intros ys s l ys' s' S0 H; [injection H as <- <- <-; auto using extends_refl|].
  destruct (add_symbol ys s id) as [[[ok ys1] s1]|] eqn:A; [|discriminate]. destruct (add_symbols ys1 s1 ids) as [[[l2 ys2] s2]|] eqn:B; [|discriminate].
  injection H as _ <- <-. destruct (add_symbol_sound _ _ _ _ _ _ S0 A) as (S1 & X1 & _). destruct (IH _ _ _ _ _ S1 B) as (S2 & X2). split; auto. eapply extends_trans; eauto.
Qed.
Lemma raw_from_unknown_sound ys s raw id ys' s' : sound ys s -> raw_from_unknown ys s raw = Some (id, ys', s') ->
  sound ys' s' /\ extends ys ys' /\ id = length ys /\ exists y, nth_error ys' id = Some y /\ s_raw y = raw.
Proof.
  unfold raw_from_unknown. intros S0 H. destruct (add_symbol (ys ++ [unk_symbol s raw]) (counted s) (length ys)) as [[[ok ys1] s1]|] eqn:A; [|discriminate]. injection H as <- <- <-.
  destruct (add_symbol_sound _ _ _ _ _ _ (sound_counted _ _ (sound_app _ _ (unk_symbol s raw) S0)) A) as (S1 & X1 & L).
  split; auto. split; [eapply extends_trans; [apply extends_app|exact X1]|]. split; auto.
  destruct (X1 (length ys) (unk_symbol s raw)) as (z & Ez & Al); [rewrite nth_error_app2, Nat.sub_diag by lia; reflexivity|]. exists z. split; auto. apply Al.
Qed.

(** ** Parsing: the length and the raw characters *)
Definition raw_is (ys : list symbol) (c : N) (id : nat) : Prop := exists y, nth_error ys id = Some y /\ s_raw y = [c].
Lemma raw_is_extends ys ys' c id : extends ys ys' -> raw_is ys c id -> raw_is ys' c id.
Proof. intros X (y & E & R). destruct (X id y E) as (z & Ez & Al). exists z. split; auto. destruct Al as (_ & _ & _ & -> & _). exact R. Qed.
Lemma raw_lookup_raw ys s c id : sound ys s -> lookup [c] (raw_dict s) = Some id -> raw_is ys c id.
Proof. intros S0 E. destruct (sound_dicts _ _ S0) as (_ & B & _). specialize (B [c]). rewrite E in B. destruct (latest_some _ _ _ _ (B ltac:(discriminate))) as [_ H]. exact H. Qed.
Lemma parse_sound text : forall ys s ids ys' s', sound ys s -> str_to_raw_symbols raw_from_unknown ys s text = Some (ids, ys', s') ->
  sound ys' s' /\ extends ys ys' /\ Forall2 (raw_is ys') text ids.
Proof.
  induction text as [|c text IH]; cbn [str_to_raw_symbols]; intros ys s ids ys' s' S0 H; [injection H as <- <- <-; auto using extends_refl|].
  assert (Q : forall id ys1 s1, sound ys1 s1 -> extends ys ys1 -> raw_is ys1 c id ->
    match str_to_raw_symbols raw_from_unknown ys1 s1 text with None => None | Some (ids, ys2, s2) => Some (id :: ids, ys2, s2) end = Some (ids, ys', s') ->
    sound ys' s' /\ extends ys ys' /\ Forall2 (raw_is ys') (c :: text) ids).
  { intros id ys1 s1 S1 X1 R H1. destruct (str_to_raw_symbols raw_from_unknown ys1 s1 text) as [[[l ys2] s2]|] eqn:E; [|discriminate]. injection H1 as <- <- <-.
    destruct (IH _ _ _ _ _ S1 E) as (S2 & X2 & F). split; auto. split; [eapply extends_trans; eauto|]. constructor; auto. eapply raw_is_extends; eauto. }
  destruct (lookup [c] (raw_dict s)) as [id|] eqn:L.
  - unfold raw_lookup in H. rewrite L in H. cbn [or_unk] in H. apply (Q id ys s); auto using extends_refl. eapply raw_lookup_raw; eauto.
  - destruct (raw_from_unknown ys s [c]) as [[[id ys1] s1]|] eqn:U; [|discriminate]. destruct (raw_from_unknown_sound _ _ _ _ _ _ S0 U) as (S1 & X1 & _ & R). eapply Q; eauto.
Qed.

Lemma sym_do_sound st o st' : sound (fst st) (snd st) -> sym_do st o = Some st' -> sound (fst st') (snd st') /\ extends (fst st) (fst st').
Proof.
  destruct st as [ys s]. cbn [fst snd]. intros S0. destruct o as [y|ids|raw|text]; cbn [sym_do].
  - intros E. injection E as <-. cbn [fst snd]. split; [apply sound_app; auto|apply extends_app].
  - destruct (add_symbols ys s ids) as [[[l ys1] s1]|] eqn:A; [|discriminate]. intros E. injection E as <-. eapply add_symbols_sound; eauto.
  - destruct (raw_from_unknown ys s raw) as [[[l ys1] s1]|] eqn:A; [|discriminate]. intros E. injection E as <-. cbn [fst snd]. destruct (raw_from_unknown_sound _ _ _ _ _ _ S0 A) as (S1 & X & _). auto.
  - destruct (str_to_raw_symbols raw_from_unknown ys s text) as [[[l ys1] s1]|] eqn:A; [|discriminate]. intros E. injection E as <-. cbn [fst snd]. destruct (parse_sound _ _ _ _ _ _ S0 A) as (S1 & X & _). auto.
Qed.
Lemma sym_run_sound os : forall st st', sound (fst st) (snd st) -> sym_run st os = Some st' -> sound (fst st') (snd st') /\ extends (fst st) (fst st').
Proof.
  unfold sym_run. induction os as [|o os IH]; cbn [for_each]; intros st st' S0 H; [injection H as <-; auto using extends_refl|].
  destruct (sym_do st o) as [st1|] eqn:E; [|discriminate]. destruct (sym_do_sound _ _ _ S0 E) as (S1 & X1). destruct (IH _ _ S1 H) as (S2 & X2). split; auto. eapply extends_trans; eauto.
Qed.
Lemma reached_sound n typed prefix more st : reached n typed prefix more st -> sound (fst st) (snd st).
Proof. intros (os & E). eapply sym_run_sound; [|exact E]. apply new_sound. Qed.

(** Lookups *)
Lemma lookups n typed prefix more ys s : reached n typed prefix more (ys, s) ->
  (forall i, exists r, latest ys (all_ids s) (fun y => s_index y = i) r /\ found r (sym_index_lookup s i)) /\
  (forall t, t <> [] -> exists r, latest ys (all_ids s) (fun y => s_text y = t) r /\ found r (text_lookup s t)) /\
  (forall t, t <> [] -> exists r, latest ys (all_ids s) (fun y => s_raw y = t) r /\ found r (raw_lookup s t)) /\
  text_lookup s [] = unk /\ raw_lookup s [] = unk.
Proof.
  intros R. apply reached_sound in R. cbn [fst snd] in R. destruct (sound_dicts _ _ R) as (A & B & C & D & F).
  assert (Q : forall o, found o (or_unk o)) by (intros [x|]; [left|right]; auto).
  split; [intros i; eexists; split; [apply A|apply Q]|]. split; [intros t N; eexists; split; [apply C; exact N|apply Q]|].
  split; [intros t N; eexists; split; [apply B; exact N|apply Q]|]. unfold text_lookup, raw_lookup. rewrite D, F. auto.
Qed.
Lemma aliases n typed prefix more ys s : reached n typed prefix more (ys, s) ->
  forall x, In x (items_of (sbase s)) -> exists id y, x = sym_obj y id /\ nth_error ys id = Some y /\ lookup (s_alias y) (i_fields (sbase s)) = Some x.
Proof. intros R. apply reached_sound in R. apply (sound_items _ _ R). Qed.
Lemma aliases_differ n typed prefix more ys s id id' y y' : reached n typed prefix more (ys, s) ->
  In (sym_obj y id) (items_of (sbase s)) -> In (sym_obj y' id') (items_of (sbase s)) -> nth_error ys id = Some y -> nth_error ys id' = Some y' ->
  s_alias y = s_alias y' -> id = id'.
Proof.
  intros R I I' E E' Al. destruct (aliases _ _ _ _ _ _ R _ I) as (j & z & Ez & Nz & Lz). destruct (aliases _ _ _ _ _ _ R _ I') as (j' & z' & Ez' & Nz' & Lz').
  unfold sym_obj in *. injection Ez as K1 K2. injection Ez' as K1' K2'. apply Nat2N.inj in K2, K2'. subst j j'. rewrite E in Nz. rewrite E' in Nz'. injection Nz as <-. injection Nz' as <-.
  rewrite Al in Lz. rewrite Lz in Lz'. injection Lz' as _ Q. apply Nat2N.inj in Q. exact Q.
Qed.
Lemma parse_raw n typed prefix more ys s text ids ys' s' : reached n typed prefix more (ys, s) ->
  str_to_raw_symbols raw_from_unknown ys s text = Some (ids, ys', s') ->
  length ids = length text /\ Forall2 (fun c id => exists y, nth_error ys' id = Some y /\ s_raw y = [c]) text ids.
Proof.
  intros R E. apply reached_sound in R. destruct (parse_sound _ _ _ _ _ _ R E) as (_ & _ & F). split; auto.
  clear - F. induction F; simpl; auto.
Qed.
Lemma home_first ys s id ys' s' y y' : add_symbol ys s id = Some (true, ys', s') -> nth_error ys id = Some y -> nth_error ys' id = Some y' -> 7 <= id ->
  s_home y' = Some (match s_home y with Some h => h | None => sid s end).
Proof.
  intros H E E'. apply add_symbol_cases in H as (z & Ez & z' & Al & -> & _ & _ & _ & _ & _ & Eh & _). rewrite E in Ez. injection Ez as <-.
  rewrite (replace_same _ _ _ _ E) in E'. injection E' as <-. intros L. rewrite Eh. unfold is_control. destruct (s_home y); auto. rewrite (proj2 (Nat.ltb_ge _ _)) by lia. reflexivity.
Qed.

(** ** Parsing: equal characters, equal symbols *)
Section Parse.
  Variable from_unknown : list symbol -> sinv -> str -> option (nat * list symbol * sinv).
  Variable Inv0 : list symbol -> sinv -> str -> Prop.
  Hypothesis make_ok : forall ys s c t, Inv0 ys s (c :: t) -> lookup [c] (raw_dict s) = None ->
    exists id ys1 s1, from_unknown ys s [c] = Some (id, ys1, s1) /\ Inv0 ys1 s1 t /\ lookup [c] (raw_dict s1) = Some id /\
      forall r, r <> [c] -> lookup r (raw_dict s1) = lookup r (raw_dict s).
  Hypothesis skip : forall ys s c t, Inv0 ys s (c :: t) -> lookup [c] (raw_dict s) <> None -> Inv0 ys s t.

  Lemma parse_again ys s text ids : Forall2 (fun c id => lookup [c] (raw_dict s) = Some id) text ids -> str_to_raw_symbols from_unknown ys s text = Some (ids, ys, s).
  Proof. induction 1 as [|c id text ids E F IH]; cbn [str_to_raw_symbols]; auto. rewrite E. unfold raw_lookup. rewrite E. cbn [or_unk]. rewrite IH. reflexivity. Qed.
  Lemma parse_all text : forall ys s, Inv0 ys s text -> exists ids ys' s', str_to_raw_symbols from_unknown ys s text = Some (ids, ys', s') /\ Inv0 ys' s' [] /\
    (forall r id, lookup r (raw_dict s) = Some id -> lookup r (raw_dict s') = Some id) /\
    Forall2 (fun c id => lookup [c] (raw_dict s') = Some id) text ids.
  Proof.
    induction text as [|c text IH]; intros ys s H; cbn [str_to_raw_symbols]; [exists [], ys, s; auto|].
    destruct (lookup [c] (raw_dict s)) as [id|] eqn:L.
    - destruct (IH ys s) as (ids & ys' & s' & E & H' & K & F); [eapply skip; eauto; congruence|]. unfold raw_lookup. rewrite L. cbn [or_unk]. rewrite E.
      exists (id :: ids), ys', s'. split; auto.
    - destruct (make_ok _ _ _ _ H L) as (id & ys1 & s1 & U & H1 & Lc & Lo). rewrite U. destruct (IH ys1 s1 H1) as (ids & ys' & s' & E & H' & K & F). rewrite E.
      exists (id :: ids), ys', s'. split; auto. split; auto. split; [|constructor; auto].
      intros r j Lr. apply K. rewrite Lo; auto. congruence.
  Qed.
End Parse.

(** Names of unknown symbols *)
Lemma uint_str_inj d : forall e, uint_str d = uint_str e -> d = e.
Proof. induction d; intros []; cbn [uint_str]; intros H; try discriminate; try reflexivity; injection H as H; f_equal; auto. Qed.
Lemma hex_str_inj d : forall e, hex_str d = hex_str e -> d = e.
Proof. induction d; intros []; cbn [hex_str]; intros H; try discriminate; try reflexivity; injection H as H; f_equal; auto. Qed.
Lemma unk_alias_inj n m : unk_alias n = unk_alias m -> n = m.
Proof. unfold unk_alias, decimal. intros H. apply app_inv_head in H. apply uint_str_inj, DecimalN.Unsigned.to_uint_inj in H. lia. Qed.
Lemma u_alias_inj c d : u_alias c = u_alias d -> c = d.
Proof. unfold u_alias, hexadecimal. intros H. apply app_inv_head, app_inv_head, hex_str_inj, HexadecimalN.Unsigned.to_uint_inj in H. exact H. Qed.
Lemma unk_alias_method n : ~ In (unk_alias n) method_names.
Proof. unfold unk_alias. generalize (decimal n) as d. intros d H. cbn in H. repeat destruct H as [H|H]; try discriminate H. exact H. Qed.
Lemma u_alias_method c : ~ In (u_alias c) method_names.
Proof. unfold u_alias. generalize (hexadecimal c) as d. intros d H. cbn in H. repeat destruct H as [H|H]; try discriminate H. exact H. Qed.
Lemma methods_ok b m : methods_there b -> In m method_names -> method b m = true.
Proof. intros H I. unfold method. apply negb_true_iff, has_str_not. intros J. apply (H m J I). Qed.
Lemma methods_in : In (codes "add_item") method_names /\ In (codes "valid_item") method_names /\ In (codes "_add_field") method_names.
Proof. unfold method_names. cbn [map In]. tauto. Qed.

Lemma add_item_ok b t : methods_there b -> valid_item [] (i_container b) (t_self t) = Some true -> ~ In (t_self t) (items_of b) -> ~ In (t_alias t) (taken b) ->
  exists b', add_item [] b t [] = Some (true, b').
Proof.
  intros M V N T. unfold add_item. destruct methods_in as (M1 & M2 & M3). rewrite !(methods_ok b _ M) by assumption. cbn [negb orb field_value]. rewrite V. cbn [negb orb].
  destruct (existsb (obj_eqb (t_self t)) (items_of b)) eqn:X; [apply existsb_obj in X; contradiction|]. unfold add_field.
  destruct (has_str (t_alias t) (i_reserved b)) eqn:R; [apply has_str_In in R; destruct T; apply in_app_iff; auto|].
  destruct (has_str (t_alias t) (map fst (i_fields b))) eqn:F; [apply has_str_In in F; destruct T; apply in_app_iff; auto|].
  cbn [orb]. eexists. reflexivity.
Qed.
Lemma memN_true k l : In k l -> memN k l = true.
Proof. apply memN_In. Qed.
Lemma fresh_not_item ys s y : sound ys s -> ~ In (sym_obj y (length ys)) (items_of (sbase s)).
Proof. intros H I. destruct (sound_items _ _ H _ I) as (j & z & E & Ez & _). unfold sym_obj in E. injection E as _ E. apply Nat2N.inj in E. subst j. assert (length ys < length ys) by (apply nth_error_Some; congruence). lia. Qed.

Lemma add_fresh ys s s1 y : sound ys s -> sbase s1 = sbase s -> methods_there (sbase s) -> takes_class s (s_class y) -> ~ In (s_alias y) (taken (sbase s)) ->
  exists ys' s', add_symbol (ys ++ [y]) s1 (length ys) = Some (true, ys', s').
Proof.
  intros S0 Eb M (ks & T & K) N. unfold add_symbol. rewrite nth_error_app2, Nat.sub_diag by lia. cbn [nth_error]. rewrite Eb.
  destruct (add_item_ok (sbase s) (Thing (sym_obj y (length ys)) (s_alias y) (sym_obj y (length ys)) [])) as (b' & ->); auto.
  - unfold valid_item. cbn [t_self sym_obj class_of]. rewrite T, memN_true; auto.
  - cbn [t_self]. apply fresh_not_item. exact S0.
  - eexists. eexists. reflexivity.
Qed.

(** ** Unknown characters in symbol inventories *)
Section Known.
  Variables (count0 len0 : nat) (prefix0 : N).
  Definition parse_inv (ys : list symbol) (s : sinv) (t : str) : Prop :=
    sound ys s /\ room s (length t) /\ methods_there (sbase s) /\ takes_class s sym_class /\
    sprefix s = prefix0 /\ unknown_count s + len0 = count0 + length ys /\ len0 <= length ys /\
    forall id, len0 <= id < length ys -> exists y, nth_error ys id = Some y /\ s_index y = (prefix0 + N.of_nat (count0 + 1 + (id - len0)))%N /\ s_alias y = unk_alias (count0 + 1 + (id - len0)).

  Lemma parse_inv_make ys s c t : parse_inv ys s (c :: t) -> lookup [c] (raw_dict s) = None ->
    exists id ys1 s1, raw_from_unknown ys s [c] = Some (id, ys1, s1) /\ parse_inv ys1 s1 t /\ lookup [c] (raw_dict s1) = Some id /\
      forall r, r <> [c] -> lookup r (raw_dict s1) = lookup r (raw_dict s).
  Proof.
    intros (S0 & R & M & T & P & Cn & Ln & Y) L.
    assert (N : ~ In (s_alias (unk_symbol s [c])) (taken (sbase s))) by (apply R; cbn [length]; lia).
    destruct (add_fresh ys s (counted s) (unk_symbol s [c]) S0 eq_refl M T N) as (ys' & s' & A).
    assert (U : raw_from_unknown ys s [c] = Some (length ys, ys', s')) by (unfold raw_from_unknown; rewrite A; reflexivity).
    exists (length ys), ys', s'. split; auto. destruct (raw_from_unknown_sound _ _ _ _ _ _ S0 U) as (S1 & X & _ & _).
    pose proof (add_symbol_sound _ _ _ _ _ _ (sound_counted _ _ (sound_app _ _ (unk_symbol s [c]) S0)) A) as (_ & X1 & L1). rewrite app_length in L1. cbn [length] in L1.
    apply add_symbol_cases in A as (y & E & y' & Al & Ey & Er & _ & Eu & Ep & _ & _ & Et & Ev & Ei & Ef & _ & _).
    rewrite nth_error_app2, Nat.sub_diag in E by lia. injection E as <-. cbn [counted unknown_count sprefix sbase] in *.
    split; [|split].
    - split; auto. split; [|split; [|split; [|split; [|split; [|split]]]]].
      + intros k Hk. rewrite Eu in Hk. unfold taken. rewrite Ev, Ef, map_app. intros I. rewrite app_assoc in I. apply in_app_iff in I as [I|[I|[]]].
        * apply (R k); [cbn [length]; lia|exact I].
        * cbn [fst unk_symbol s_alias] in I. apply unk_alias_inj in I. lia.
      + intros a I. rewrite Ef, map_app in I. apply in_app_iff in I as [I|[<-|[]]]; [apply M; exact I|apply unk_alias_method].
      + destruct T as (ks & Tk & K). exists ks. rewrite Et. auto.
      + congruence.
      + rewrite Eu, L1. lia.
      + rewrite L1. lia.
      + rewrite L1. intros id Hid. destruct (Nat.eq_dec id (length ys)) as [->|Nid].
        * destruct (X1 (length ys) (unk_symbol s [c])) as (z & Ez & Az); [rewrite nth_error_app2, Nat.sub_diag by lia; reflexivity|].
          exists z. split; auto. destruct Az as (_ & Aa & _ & _ & Ai). rewrite Ai, Aa. cbn [unk_symbol s_index s_alias]. rewrite P.
          replace (S (unknown_count s)) with (count0 + 1 + (length ys - len0)) by lia. auto.
        * destruct (Y id) as (z & Ez & I1 & I2); [lia|]. destruct (X id z Ez) as (w & Ew & Aw). exists w. split; auto. destruct Aw as (_ & Aa & _ & _ & Ai). rewrite Ai, Aa. auto.
    - rewrite Er. cbn [add_to_dicts raw_dict unk_symbol s_raw]. rewrite lookup_set, (proj2 (str_eqb_eq _ _) eq_refl). reflexivity.
    - intros r Nr. rewrite Er. cbn [add_to_dicts raw_dict unk_symbol s_raw]. rewrite lookup_set. destruct (str_eqb_spec r [c]); [contradiction|reflexivity].
  Qed.
  Lemma parse_inv_skip ys s c t : parse_inv ys s (c :: t) -> lookup [c] (raw_dict s) <> None -> parse_inv ys s t.
  Proof. intros (S0 & R & Q) _. split; auto. split; auto. intros k Hk. apply R. cbn [length]. lia. Qed.
End Known.

Lemma pairs_same (f : N -> option nat) text ids i j c d x y : Forall2 (fun c id => f c = Some id) text ids ->
  nth_error text i = Some c -> nth_error text j = Some d -> nth_error ids i = Some x -> nth_error ids j = Some y -> f c = Some x /\ f d = Some y.
Proof.
  intros F. assert (Q : forall i c x, nth_error text i = Some c -> nth_error ids i = Some x -> f c = Some x).
  { induction F as [|a b text ids H F IH]; intros [|k] u v; cbn [nth_error]; try discriminate; [congruence|apply IH]. }
  eauto.
Qed.
Lemma raw_is_unique ys c d id : raw_is ys c id -> raw_is ys d id -> c = d.
Proof. intros (y & E & R) (z & E' & R'). congruence. Qed.

Lemma parse_symbols n typed prefix more ys s text : reached n typed prefix more (ys, s) ->
  In sym_class typed -> methods_there (sbase s) -> room s (length text) ->
  exists ids ys' s', str_to_raw_symbols raw_from_unknown ys s text = Some (ids, ys', s') /\
    (forall i j c d x y, nth_error text i = Some c -> nth_error text j = Some d -> nth_error ids i = Some x -> nth_error ids j = Some y -> (c = d <-> x = y)) /\
    (forall r id, r <> [] -> raw_lookup s r = id -> id <> unk -> raw_lookup s' r = id) /\
    Forall2 (fun c id => raw_lookup s' [c] = id) text ids /\
    (forall id, length ys <= id < length ys' -> exists y k, nth_error ys' id = Some y /\ k = unknown_count s + 1 + (id - length ys) /\
      s_index y = (sprefix s + N.of_nat k)%N /\ s_alias y = unk_alias k) /\
    str_to_raw_symbols raw_from_unknown ys' s' text = Some (ids, ys', s').
Proof.
  intros Re K M Ro.
  assert (Ty : c_type (i_container (sbase s)) = Some typed).
  { destruct Re as (os & E). revert E. assert (T0 : c_type (i_container (sbase (snd (controls, new_sinv n typed prefix more)))) = Some typed) by reflexivity.
    assert (G : forall ys s id added ys' s', add_symbol ys s id = Some (added, ys', s') -> c_type (i_container (sbase s')) = c_type (i_container (sbase s))).
    { intros a b id added a' b' H. apply add_symbol_cases in H as (y & _ & H). destruct added; [|destruct H as [_ ->]; reflexivity]. destruct H as (y' & _ & _ & _ & _ & _ & _ & _ & _ & Q & _). exact Q. }
    assert (G1 : forall ids ys s l ys' s', add_symbols ys s ids = Some (l, ys', s') -> c_type (i_container (sbase s')) = c_type (i_container (sbase s))).
    { induction ids as [|id ids IH]; cbn [add_symbols]; intros a b l a' b' H; [injection H as _ _ <-; reflexivity|].
      destruct (add_symbol a b id) as [[[ok a1] b1]|] eqn:A; [|discriminate]. destruct (add_symbols a1 b1 ids) as [[[l2 a2] b2]|] eqn:B; [|discriminate]. injection H as _ _ <-.
      rewrite (IH _ _ _ _ _ B). eapply G; eauto. }
    assert (G2 : forall a b r id a' b', raw_from_unknown a b r = Some (id, a', b') -> c_type (i_container (sbase b')) = c_type (i_container (sbase b))).
    { intros a b r id a' b'. unfold raw_from_unknown. destruct (add_symbol (a ++ [unk_symbol b r]) (counted b) (length a)) as [[[ok a1] b1]|] eqn:A; [|discriminate]. intros H. injection H as _ _ <-. apply G in A. exact A. }
    assert (G3 : forall t a b l a' b', str_to_raw_symbols raw_from_unknown a b t = Some (l, a', b') -> c_type (i_container (sbase b')) = c_type (i_container (sbase b))).
    { induction t as [|c t IH]; cbn [str_to_raw_symbols]; intros a b l a' b' H; [injection H as _ _ <-; reflexivity|].
      destruct (lookup [c] (raw_dict b)) as [x|].
      - destruct (str_to_raw_symbols raw_from_unknown a b t) as [[[l2 a2] b2]|] eqn:B; [|discriminate]. injection H as _ _ <-. eapply IH; eauto.
      - destruct (raw_from_unknown a b [c]) as [[[x a1] b1]|] eqn:U; [|discriminate]. destruct (str_to_raw_symbols raw_from_unknown a1 b1 t) as [[[l2 a2] b2]|] eqn:B; [|discriminate]. injection H as _ _ <-.
        rewrite (IH _ _ _ _ _ B). eapply G2; eauto. }
    revert T0. generalize (controls, new_sinv n typed prefix more) as st. unfold sym_run. induction os as [|o os IH]; cbn [for_each]; intros [a b] T0 E; [injection E as -> ->; exact T0|].
    destruct (sym_do (a, b) o) as [[a1 b1]|] eqn:D; [|discriminate]. apply (IH (a1, b1)); auto. cbn [snd] in *. rewrite <- T0. clear E IH.
    destruct o as [y|ids|raw|t]; cbn [sym_do] in D.
    - injection D as _ <-. reflexivity.
    - destruct (add_symbols a b ids) as [[[l a2] b2]|] eqn:A; [|discriminate]. injection D as _ <-. eapply G1; eauto.
    - destruct (raw_from_unknown a b raw) as [[[l a2] b2]|] eqn:A; [|discriminate]. injection D as _ <-. eapply G2; eauto.
    - destruct (str_to_raw_symbols raw_from_unknown a b t) as [[[l a2] b2]|] eqn:A; [|discriminate]. injection D as _ <-. eapply G3; eauto. }
  assert (S0 := reached_sound _ _ _ _ _ Re). cbn [fst snd] in S0.
  assert (I0 : parse_inv (unknown_count s) (length ys) (sprefix s) ys s text).
  { split; auto. split; auto. split; auto. split; [exists typed; auto|]. split; auto. split; auto. split; auto. intros id H. lia. }
  destruct (parse_all raw_from_unknown _ (parse_inv_make _ _ _) (parse_inv_skip _ _ _) text ys s I0) as (ids & ys' & s' & E & I1 & Kp & F).
  destruct I1 as (S1 & _ & _ & _ & _ & _ & _ & Y).
  exists ids, ys', s'. split; auto. split; [|split; [|split; [|split]]].
  - intros i j c d x y Ec Ed Ex Ey. destruct (pairs_same (fun c => lookup [c] (raw_dict s')) text ids i j c d x y F Ec Ed Ex Ey) as [A B]. split; [congruence|]. intros <-.
    eapply raw_is_unique; eapply raw_lookup_raw; eauto.
  - intros r id _ <- Nu. unfold raw_lookup in *. destruct (lookup r (raw_dict s)) as [x|] eqn:Lx; [|contradiction]. rewrite (Kp _ _ Lx). reflexivity.
  - clear - F. induction F as [|c id text ids H F IH]; constructor; auto. unfold raw_lookup. rewrite H. reflexivity.
  - intros id Hid. destruct (Y id Hid) as (y & Ey & A & B). exists y, (unknown_count s + 1 + (id - length ys)). auto.
  - apply parse_again. exact F.
Qed.
