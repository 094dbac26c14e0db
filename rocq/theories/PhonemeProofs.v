From Coq Require Import Ascii String.
From Verif Require Import Base ContainerModel ContainerSpec ContainerProofs InventoryModel InventorySpec InventoryProofs OperationModel OperationProofs SymbolModel SymbolSpec SymbolProofs GraphemeProofs.
Local Open Scope list_scope.

Lemma phoneme_index_inj lang k k' : phoneme_index lang k = phoneme_index lang k' -> k = k'.
Proof. unfold phoneme_index. lia. Qed.

Lemma sound_outside ys s id z : sound ys s -> ~ In id (all_ids s) -> sound (replace ys id z) s.
Proof.
  intros H N.
  assert (Q : forall (P : symbol -> Prop) j, In j (all_ids s) -> (has_prop ys P j <-> has_prop (replace ys id z) P j)).
  { intros P j J. unfold has_prop. rewrite replace_other; [tauto|]. intros ->. contradiction. }
  split.
  - rewrite replace_length. apply (sound_ids _ _ H).
  - destruct (sound_dicts _ _ H) as (A & B & C & D). split; [|split; [|split; [|exact D]]].
    + intros i. eapply latest_same; [apply Q|apply A].
    + intros r R. eapply latest_same; [apply Q|apply B; exact R].
    + intros r R. eapply latest_same; [apply Q|apply C; exact R].
  - intros x I. destruct (sound_items _ _ H x I) as (j & y & -> & E & L). exists j, y. split; auto. split; auto. rewrite replace_other; auto.
    intros <-. apply N. unfold all_ids, item_ids. apply in_app_iff. right. apply in_flat_map. exists (sym_obj y id). split; auto. cbn [sym_obj]. rewrite Nat2N.id. left. reflexivity.
Qed.

Definition numbered_items (lang : N) (ys : list symbol) (s : sinv) : Prop :=
  sound ys s /\ length (item_ids s) = length (items_of (sbase s)) /\
  (forall j, j < 7 -> exists y, nth_error ys j = Some y /\ (s_index y < 2000000)%N) /\
  (forall id, In id (item_ids s) -> 7 <= id) /\
  forall k id, nth_error (item_ids s) k = Some id -> exists y, nth_error ys id = Some y /\ s_index y = phoneme_index lang k.

Lemma atomic_items ys s id added ys' s' : add_symbol_and_atomic ys s id = Some (added, ys', s') -> sound ys s ->
  sound ys' s' /\ extends ys ys' /\
  ((item_ids s' = item_ids s /\ items_of (sbase s') = items_of (sbase s)) \/ (item_ids s' = item_ids s ++ [id] /\ length (items_of (sbase s')) = S (length (items_of (sbase s))))).
Proof.
  intros A S0. apply atomic_cases in A as (y & ok & s1 & E & A & B). destruct (add_symbol_sound _ _ _ _ _ _ S0 A) as (S1 & X & _).
  assert (Q : sound ys' s' /\ sbase s' = sbase s1).
  { destruct ok; [destruct B as (b & _ & ->); split; [apply sound_atomics; exact S1|reflexivity]|destruct B as [_ ->]; auto]. }
  destruct Q as (S2 & Eb). split; auto. split; auto. apply add_symbol_cases in A as (y0 & E0 & A). rewrite E in E0. injection E0 as <-. unfold item_ids in *. rewrite Eb.
  destruct ok; [|destruct A as [_ ->]; auto]. destruct A as (y' & _ & _ & _ & _ & _ & _ & _ & _ & _ & _ & I & _). right.
  split; [exact (item_ids_app s s1 (s_class y) id I)|]. rewrite I, app_length. cbn [length]. lia.
Qed.

Lemma add_phonemes_numbered lang ids : forall ys s ys' s', numbered_items lang ys s -> NoDup ids -> (forall id, In id ids -> 7 <= id /\ ~ In id (item_ids s)) ->
  add_phonemes ys s lang ids = Some (ys', s') -> numbered_items lang ys' s' /\ exists more, item_ids s' = item_ids s ++ more /\ forall id, In id more -> In id ids.
Proof.
  induction ids as [|id ids IH]; cbn [add_phonemes]; intros ys s ys' s' H N Q E; [injection E as <- <-; split; auto; exists []; rewrite app_nil_r; split; auto|].
  destruct (add_phoneme ys s lang id) as [[[ad ys1] s1]|] eqn:A; [|discriminate]. inversion N as [|x l N1 N2]; subst.
  unfold add_phoneme in A. destruct (nth_error ys id) as [y|] eqn:Ey; [|discriminate]. destruct H as (S0 & L & C & I7 & K). destruct (Q id (or_introl eq_refl)) as (L7 & Nid).
  set (z := set_index y (PHONEME_PREFIX + lang * LANG_PREFIX_MULTIPLIER + N.of_nat (length (items_of (sbase s))) + 1)%N) in A.
  assert (Sz : sound (replace ys id z) s).
  { apply sound_outside; auto. unfold all_ids. intros J. apply in_app_iff in J as [J|J]; auto. apply in_seq in J. lia. }
  destruct (atomic_items _ _ _ _ _ _ A Sz) as (S1 & X & D).
  assert (Z : exists w, nth_error ys1 id = Some w /\ s_index w = phoneme_index lang (length (item_ids s))).
  { destruct (X id z) as (w & Ew & Aw); [eapply replace_same; eauto|]. exists w. split; auto. destruct Aw as (_ & _ & _ & _ & ->). unfold z, phoneme_index. rewrite L. reflexivity. }
  assert (O : forall j w, j <> id -> nth_error ys j = Some w -> exists w', nth_error ys1 j = Some w' /\ s_index w' = s_index w).
  { intros j w Nj Ew. destruct (X j w) as (w' & Ew' & Aw); [rewrite replace_other; auto|]. exists w'. split; auto. apply Aw. }
  assert (M : numbered_items lang ys1 s1).
  { split; auto. split; [|split; [|split]].
    - destruct D as [[-> ->]|[-> ->]]; [exact L|]. rewrite app_length. cbn [length]. lia.
    - intros j Lj. destruct (C j Lj) as (w & Ew & Iw). destruct (O j w) as (w' & Ew' & Iw'); auto; [lia|]. exists w'. split; auto. rewrite Iw'. exact Iw.
    - intros j J. destruct D as [[D _]|[D _]]; rewrite D in J; auto. apply in_app_iff in J as [J|[<-|[]]]; auto.
    - intros k j J. assert (Old : nth_error (item_ids s) k = Some j -> exists w, nth_error ys1 j = Some w /\ s_index w = phoneme_index lang k).
      { intros J'. destruct (K k j J') as (w & Ew & Iw). destruct (O j w) as (w' & Ew' & Iw'); auto; [|exists w'; split; auto; congruence]. intros ->. apply Nid. eapply nth_error_In; eauto. }
      destruct D as [[D _]|[D _]]; rewrite D in J; auto.
      destruct (lt_dec k (length (item_ids s))) as [Lk|Lk]; [rewrite nth_error_app1 in J; auto|]. rewrite nth_error_app2 in J by lia.
      destruct (k - length (item_ids s)) as [|m] eqn:Em; [|destruct m; discriminate J]. injection J as <-. replace k with (length (item_ids s)) by lia. exact Z. }
  destruct (IH ys1 s1 ys' s' M N2) as (M' & more & Em & Im); auto.
  - intros j J. destruct (Q j (or_intror J)) as (L1 & L2). split; auto. destruct D as [[-> _]|[-> _]]; auto. intros W. apply in_app_iff in W as [W|[<-|[]]]; auto.
  - split; auto. destruct D as [[D _]|[D _]]; rewrite D in Em.
    + exists more. split; auto. intros j J. right. auto.
    + exists (id :: more). split; [rewrite Em, <- app_assoc; reflexivity|]. intros j [<-|J]; [left; reflexivity|right; auto].
Qed.

Lemma numbered_lookup lang ys s k id : numbered_items lang ys s -> nth_error (item_ids s) k = Some id -> sym_index_lookup s (phoneme_index lang k) = id.
Proof.
  intros (S0 & L & C & I7 & K) E. destruct (K k id E) as (y & Ey & Iy). destruct (sound_dicts _ _ S0) as (A & _). specialize (A (phoneme_index lang k)). unfold sym_index_lookup.
  destruct (dict_get (phoneme_index lang k) (s_index_dict s)) as [x|]; cbn [or_unk].
  - destruct (latest_some _ _ _ _ A) as (I & (w & Ew & Iw)). unfold all_ids in I. apply in_app_iff in I as [I|I].
    + apply in_seq in I. destruct (C x) as (w' & Ew' & Lw); [lia|]. rewrite Ew in Ew'. injection Ew' as <-. unfold phoneme_index in Iw. lia.
    + apply In_nth_error in I as (k' & E'). destruct (K k' x E') as (w' & Ew' & Iw'). rewrite Ew in Ew'. injection Ew' as <-. rewrite Iw in Iw'. apply phoneme_index_inj in Iw'. subst k'. congruence.
  - exfalso. apply (A id); [|exists y; auto]. unfold all_ids. apply in_app_iff. right. eapply nth_error_In; eauto.
Qed.

Lemma new_numbered lang n more : numbered_items lang (controls ++ more) (phon_inventory n).
Proof.
  pose proof (new_sound n [phon_class] UNDEFINED_PREFIX phon_attributes) as S0.
  assert (X : extends controls (controls ++ more)).
  { intros id z E. exists z. split; auto using alike_refl. rewrite nth_error_app1; auto. apply nth_error_Some. congruence. }
  split; [|split; [reflexivity|split; [|split; [intros id []|intros [|k] id E; discriminate E]]]].
  - split.
    + intros id I. pose proof (sound_ids _ _ S0 id I). rewrite app_length. lia.
    + eapply dicts_extends; [exact X|apply (sound_ids _ _ S0)|apply (sound_dicts _ _ S0)].
    + intros x [].
  - intros j Lj. do 7 (destruct j as [|j]; [eexists; split; [reflexivity|reflexivity]|]). lia.
Qed.

(** Phonemes of a language have the indices after its prefix, in order. *)
Lemma phonemes_indexed n lang more ids ys' s' : NoDup ids -> (forall id, In id ids -> 7 <= id) ->
  add_phonemes (controls ++ more) (phon_inventory n) lang ids = Some (ys', s') ->
  (forall id, In id (item_ids s') -> In id ids) /\
  forall k id, nth_error (item_ids s') k = Some id ->
    (exists y, nth_error ys' id = Some y /\ s_index y = phoneme_index lang k) /\ sym_index_lookup s' (phoneme_index lang k) = id.
Proof.
  intros N L E. destruct (add_phonemes_numbered lang ids _ _ ys' s' (new_numbered lang n more) N (fun id I => conj (L id I) (fun F => F)) E) as (M & l & El & Il).
  split; [intros id I; rewrite El in I; apply Il; exact I|]. intros k id Ek. split; [apply M; exact Ek|eapply numbered_lookup; eauto].
Qed.

Lemma ranges_disjoint :
  (forall lang k lang' k', (lang < 8000 \/ 9000 < lang)%N -> (lang' < 8000 \/ 9000 < lang')%N -> k < 100 -> k' < 100 ->
     phoneme_index lang k = phoneme_index lang' k' -> lang = lang' /\ k = k') /\
  (forall lang k k', (lang < 8000 \/ 9000 < lang)%N -> k < 100 -> (N.of_nat k' < 100100)%N -> phoneme_index lang k <> phoneme_index 8000 k') /\
  (forall lang k c, (c < 1000000)%N -> phoneme_index lang k <> (2000000 + c)%N) /\
  (forall c d, (2000000 + c)%N = (2000000 + d)%N -> c = d) /\
  (forall lang k y, In y controls -> s_index y <> phoneme_index lang k) /\
  forall c y, In y controls -> s_index y <> (2000000 + c)%N.
Proof.
  assert (Q : forall y, In y controls -> (s_index y < 2000000)%N).
  { intros y I. unfold controls in I. cbn [map] in I. repeat destruct I as [<-|I]; try reflexivity. destruct I. }
  unfold phoneme_index. split; [|split; [|split; [|split; [|split]]]].
  - intros lang k lang' k' A B C D E. assert (lang = lang') by lia. split; auto. subst. lia.
  - intros lang k k' A B C. lia.
  - intros lang k c A. lia.
  - intros c d E. lia.
  - intros lang k y I. specialize (Q y I). lia.
  - intros c y I. specialize (Q y I). lia.
Qed.

(** ** What goes wrong *)
Lemma hundred_first : exists ids ys' s' y, add_phonemes (controls ++ map phoneme (seq 0 101)) (phon_inventory 0) 5 ids = Some (ys', s') /\ ids = seq 7 101 /\
  nth_error ys' 107 = Some y /\ s_index y = phoneme_index 6 0.
Proof. exists (seq 7 101). eexists _, _, _. split; [vm_compute; reflexivity|]. split; [reflexivity|]. split; [vm_compute; reflexivity|]. vm_compute. reflexivity. Qed.
Lemma private_use : exists c, (c < 1114112)%N /\ s_index (grapheme_of c) = phoneme_index 0 0.
Proof. exists 1000001%N. split; reflexivity. Qed.
(** Adding a phoneme again is refused, but changes its index: it is not found any more. *)
Lemma stale_index : exists ys' s' y, add_phonemes (controls ++ [phoneme 0; phoneme 1]) (phon_inventory 0) 5 [7; 8; 7] = Some (ys', s') /\
  item_ids s' = [7; 8] /\ nth_error ys' 7 = Some y /\ sym_index_lookup s' (s_index y) = unk /\ sym_index_lookup s' (phoneme_index 5 0) = 7.
Proof. eexists _, _, _. split; [vm_compute; reflexivity|]. repeat split. Qed.
(** A phoneme that is added to a second inventory has another index in it, and the first does not find it by that. *)
Lemma second_inventory : exists ys1 s1 ys2 s2 y, add_phonemes (controls ++ [phoneme 0]) (phon_inventory 0) 5 [7] = Some (ys1, s1) /\
  add_phonemes ys1 (phon_inventory 1) 6 [7] = Some (ys2, s2) /\ nth_error ys2 7 = Some y /\
  s_home y = Some 0 /\ sym_index_lookup s1 (s_index y) = unk /\ sym_index_lookup s1 (phoneme_index 5 0) = 7.
Proof. eexists _, _, _, _, _. split; [vm_compute; reflexivity|]. split; [vm_compute; reflexivity|]. repeat split. Qed.
