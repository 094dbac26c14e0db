(** Symbol inventories. *)
From Coq Require Import Ascii String.
From Verif Require Import Base ContainerModel InventoryModel InventorySpec OperationModel SymbolModel SymbolSpec SymbolProofs GraphemeProofs PhonemeProofs NumeralSpec SymbolNumbers.
Local Open Scope list_scope.

(** ** C23 *)
(** After any history a lookup gives the last symbol added with that index, text or raw text, else the control
    symbol with it, else the unknown symbol. *)
Theorem C23_lookups : forall n typed prefix more ys s, reached n typed prefix more (ys, s) ->
  (forall i, exists r, latest ys (all_ids s) (fun y => s_index y = i) r /\ found r (sym_index_lookup s i)) /\
  (forall t, t <> [] -> exists r, latest ys (all_ids s) (fun y => s_text y = t) r /\ found r (text_lookup s t)) /\
  (forall t, t <> [] -> exists r, latest ys (all_ids s) (fun y => s_raw y = t) r /\ found r (raw_lookup s t)) /\
  text_lookup s [] = unk /\ raw_lookup s [] = unk.
Proof. exact lookups. Qed.
Print Assumptions C23_lookups.
Theorem C23_latest_unique : forall ys ids P r r', latest ys ids P r -> latest ys ids P r' -> r = r'.
Proof. exact latest_unique. Qed.
Print Assumptions C23_latest_unique.
(** The alias of every item finds it. *)
Theorem C23_aliases : forall n typed prefix more ys s, reached n typed prefix more (ys, s) -> forall x, In x (items_of (sbase s)) ->
  exists id y, x = sym_obj y id /\ nth_error ys id = Some y /\ lookup (s_alias y) (i_fields (sbase s)) = Some x.
Proof. exact aliases. Qed.
Print Assumptions C23_aliases.
Theorem C23_aliases_differ : forall n typed prefix more ys s id id' y y', reached n typed prefix more (ys, s) ->
  In (sym_obj y id) (items_of (sbase s)) -> In (sym_obj y' id') (items_of (sbase s)) -> nth_error ys id = Some y -> nth_error ys id' = Some y' ->
  s_alias y = s_alias y' -> id = id' .
Proof. exact aliases_differ. Qed.
Print Assumptions C23_aliases_differ.
(** The inventory of a symbol is the first it was added to. *)
Theorem C23_home : forall ys s id ys' s' y y', add_symbol ys s id = Some (true, ys', s') -> nth_error ys id = Some y -> nth_error ys' id = Some y' -> 7 <= id ->
  s_home y' = Some (match s_home y with Some h => h | None => sid s end).
Proof. exact home_first. Qed.
Print Assumptions C23_home.
(** Parsing keeps the length and the characters. *)
Theorem C23_parse_raw : forall n typed prefix more ys s text ids ys' s', reached n typed prefix more (ys, s) ->
  str_to_raw_symbols raw_from_unknown ys s text = Some (ids, ys', s') ->
  length ids = length text /\ Forall2 (fun c id => exists y, nth_error ys' id = Some y /\ s_raw y = [c]) text ids.
Proof. exact parse_raw. Qed.
Print Assumptions C23_parse_raw.
(** Equal characters get equal symbols, others different ones; new symbols are numbered; parsing again gives
    the same and changes nothing. *)
Theorem C23_parse : forall n typed prefix more ys s text, reached n typed prefix more (ys, s) ->
  In sym_class typed -> methods_there (sbase s) -> room s (length text) ->
  exists ids ys' s', str_to_raw_symbols raw_from_unknown ys s text = Some (ids, ys', s') /\
    (forall i j c d x y, nth_error text i = Some c -> nth_error text j = Some d -> nth_error ids i = Some x -> nth_error ids j = Some y -> (c = d <-> x = y)) /\
    (forall r id, r <> [] -> raw_lookup s r = id -> id <> unk -> raw_lookup s' r = id) /\
    Forall2 (fun c id => raw_lookup s' [c] = id) text ids /\
    (forall id, length ys <= id < length ys' -> exists y k, nth_error ys' id = Some y /\ k = unknown_count s + 1 + (id - length ys) /\
      s_index y = (sprefix s + N.of_nat k)%N /\ s_alias y = unk_alias k) /\
    str_to_raw_symbols raw_from_unknown ys' s' text = Some (ids, ys', s').
Proof. exact parse_symbols. Qed.
Print Assumptions C23_parse.
Theorem C23_grapheme_lookups : forall n prefix ys s, reached_graphemes n prefix (ys, s) ->
  (forall i, exists r, latest ys (all_ids s) (fun y => s_index y = i) r /\ found r (sym_index_lookup s i)) /\
  (forall t, t <> [] -> exists r, latest ys (all_ids s) (fun y => s_text y = t) r /\ found r (text_lookup s t)) /\
  (forall t, t <> [] -> exists r, latest ys (all_ids s) (fun y => s_raw y = t) r /\ found r (raw_lookup s t)).
Proof. exact grapheme_lookups. Qed.
Print Assumptions C23_grapheme_lookups.
Theorem C23_grapheme_length : forall n prefix ys s text ids ys' s', reached_graphemes n prefix (ys, s) ->
  str_to_raw_symbols grapheme_from_unknown ys s text = Some (ids, ys', s') -> length ids = length text.
Proof. exact grapheme_length. Qed.
Print Assumptions C23_grapheme_length.
(** The same for graphemes, whose new symbols have the code point in their index. *)
Theorem C23_grapheme_parse : forall n prefix ys s text, reached_graphemes n prefix (ys, s) -> methods_there (sbase s) -> methods_there (atomics s) ->
  (forall c, In c text -> raw_lookup s [c] = unk -> ~ In (u_alias c) (taken (sbase s)) /\ ~ In (u_alias c) (taken (atomics s))) ->
  exists ids ys' s', str_to_raw_symbols grapheme_from_unknown ys s text = Some (ids, ys', s') /\
    Forall2 (fun c id => raw_lookup s' [c] = id /\ exists y, nth_error ys' id = Some y /\ s_raw y = [c]) text ids /\
    (forall i j c d x y, nth_error text i = Some c -> nth_error text j = Some d -> nth_error ids i = Some x -> nth_error ids j = Some y -> (c = d <-> x = y)) /\
    (forall c id, In (c, id) (combine text ids) -> raw_lookup s [c] = unk ->
       length ys <= id /\ exists y, nth_error ys' id = Some y /\ s_index y = (2000000 + c)%N /\ s_alias y = u_alias c /\ s_text y = [c]) /\
    str_to_raw_symbols grapheme_from_unknown ys' s' text = Some (ids, ys', s').
Proof. exact parse_graphemes. Qed.
Print Assumptions C23_grapheme_parse.
(** An inventory of phonemes never takes the unknown symbols: equal characters get different symbols. *)
Theorem C23_typed_refuted : exists ids ys' s', str_to_raw_symbols raw_from_unknown controls (new_sinv 0 [phon_class] UNDEFINED_PREFIX phon_attributes) [97; 97]%N = Some (ids, ys', s') /\
  ids = [7; 8] /\ items_of (sbase s') = [] /\ raw_lookup s' [97%N] = unk.
Proof. exact typed_unknown. Qed.
Print Assumptions C23_typed_refuted.
Theorem C23_alias_taken_refuted : exists ys s ids ys' s', reached 0 [sym_class] UNDEFINED_PREFIX [] (ys, s) /\
  str_to_raw_symbols raw_from_unknown ys s [97; 97]%N = Some (ids, ys', s') /\ ids = [8; 9].
Proof. exact unknown_alias_taken. Qed.
Print Assumptions C23_alias_taken_refuted.
Theorem C23_index_taken_refuted : exists ys s ids ys' s', reached 0 [sym_class] UNDEFINED_PREFIX [] (ys, s) /\
  sym_index_lookup s 9000001 = 7 /\ str_to_raw_symbols raw_from_unknown ys s [97]%N = Some (ids, ys', s') /\ sym_index_lookup s' 9000001 = 8 /\ In 7 (item_ids s').
Proof. exact unknown_index_taken. Qed.
Print Assumptions C23_index_taken_refuted.
(** A character whose alias is taken is lost: it becomes the control symbol nor. *)
Theorem C23_grapheme_alias_refuted : exists ys s ids ys' s', reached_graphemes 0 2215000 (ys, s) /\
  str_to_raw_symbols grapheme_from_unknown ys s [97; 98]%N = Some (ids, ys', s') /\ ids = [7; nor].
Proof. exact grapheme_alias_taken. Qed.
Print Assumptions C23_grapheme_alias_refuted.
(** A combined inventory given to a grapheme inventory is ignored unless it is a grapheme inventory itself. *)
Theorem C23_combined_refuted : exists ys self other ids ys' s', reached 1 [sym_class; grapheme_class] UNDEFINED_PREFIX [] (ys, other) /\ raw_lookup other [97%N] = 7 /\
  self = new_sinv 0 [grapheme_class] 2215000 grapheme_attributes /\
  str_to_raw_symbols grapheme_from_unknown ys (chosen (fun sub super => N.eqb sub super || N.eqb super 0) 1 0 self other) [97%N] = Some (ids, ys', s') /\ ids = [8].
Proof. exact combined_ignored. Qed.
Print Assumptions C23_combined_refuted.

(** a and b, then "abca" *)
Example C23_example : exists ys s ids ys' s', reached 0 [sym_class] UNDEFINED_PREFIX [] (ys, s) /\ room s 4 /\ methods_there (sbase s) /\
  map (sym_index_lookup s) [1; 2; 3; 1000003]%N = [7; 8; unk; 3] /\ raw_lookup s [98%N] = 8 /\
  str_to_raw_symbols raw_from_unknown ys s [97; 98; 99; 97]%N = Some (ids, ys', s') /\ ids = [7; 8; 9; 7] /\ sym_index_lookup s' 9000001 = 9.
Proof.
  eexists _, _, _, _, _. split; [exists [NewSymbol (letter sym_class "a" 97 1); NewSymbol (letter sym_class "b" 98 2); AddSymbols [7; 8]]; vm_compute; reflexivity|].
  split; [|split; [|split; [vm_compute; reflexivity|split; [vm_compute; reflexivity|split; [vm_compute; reflexivity|split; reflexivity]]]]].
  - intros k _ I. unfold unk_alias in I. revert I. generalize (decimal k) as d. intros d I. cbn in I. repeat destruct I as [I|I]; try discriminate I; exact I.
  - intros a I J. cbn in I, J. repeat destruct I as [<-|I]; repeat (destruct J as [J|J]; try discriminate J); contradiction.
Qed.
Example C23_grapheme_example : exists ids ys' s', str_to_raw_symbols grapheme_from_unknown controls (new_sinv 0 [grapheme_class] 2215000 grapheme_attributes) [97; 98; 97]%N = Some (ids, ys', s') /\
  ids = [7; 8; 7] /\ sym_index_lookup s' 2000098 = 8 /\ item_aliases (sbase s') = [codes "u_0x61"; codes "u_0x62"].
Proof. eexists _, _, _. split; [vm_compute; reflexivity|]. repeat split. Qed.

(** The numbers in the aliases of unknown symbols are decimal and hexadecimal numerals. *)
Theorem C23_unknown_alias : forall n, exists ds, unk_alias n = codes "from_unk_" ++ ds /\ numeral 10 ds (N.of_nat n).
Proof. exact unk_alias_numeral. Qed.
Print Assumptions C23_unknown_alias.
Theorem C23_grapheme_alias : forall c, exists ds, u_alias c = codes "u_0x" ++ ds /\ numeral 16 ds c.
Proof. exact u_alias_numeral. Qed.
Print Assumptions C23_grapheme_alias.
Example C23_alias_example : unk_alias 1203 = codes "from_unk_1203" /\ u_alias 2309 = codes "u_0x905" /\ numeral 16 (codes "905") 2309.
Proof. repeat split; try reflexivity; [repeat constructor; cbv; intuition discriminate|right; eexists _, _; split; [reflexivity|discriminate]]. Qed.

(** ** C53 *)
(** Phonemes of a language are numbered in order and found by their index. *)
Theorem C53_phonemes : forall n lang more ids ys' s', NoDup ids -> (forall id, In id ids -> 7 <= id) ->
  add_phonemes (controls ++ more) (phon_inventory n) lang ids = Some (ys', s') ->
  (forall id, In id (item_ids s') -> In id ids) /\
  forall k id, nth_error (item_ids s') k = Some id ->
    (exists y, nth_error ys' id = Some y /\ s_index y = phoneme_index lang k) /\ sym_index_lookup s' (phoneme_index lang k) = id.
Proof. exact phonemes_indexed. Qed.
Print Assumptions C53_phonemes.
(** Indices of controls, graphemes and phonemes of different languages differ, for code points below a million
    and less than a hundred phonemes in a language (100100 in the unified inventory). *)
Theorem C53_disjoint : (forall lang k lang' k', (lang < 8000 \/ 9000 < lang)%N -> (lang' < 8000 \/ 9000 < lang')%N -> k < 100 -> k' < 100 ->
     phoneme_index lang k = phoneme_index lang' k' -> lang = lang' /\ k = k') /\
  (forall lang k k', (lang < 8000 \/ 9000 < lang)%N -> k < 100 -> (N.of_nat k' < 100100)%N -> phoneme_index lang k <> phoneme_index 8000 k') /\
  (forall lang k c, (c < 1000000)%N -> phoneme_index lang k <> (2000000 + c)%N) /\
  (forall c d, (2000000 + c)%N = (2000000 + d)%N -> c = d) /\
  (forall lang k y, In y controls -> s_index y <> phoneme_index lang k) /\
  forall c y, In y controls -> s_index y <> (2000000 + c)%N.
Proof. exact ranges_disjoint. Qed.
Print Assumptions C53_disjoint.
Theorem C53_hundred_first_refuted : exists ids ys' s' y, add_phonemes (controls ++ map phoneme (seq 0 101)) (phon_inventory 0) 5 ids = Some (ys', s') /\ ids = seq 7 101 /\
  nth_error ys' 107 = Some y /\ s_index y = phoneme_index 6 0.
Proof. exact hundred_first. Qed.
Print Assumptions C53_hundred_first_refuted.
Theorem C53_private_use_refuted : exists c, (c < 1114112)%N /\ s_index (grapheme_of c) = phoneme_index 0 0.
Proof. exact private_use. Qed.
Print Assumptions C53_private_use_refuted.
(** A phoneme added again is refused, but not found by its index any more. *)
Theorem C53_added_again_refuted : exists ys' s' y, add_phonemes (controls ++ [phoneme 0; phoneme 1]) (phon_inventory 0) 5 [7; 8; 7] = Some (ys', s') /\
  item_ids s' = [7; 8] /\ nth_error ys' 7 = Some y /\ sym_index_lookup s' (s_index y) = unk /\ sym_index_lookup s' (phoneme_index 5 0) = 7.
Proof. exact stale_index. Qed.
Print Assumptions C53_added_again_refuted.
Theorem C53_second_inventory_refuted : exists ys1 s1 ys2 s2 y, add_phonemes (controls ++ [phoneme 0]) (phon_inventory 0) 5 [7] = Some (ys1, s1) /\
  add_phonemes ys1 (phon_inventory 1) 6 [7] = Some (ys2, s2) /\ nth_error ys2 7 = Some y /\
  s_home y = Some 0 /\ sym_index_lookup s1 (s_index y) = unk /\ sym_index_lookup s1 (phoneme_index 5 0) = 7.
Proof. exact second_inventory. Qed.
Print Assumptions C53_second_inventory_refuted.

Example C53_example : exists ys s, add_phonemes (controls ++ [phoneme 0; phoneme 1; phoneme 0; phoneme 2]) (phon_inventory 0) 9001 [7; 8; 9; 10] = Some (ys, s) /\
  item_ids s = [7; 8; 10] /\ map (sym_index_lookup s) [3900101; 3900102; 3900103; 3900104]%N = [7; 8; 10; unk].
Proof. eexists _, _. split; [vm_compute; reflexivity|]. split; vm_compute; reflexivity. Qed.
