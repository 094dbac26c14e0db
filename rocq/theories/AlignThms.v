(** C40: symbol strings of the natural transliteration grammars. *)
From Verif Require Import Base RuleModel RegexModel IsoModel AlignModel AlignSpec AlignProofs AlignMore.
Local Open Scope N_scope.

(** Texts of symbols can be read in one way only *)
Theorem C40_symbols_once : forall a b, Forall symbol a -> Forall symbol b -> encs a = encs b -> a = b.
Proof. exact encs_inj. Qed.
Print Assumptions C40_symbols_once.

(** Byte rewriting of a text of symbols is rewriting of symbols, with contexts seen past one side of an alignment *)
Theorem C40_rewrite : forall rs p f ts o, Forall symbol_rule rs -> symbol_ctx p -> symbol_ctx f -> Forall symbol ts ->
  (In o (rewrite_op (map rule_of rs) (left_context p) (right_context f) (encs ts)) <-> exists out, rewrites rs p f [] ts out /\ o = encs out).
Proof. exact rewrite_symbols. Qed.
Print Assumptions C40_rewrite.

Example C40_rewrite_example : (* <a>={b}<c>={d}: {d} becomes {e} after {b} *)
  rewrite_op [rule_of ([Ph [100]], [Ph [101]])] (left_context (Next [[Ph [98]]])) None (encs [Gr [97]; Eq; Ph [98]; Gr [99]; Eq; Ph [100]])
  = [encs [Gr [97]; Eq; Ph [98]; Gr [99]; Eq; Ph [101]]].
Proof. vm_compute. reflexivity. Qed.

Example C40_rewrite_example_2 : rewrite_word_initial (encs [Ph [98]]) (encs [Ph [101]]) None (encs [Gr [97]; Eq; Ph [98]; Gr [97]; Eq; Ph [98]])
  = [encs [Gr [97]; Eq; Ph [101]; Gr [97]; Eq; Ph [98]]].
Proof. vm_compute. reflexivity. Qed.

Theorem C40_total : forall rs p f ts, Forall symbol_rule rs -> symbol_ctx p -> symbol_ctx f -> Forall symbol ts ->
  rewrite_op (map rule_of rs) (left_context p) (right_context f) (encs ts) <> [].
Proof. exact rewrite_total. Qed.
Print Assumptions C40_total.

Theorem C40_one_output : forall rs p f ts, Forall symbol_rule rs -> apart rs -> symbol_ctx p -> symbol_ctx f -> Forall symbol ts ->
  exists out, rewrites rs p f [] ts out /\ forall o, In o (rewrite_op (map rule_of rs) (left_context p) (right_context f) (encs ts)) <-> o = encs out.
Proof. exact rewrite_apart. Qed.
Print Assumptions C40_one_output.

Example C40_one_output_example : (* two rules for {d}: two outputs *)
  rewrite_op (map rule_of [([Ph [100]], [Ph [101]]); ([Ph [100]], [Ph [102]])]) None None (encs [Ph [100]]) = [encs [Ph [101]]; encs [Ph [102]]].
Proof. vm_compute. reflexivity. Qed.

(** A symbol without a name is found between two transliterations, and the text is torn apart *)
Theorem C40_unnamed_refuted : exists rs ts o, Forall (fun p : list tok * list tok => Forall symbol (fst p) /\ Forall symbol (snd p) /\ fst p <> []) rs /\ Forall symbol ts /\
  In o (rewrite_op (map rule_of rs) None None (encs ts)) /\ forall out, Forall symbol out -> o <> encs out.
Proof. exact unnamed. Qed.
Print Assumptions C40_unnamed_refuted.

(** Rules that keep the graphemes keep those of the text, in order *)
Theorem C40_graphemes : forall rs p f ts o, Forall symbol_rule rs -> Forall keeps_graphemes rs -> symbol_ctx p -> symbol_ctx f -> Forall symbol ts ->
  In o (rewrite_op (map rule_of rs) (left_context p) (right_context f) (encs ts)) -> exists out, o = encs out /\ Forall symbol out /\ filter grapheme out = filter grapheme ts.
Proof. exact rewrite_graphemes. Qed.
Print Assumptions C40_graphemes.

Theorem C40_reassign : forall left old new p f ts o, Forall symbol left -> starts_named left -> Forall symbol old -> Forall symbol new -> forallb right_symbol old = true -> forallb right_symbol new = true ->
  symbol_ctx p -> symbol_ctx f -> Forall symbol ts -> In o (reassign (encs left) (encs old) (encs new) (left_context p) (right_context f) (encs ts)) ->
  exists out, o = encs out /\ Forall symbol out /\ filter grapheme out = filter grapheme ts.
Proof. exact reassign_graphemes. Qed.
Print Assumptions C40_reassign.

Example C40_reassign_example : reassign (encs [Gr [97]]) (encs [Ph [98]]) (encs [Tr [99]]) None EOW (encs [Gr [97]; Eq; Ph [98]; Gr [97]; Eq; Ph [98]])
  = [encs [Gr [97]; Eq; Ph [98]; Gr [97]; Eq; Tr [99]]].
Proof. vm_compute. reflexivity. Qed.

Theorem C40_merge : forall l1 r1 l2 r2 nr p f ts o, Forall symbol l1 -> Forall symbol l2 -> Forall symbol r1 -> Forall symbol r2 -> Forall symbol nr -> starts_named l1 ->
  forallb right_symbol r1 = true -> forallb right_symbol r2 = true -> forallb right_symbol nr = true ->
  symbol_ctx p -> symbol_ctx f -> Forall symbol ts -> In o (merge (encs l1) (encs r1) (encs l2) (encs r2) (encs nr) (left_context p) (right_context f) (encs ts)) ->
  exists out, o = encs out /\ Forall symbol out /\ filter grapheme out = filter grapheme ts.
Proof. exact merge_graphemes. Qed.
Print Assumptions C40_merge.

Example C40_merge_example : merge (encs [Gr [97]]) (encs [Ph [98]]) (encs [Gr [99]]) (encs [Ph [100]]) [] None None (encs [Gr [97]; Eq; Ph [98]; Gr [99]; Eq; Ph [100]])
  = [encs [Gr [97]; Gr [99]; Eq; Ph [98]; Ph [100]]].
Proof. vm_compute. reflexivity. Qed.

(** Assignment of a text of graphemes *)
Theorem C40_assign : forall tab ps, table tab -> (forall p, In p ps -> In p tab) -> forall o,
  In o (rewrite_ls (map rule_of (assigns tab)) None None (encs (map (fun p => Gr (fst p)) ps))) <-> o = encs (flat_map (fun p => [Gr (fst p); Eq] ++ snd p) ps).
Proof. exact assign_all. Qed.
Print Assumptions C40_assign.

(** Extraction from any text leaves out graphemes and alignment signs and nothing else *)
Theorem C40_extract : forall s, exists t, stripped s t /\ (forall o, In o (EXTRACT_RIGHT_SIDE false s) <-> o = t) /\ In t (EXTRACT_RIGHT_SIDE true s).
Proof. exact extract_text. Qed.
Print Assumptions C40_extract.

Theorem C40_extract_symbols : forall b ts, Forall symbol ts -> In (encs (filter right_symbol ts)) (EXTRACT_RIGHT_SIDE b (encs ts)) /\
  (forall o, In o (EXTRACT_RIGHT_SIDE b (encs ts)) -> o = encs (filter right_symbol ts) \/ (b = true /\ exists c, In c [61; 60] /\ In c o)).
Proof. exact extract_symbols. Qed.
Print Assumptions C40_extract_symbols.

Example C40_extract_example : EXTRACT_RIGHT_SIDE false (encs [Gr [97]; Gr [98]; Eq; Ph [98]; Gr [97]; Eq; Tr [100]]) = [encs [Ph [98]; Tr [100]]; encs [Ph [98]; Tr [100]]].
Proof. vm_compute. reflexivity. Qed.

Theorem C40_extract_twice : forall ts t, Forall symbol ts -> In t (EXTRACT_RIGHT_SIDE false (encs ts)) -> forall o, In o (EXTRACT_RIGHT_SIDE false t) <-> o = t.
Proof. exact extract_idem. Qed.
Print Assumptions C40_extract_twice.

(** Not so for other texts *)
Theorem C40_extract_twice_refuted : exists s t u, EXTRACT_RIGHT_SIDE false s = [t] /\ EXTRACT_RIGHT_SIDE false t = [u] /\ t <> u.
Proof. exact extract_again. Qed.
Print Assumptions C40_extract_twice_refuted.

(** Printing, whichever way empty matches are read *)
Theorem C40_print : forall b l cs ts o, char_table l -> Forall symbol ts -> (forall c, In c cs -> In c l) -> filter right_symbol ts = map (fun c => Tr (typ c)) cs ->
  (In o (print_only_glyph b l (encs ts)) <-> o = flat_map glyph cs).
Proof. exact print_glyphs. Qed.
Print Assumptions C40_print.

Theorem C40_print_pairs : forall b (tab : list (tok * str)) ts o, Forall (fun p : tok * str => symbol (fst p) /\ right_symbol (fst p) = true) tab -> Forall symbol ts ->
  (In o (print_only_ipa b (map (fun p : tok * str => (enc (fst p), snd p)) tab) (encs ts)) <->
   exists ps, (forall p, In p ps -> In p tab) /\ filter right_symbol ts = map fst ps /\ o = flat_map snd ps).
Proof. exact print_pairs. Qed.
Print Assumptions C40_print_pairs.

Example C40_print_example : print_only_glyph true [Char [97] [2309]; Char [98] [2310]] (encs [Gr [97]; Eq; Tr [97]; Gr [98]; Eq; Tr [98]]) = [[2309; 2310]].
Proof. vm_compute. reflexivity. Qed.

Theorem C40_read : forall l s o, Forall (fun c => glyph c <> []) l -> (In o (map fst (outs (read_glyph l) s)) <->
  exists cs, (forall c, In c cs -> In c l) /\ s = flat_map glyph cs /\ o = encs (map (fun c => Gr (typ c)) cs)).
Proof. exact reads. Qed.
Print Assumptions C40_read.

(** Reading, assigning each character to itself and printing gives back the text, however it was read *)
Theorem C40_round_trip : forall b l s o, char_table l -> Forall (fun c => glyph c <> []) l ->
  (exists u v, In u (map fst (outs (read_glyph l) s)) /\ In v (rewrite_ls (map (fun c => assign (gr c) (tr c)) l) None None u) /\ In o (print_only_glyph b l v)) <->
  o = s /\ exists cs, (forall c, In c cs -> In c l) /\ s = flat_map glyph cs.
Proof. exact round_trip. Qed.
Print Assumptions C40_round_trip.

Example C40_round_trip_example : map fst (outs (read_glyph [Char [97] [2309]; Char [98] [2309; 2309]]) [2309; 2309]) = [encs [Gr [97]; Gr [97]]; encs [Gr [98]]].
Proof. vm_compute. reflexivity. Qed.

(** Removing repeated glyphs leaves some: three become two *)
Theorem C40_repeated_refuted : exists l s o, remove_repeated_glyph l s = [o] /\ exists c a b, In c l /\ glyph c <> [] /\ o = a ++ glyph c ++ glyph c ++ b.
Proof. exact repeated_left. Qed.
Print Assumptions C40_repeated_refuted.

Theorem C40_concat_r : forall a b ts, Forall symbol a -> Forall symbol b -> Forall symbol ts ->
  (accepts (concat_r (encs a) (encs b)) (encs ts) = true <-> exists x, (x = [] \/ exists g, x = g ++ [Eq] /\ forallb grapheme g = true) /\ ts = a ++ x ++ b).
Proof. exact concat_r_iff. Qed.
Print Assumptions C40_concat_r.

Theorem C40_concat_l : forall a b ts, Forall symbol a -> Forall symbol b -> Forall symbol ts ->
  (accepts (concat_l (encs a) (encs b)) (encs ts) = true <-> exists x, (x = [] \/ exists r, x = Eq :: r /\ forallb right_symbol r = true) /\ ts = a ++ x ++ b).
Proof. exact concat_l_iff. Qed.
Print Assumptions C40_concat_l.

Example C40_concat_example : accepts (concat_r (encs [Ph [97]]) (encs [Ph [98]])) (encs [Ph [97]; Gr [98]; Eq; Ph [98]]) = true /\ accepts (concat_l (encs [Gr [97]]) (encs [Gr [98]])) (encs [Gr [97]; Eq; Ph [97]; Gr [98]]) = true.
Proof. vm_compute. split; reflexivity. Qed.
