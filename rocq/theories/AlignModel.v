(** Model of nisaba/scripts/natural_translit/utils/{alignment,concat,rewrite_functions}.py
    and of the glyph functions of script/char.py: strings of graphemes, phonemes and
    transliterations, and rewriting them.

    FSTs are used on strings only.  A union of string pairs is a list of rules
    (RuleModel); contexts are regular expressions (RegexModel), with a flag for [BOS] or
    [EOS].  Only the reading of bytes 1 to 255 is modelled, which is BYTE_STAR. *)
From Verif Require Import Base RuleModel RegexModel IsoModel.

(** ** alignment.py:25-141 *)

Definition LESS_THAN : N := 60. Definition GREATER_THAN : N := 62.
Definition CURLY_L : N := 123. Definition CURLY_R : N := 125.
Definition EQUAL : N := 61. Definition GRAVE_ACCENT : N := 96.
(** 75-99 *)
Definition enclose (base : str) (l r : N) : str := [l] ++ base ++ [r].
Definition enclose_grapheme (base : str) : str := enclose base LESS_THAN GREATER_THAN.
Definition enclose_phoneme (base : str) : str := enclose base CURLY_L CURLY_R.
Definition enclose_translit (base : str) : str := enclose base GRAVE_ACCENT GRAVE_ACCENT.
Definition align (left right : str) : str := left ++ [EQUAL] ++ right.
(** 102-111: a pair for pynini.cross *)
Definition realign (left old new : str) : rule := Rule (align left old) (align left new).
Definition assign (left right : str) : rule := Rule left (align left right).

Definition letters : list N := map N.of_nat (seq 65 26 ++ seq 97 26).
(** 114-118: underscore, plus, full stop, asterisk, minus, ampersand, exclamation, colon *)
Definition punctuation : list N := [95; 43; 46; 42; 45; 38; 33; 58]%N.
Definition chars (l : list N) : re := Strs (map (fun c => [c]) l).
Definition SYM : re := Star (Alt (chars letters) (chars punctuation)).
Definition enclosed (l r : N) : re := Cat (Strs [[l]]) (Cat SYM (Strs [[r]])).
Definition GRAPHEME : re := enclosed LESS_THAN GREATER_THAN.
Definition PHONEME : re := enclosed CURLY_L CURLY_R.
Definition TRANSLIT : re := enclosed GRAVE_ACCENT GRAVE_ACCENT.
Definition GRAPHEMES : re := Star GRAPHEME.
Definition ALIGN_SIGN : re := Strs [[EQUAL]].
Definition R_SYMS : re := Star (Alt PHONEME TRANSLIT).
(** 133-141 *)
Definition SKIP_LEFT_SIDE : re := Ques (Cat GRAPHEMES ALIGN_SIGN).
Definition SKIP_RIGHT_SIDE : re := Ques (Cat ALIGN_SIGN R_SYMS).
Definition SKIP : re := Alt SKIP_LEFT_SIDE SKIP_RIGHT_SIDE.
(** A context: [None] is al.EPSILON itself; the flag says that [BOS] or [EOS] is there *)
Notation context := (option (bool * re)).
Definition BOW : context := Some (true, Ques SKIP_LEFT_SIDE).
Definition EOW : context := Some (true, Ques SKIP_RIGHT_SIDE).

(** ** Context dependent rewriting *)

(** cdrewrite from left to right: the left context is matched in the output (here in
    reverse), the right context in the input.  [BOS] and [EOS] match at the ends only. *)
Definition left_ok (c : context) (outr : str) : bool :=
  match c with
  | None => true
  | Some (edge, r) =>
      existsb (fun k => if edge then Nat.eqb k (length outr) && accepts r (rev (firstn k outr)) else accepts r (rev (firstn k outr))) (seq 0 (S (length outr)))
  end.
Definition right_ok (c : context) (s : str) : bool :=
  match c with
  | None => true
  | Some (edge, r) =>
      existsb (fun k => if edge then Nat.eqb k (length s) && accepts r (firstn k s) else accepts r (firstn k s)) (seq 0 (S (length s)))
  end.
(** rewrite_functions.py:24-64: a SKIP between the operation and a context that is given *)
Definition rewrite_op (rs : list rule) (preceding following : context) : fst_t :=
  fun s => scan rs (left_ok (option_map (fun '(b, r) => (b, Cat r SKIP)) preceding))
                   (right_ok (option_map (fun '(b, r) => (b, Cat SKIP r)) following)) [] 0 s.
(** 67-87 *)
Definition rewrite_one (old new : str) (preceding following : context) : fst_t := rewrite_op [Rule old new] preceding following.
Definition rewrite_ls (pairs : list rule) (preceding following : context) : fst_t := rewrite_op pairs preceding following.
(** 90-111 *)
Definition rewrite_word_initial (old new : str) (following : context) : fst_t := rewrite_one old new BOW following.
Definition rewrite_word_final (old new : str) (preceding : context) : fst_t := rewrite_one old new preceding EOW.
(** concat.py:53 and 83 *)
Definition concat_r (right_1 right_2 : str) : re := Cat (Strs [right_1]) (Cat (Ques SKIP_LEFT_SIDE) (Strs [right_2])).
Definition concat_l (left_1 left_2 : str) : re := Cat (Strs [left_1]) (Cat SKIP_RIGHT_SIDE (Strs [left_2])).
(** concat.py:22-23 and 114-124 *)
Definition repeat_sym (sym : str) : str := sym ++ sym.
Definition rewrite_repeated (repeated new : str) (preceding following : context) : fst_t :=
  rewrite_one (repeat_sym repeated) (match new with [] => repeated | _ => new end) preceding following.
(** 139-177 *)
Definition reassign (left old new : str) (preceding following : context) : fst_t := rewrite_op [realign left old new] preceding following.
(** 191-216 *)
Definition reassign_word_initial (left old new : str) (following : context) : fst_t := reassign left old new BOW following.
Definition reassign_word_final (left old new : str) (preceding : context) : fst_t := reassign left old new preceding EOW.
(** 219-256 *)
Definition reassign_adjacent_alignments (left_1 old_1 new_1 left_2 old_2 new_2 : str) : fst_t :=
  rewrite_one (align left_1 old_1 ++ align left_2 old_2) (align left_1 new_1 ++ align left_2 new_2) None None.
(** 259-309.  An empty string stands for al.EPSILON *)
Definition merge (left_1 right_1 left_2 right_2 new_right : str) (preceding following : context) : fst_t :=
  rewrite_one (align left_1 right_1 ++ align left_2 right_2)
    (align (left_1 ++ left_2) (match new_right with [] => right_1 ++ right_2 | _ => new_right end)) preceding following.
(** 312-320 *)
Definition merge_repeated_alignment (left right new_right : str) : fst_t :=
  merge left right left right (match new_right with [] => right | _ => new_right end) None None.

(** ** Deletion: 336-349 *)

(** Lengths of the prefixes, not empty, that are in a language *)
Definition match_lengths (r : re) (s : str) : list nat := filter (fun k => accepts r (firstn k s)) (seq 1 (length s)).
(** cdrewrite of a language and the empty string, without contexts: where something
    matches, some match is deleted.  If the empty string is in the language, one reading of
    cdrewrite lets its deletion count as well, so that the symbol after it is kept
    ([empties]); the other one always deletes something. *)
Fixpoint delete_scan (empties : bool) (r : re) (outr : str) (skip : nat) (s : str) : list str :=
  match s with
  | [] => [rev outr]
  | c :: s' =>
      match skip with
      | S k => delete_scan empties r outr k s'
      | 0 =>
          match match_lengths r s with
          | [] => delete_scan empties r (c :: outr) 0 s'
          | ks => flat_map (fun k => delete_scan empties r outr (k - 1) s') ks ++
                  if empties && accepts r [] then delete_scan empties r (c :: outr) 0 s' else []
          end
      end
  end.
Definition delete_lang (empties : bool) (r : re) : fst_t := fun s => delete_scan empties r [] 0 s.
Definition EXTRACT_RIGHT_SIDE (empties : bool) : fst_t := delete_lang empties (Alt GRAPHEMES ALIGN_SIGN).

(** ** script/char.py: the type and the glyph of a Char *)

Record char := Char { typ : str; glyph : str }.
Definition gr (c : char) : str := enclose_grapheme (typ c).
Definition tr (c : char) : str := enclose_translit (typ c).
(** 68-69 and 254-267 *)
Definition read_glyph (l : list char) : wt := WStar (WPairs (map (fun c => (glyph c, gr c)) l)).
Definition print_glyph (l : list char) : wt := WStar (WPairs (map (fun c => (tr c, glyph c)) l)).
Definition print_only (empties : bool) (r : wt) : fst_t := fun s => flat_map (fun t => map fst (outs r t)) (EXTRACT_RIGHT_SIDE empties s).
Definition print_only_glyph (empties : bool) (l : list char) : fst_t := print_only empties (print_glyph l).
(** 270-273 *)
Definition remove_repeated_glyph (l : list char) : fst_t := rewrite_ls (map (fun c => Rule (glyph c ++ glyph c) (glyph c)) l) None None.
(** phonology/phon.py:214-221: pairs of the symbols and the IPA of phonemes *)
Definition ls_translit_ipa (l : list (str * str)) : wt := WStar (WPairs l).
Definition print_only_ipa (empties : bool) (l : list (str * str)) : fst_t := print_only empties (ls_translit_ipa l).
