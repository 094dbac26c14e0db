(** Model of nisaba/translit/fst/wordpiece-segmenter.cc.  Strings are byte
    strings.  Vectors are lists with checked access. *)
From Verif Require Import Base Utf8Model DelimModel.

(** [InternalError]: the status of that name; [OutOfRange]: a vector access out
    of range (undefined behaviour in C++); [Exception]: thrown by the UTF-8
    library; [Unfinished]: the bound on loop rounds was too small (shown to be
    impossible). *)
Inductive result (A : Type) := InternalError | OutOfRange | Exception | Unfinished | Ok (a : A).
Arguments InternalError {A}. Arguments OutOfRange {A}. Arguments Exception {A}.
Arguments Unfinished {A}. Arguments Ok {A}.

Definition bind {A B} (r : result A) (f : A -> result B) : result B :=
  match r with
  | Ok a => f a
  | InternalError => InternalError | OutOfRange => OutOfRange
  | Exception => Exception | Unfinished => Unfinished
  end.

Definition at_ {A} (l : list A) (i : nat) : result A :=
  match nth_error l i with Some a => Ok a | None => OutOfRange end.

Fixpoint set_at {A} (l : list A) (i : nat) (v : A) : result (list A) :=
  match l, i with
  | [], _ => OutOfRange
  | _ :: l', O => Ok (v :: l')
  | x :: l', S i' => bind (set_at l' i' v) (fun l'' => Ok (x :: l''))
  end.

(** std::pair<std::string, int>; ranks are never negative *)
Definition cand := (str * nat)%type.

(** ** The merge loop, wordpiece-segmenter.cc:50-83 *)
(** Lines 59-75: position [b]; [best] is (min_b, min_l, min_r), [None] for -1. *)
Definition consider (cands : list (list cand)) (wp_lengths : list nat) (best : option (nat * nat * nat))
    (b : nat) : result (option (nat * nat * nat)) :=
  bind (at_ wp_lengths b) (fun test_len =>
  if (0 <? test_len) && (test_len <? length wp_lengths - b) then
    bind (at_ wp_lengths (b + test_len)) (fun second =>
    if second <? 1 then InternalError
    else
      let new_len := test_len + second in
      bind (at_ cands b) (fun row =>
      bind (at_ row new_len) (fun new_cand =>
      let better := match best with None => true | Some (_, _, min_r) => snd new_cand <? min_r end in
      if match fst new_cand with [] => false | _ => better end
      then Ok (Some (b, new_len, snd new_cand)) else Ok best)))
  else Ok best).

Definition best_merge (cands : list (list cand)) (wp_lengths : list nat) : result (option (nat * nat * nat)) :=
  fold_left (fun acc b => bind acc (fun best => consider cands wp_lengths best b))
    (seq 0 (length wp_lengths)) (Ok None).

Fixpoint merge_loop (rounds : nat) (cands : list (list cand)) (wp_lengths : list nat) : result (list nat) :=
  match rounds with
  | O => Unfinished
  | S n =>
    bind (best_merge cands wp_lengths) (fun best =>
    match best with
    | None => Ok wp_lengths
    | Some (min_b, min_l, _) =>
      bind (at_ wp_lengths min_b) (fun first =>
      bind (set_at wp_lengths (min_b + first) 0) (fun l1 =>
      bind (set_at l1 min_b min_l) (fun l2 => merge_loop n cands l2)))
    end)
  end.

Definition CalculateBestWordpieceLengths (cands : list (list cand)) : result (list nat) :=
  merge_loop (S (length cands)) cands (repeat 1 (length cands)).

(** wordpiece-segmenter.cc:86-100 *)
Definition GetWordpieceTokenization (cands : list (list cand)) : result (list str) :=
  bind (CalculateBestWordpieceLengths cands) (fun wp_lengths =>
  fold_left (fun acc b => bind acc (fun out =>
    bind (at_ wp_lengths b) (fun len =>
    if 0 <? len then
      bind (at_ cands b) (fun row => bind (at_ row len) (fun c => Ok (out ++ [fst c])))
    else Ok out))) (seq 0 (length wp_lengths)) (Ok [])).

(** ** Vocabulary, wordpiece-segmenter.cc:119-131 *)
(** flat_hash_map::find and ::insert (which keeps an existing entry) *)
Fixpoint find_rank (ranks : list cand) (w : str) : option nat :=
  match ranks with
  | [] => None
  | (v, r) :: l => if str_eqb v w then Some r else find_rank l w
  end.
Definition insert_rank (ranks : list cand) (w : str) (r : nat) : list cand :=
  match find_rank ranks w with Some _ => ranks | None => ranks ++ [(w, r)] end.
Fixpoint insert_all (ranks : list cand) (rank : nat) (wp_symbols : list str) : list cand :=
  match wp_symbols with
  | [] => ranks
  | w :: l => insert_all (insert_rank ranks w rank) (S rank) l
  end.

(** WordpieceSegmenter: wordpiece_ranks_ and word_initial_prefix_ *)
Record segmenter := Segmenter { ranks : list cand; prefix : str }.

(** U+2581, line 34 *)
Definition kWordInitPrefix : str := [0xE2; 0x96; 0x81]%N.

Definition InitWordpieces (word_initial_prefix : str) (wp_symbols : list str) : segmenter :=
  Segmenter (insert_all [] 0 wp_symbols)
    (match word_initial_prefix with [] => kWordInitPrefix | _ => word_initial_prefix end).

(** lines 133-151: the first token of every line that has one; [lines] are the
    lines of the file *)
Fixpoint first_tokens (lines : list str) : result (list str) :=
  match lines with
  | [] => Ok []
  | s :: l =>
    match split_whitespace s with
    | Throws => Exception
    | Stuck => Unfinished
    | Got toks => bind (first_tokens l) (fun r => Ok (match toks with [] => r | t :: _ => t :: r end))
    end
  end.
Definition InitWordpiecesFromFile (word_initial_prefix : str) (lines : list str) : result segmenter :=
  bind (first_tokens lines) (fun ws => Ok (InitWordpieces word_initial_prefix ws)).

(** ** Candidates, wordpiece-segmenter.cc:165-189 *)
(** Entries from length [l] on; [cand_wordpiece] is the text of the characters
    before [rest]. *)
Fixpoint row_from (rs : list cand) (cand_wordpiece : str) (l : nat) (rest : list str) : list cand :=
  match rest with
  | [] => []
  | c :: rest' =>
    let w := cand_wordpiece ++ c in
    match find_rank rs w with
    | Some r => (w, r)
    | None => if Nat.eqb l 1 then (c, 0) else ([], 0)
    end :: row_from rs w (S l) rest'
  end.
Definition b_wordpieces (rs : list cand) (rest : list str) : list cand := ([], 0) :: row_from rs [] 1 rest.
Fixpoint char_cands (rs : list cand) (chars : list str) : list (list cand) :=
  match chars with
  | [] => []
  | _ :: chars' => b_wordpieces rs chars :: char_cands rs chars'
  end.
Definition ExtractWordpieceCands (m : segmenter) (input_word : str) : result (list (list cand)) :=
  match str_split_by_char (prefix m ++ input_word) with
  | None => Exception
  | Some chars => Ok (char_cands (ranks m) chars)
  end.

(** ** wordpiece-segmenter.cc:191-217, with AppendBestWordpieces inlined *)
Fixpoint no_whitespace_wordpieces (m : segmenter) (input_words : list str) (wordpieces : list str)
  : result (list str) :=
  match input_words with
  | [] => Ok wordpieces
  | w :: l =>
    bind (ExtractWordpieceCands m w) (fun cands =>
    bind (GetWordpieceTokenization cands) (fun ts => no_whitespace_wordpieces m l (wordpieces ++ ts)))
  end.
Definition GetWordpieces (m : segmenter) (input_str : str) : result (list str) :=
  match split_whitespace input_str with
  | Throws => Exception
  | Stuck => Unfinished
  | Got ws => no_whitespace_wordpieces m ws []
  end.

(** absl::StrJoin(pieces, " ") *)
Fixpoint join_blank (ps : list str) : str :=
  match ps with
  | [] => []
  | [p] => p
  | p :: ps' => p ++ 32%N :: join_blank ps'
  end.
(** lines 247-252 *)
Definition TokenizeInput (m : segmenter) (input_str : str) : result str :=
  bind (GetWordpieces m input_str) (fun ps => Ok (join_blank ps)).

(** ** GetWordpieceTransducer, wordpiece-segmenter.cc:219-245 *)
(** A transducer with start and only final state 0: number of states and arcs
    (source, input label, output label, target); weights are all One. *)
Definition arc := (nat * nat * nat * nat)%type.
Record transducer := Transducer { num_states : nat; arcs : list arc }.

Section Transducer.
  (** SymbolTable::Find by label and by symbol; [None] for kNoSymbol *)
  Variable find_word : nat -> str.
  Variable find_piece : str -> option nat.
  Variable wordpiece_unk : str.

  (** lines 230-241 *)
  Fixpoint add_pieces (f : transducer) (curr_state : nat) (ps : list str) : result (transducer * nat) :=
    match ps with
    | [] => Ok (f, curr_state)
    | p :: ps' =>
      let label := match find_piece p with Some i => Some i | None => find_piece wordpiece_unk end in
      match label with
      | None => InternalError
      | Some wordpiece_idx =>
        let next_state := num_states f in
        add_pieces (Transducer (S next_state) (arcs f ++ [(curr_state, 0, wordpiece_idx, next_state)]))
          next_state ps'
      end
    end.

  Fixpoint add_words (m : segmenter) (f : transducer) (input_words : list nat) : result transducer :=
    match input_words with
    | [] => Ok f
    | w :: l =>
      bind (GetWordpieces m (find_word w)) (fun ps =>
      bind (add_pieces f 0 ps) (fun fq =>
      add_words m (Transducer (num_states (fst fq)) (arcs (fst fq) ++ [(snd fq, w, 0, 0)])) l))
    end.

  Definition GetWordpieceTransducer (m : segmenter) (input_words : list nat) : result transducer :=
    add_words m (Transducer 1 []) input_words.
End Transducer.
