(** Model of nisaba/translit/fst/pairlm_decoder.cc, part 1: segmentation of words,
    word pieces and backoff costs.  Costs (doubles) are integers. *)
From Verif Require Import Base Utf8Model DelimModel KbestModel ErrorRateModel.

(** impl::GetUtf8Codepoint, lines 132-138 *)
Definition GetUtf8Codepoint (letter_str : str) : run N :=
  let (ok, utf8_code) := decode_single_unicode_char letter_str in qcheck ok (Fine utf8_code).

(** ** SegmentCoveredChars, lines 741-775 *)
Fixpoint segment_loop (previous : bool) (this_token : str) (rest : list (str * bool))
  (input_word_tokens : list str) : list str :=
  match rest with
  | [] => input_word_tokens ++ [this_token]
  | (cp, cov) :: rest' =>
    if negb (Bool.eqb cov previous)
    then segment_loop cov cp rest' (input_word_tokens ++ [this_token])
    else segment_loop cov (this_token ++ cp) rest' input_word_tokens
  end.
Definition SegmentCoveredChars (covered_input_chars : N -> bool) (input_word : str) : run (list str) :=
  match input_word with
  | [] => Fine []
  | _ =>
    match str_split_by_char input_word with
    | None => Exn
    | Some input_codepoints =>
      bind (map_run (fun cp => bind (GetUtf8Codepoint cp) (fun c => Fine (covered_input_chars c))) input_codepoints)
      (fun covered_codepoints =>
      let non_covered_count := length (filter negb covered_codepoints) in
      if Nat.eqb non_covered_count 0 || Nat.eqb non_covered_count (length input_codepoints) then Fine []
      else match combine input_codepoints covered_codepoints with
           | [] => OutOfRange
           | (cp, cov) :: rest => Fine (segment_loop cov cp rest [])
           end)
    end
  end.

(** ** Word pieces *)
(** The trie of lines 499-511: Determinize of the union of the words makes one
    state per prefix; states are these prefixes (OpenFst, not modelled further). *)
Definition GetNextTrieState (vocab : list (list N)) (curr_state : list N) (label : N) : option (list N) :=
  if existsb (prefixb (curr_state ++ [label])) vocab then Some (curr_state ++ [label]) else None.
Definition is_final (vocab : list (list N)) (state : list N) : bool := existsb (str_eqb state) vocab.

(** GetMatchedTokens, lines 335-363 *)
Fixpoint match_loop (vocab : list (list N)) (letters : list N) (curr_state matched_items : list N)
  (match_length : nat) : list N * nat :=
  match letters with
  | [] => (matched_items, match_length)
  | token_idx :: letters' =>
    match GetNextTrieState vocab curr_state token_idx with
    | Some next_state =>
      let matched_items' := matched_items ++ [token_idx] in
      match_loop vocab letters' next_state matched_items'
        (if is_final vocab next_state then length matched_items' else match_length)
    | None => (matched_items, match_length)
    end
  end.
Definition GetMatchedTokens (vocab : list (list N)) (letters curr_state : list N) : list N :=
  let (matched_items, match_length) := match_loop vocab letters curr_state [] 0 in
  if match_length <? length matched_items then firstn match_length matched_items else matched_items.

(** Symbols of the language model: the symbol at position n has key n.  [oov] is
    lm_oov_index_, [None] for -1. *)
Section WordPieces.
  Variable lm_symbols : list str.
  Variable lm_oov_index : option nat.
  Variable word_piece_internal_prefix : str.

  (** lines 499-511 *)
  Definition trie_words : run (list (list N)) :=
    map_run (fun s => match str_split_by_char s with
                      | Some ls => map_run GetUtf8Codepoint ls
                      | None => Exn
                      end)
      (map snd (filter (fun p => negb (Nat.eqb (fst p) 0) &&
                                 match lm_oov_index with Some o => negb (Nat.eqb (fst p) o) | None => true end)
                  (combine (seq 0 (length lm_symbols)) lm_symbols))).
  (** lines 513-522: word_internal_cands_to_lm_start_state_ *)
  Fixpoint walk (vocab : list (list N)) (state letters : list N) : run (list N) :=
    match letters with
    | [] => Fine state
    | c :: letters' =>
      match GetNextTrieState vocab state c with
      | Some state' => walk vocab state' letters'
      | None => Check
      end
    end.
  Definition InitializeWordPieceTrie : run (list (list N) * list N) :=
    qcheck (match word_piece_internal_prefix with [] => false | _ => true end)
    (bind trie_words (fun vocab =>
     match str_split_by_char word_piece_internal_prefix with
     | None => Exn
     | Some ls => bind (map_run GetUtf8Codepoint ls) (fun cs =>
                  bind (walk vocab [] cs) (fun st => Fine (vocab, st)))
     end)).

  (** fst::LabelsToUTF8String *)
  Definition LabelsToUTF8String (labels : list N) : run str :=
    match append_all labels with Some bs => Fine (concat bs) | None => Check end.

  (** ParseCandWordPiece, lines 634-668: the labels and the number of times
      oov_cost_ is added.  Every round takes a letter, so the number of letters is
      enough fuel; [None] would be an endless loop. *)
  Fixpoint parse_loop (fuel : nat) (vocab : list (list N)) (internal_start letters curr_state : list N) (prefix : str)
    : option (run (list nat * nat)) :=
    match letters with
    | [] => Some (Fine ([], 0))
    | _ :: rest =>
      match fuel with
      | 0 => None
      | S fuel' =>
        let text_labels := GetMatchedTokens vocab letters curr_state in
        let step := match text_labels with
                    | [] => (match lm_oov_index with Some o => Fine o | None => Check end, rest, 1)
                    | _ => (bind (LabelsToUTF8String text_labels) (fun word_piece_str =>
                            match find_sym (prefix ++ word_piece_str) lm_symbols with
                            | Some l => Fine l
                            | None => Check
                            end), skipn (length text_labels) letters, 0)
                    end in
        let '(lm_sym, letters', cost) := step in
        match lm_sym with
        | Fine l =>
          if 0 <? l then
            let prefix' := match prefix with [] => word_piece_internal_prefix | _ => prefix end in
            match parse_loop fuel' vocab internal_start letters' internal_start prefix' with
            | None => None
            | Some r => Some (bind r (fun x => Fine (l :: fst x, cost + snd x)))
            end
          else Some Check
        | Check => Some Check
        | OutOfRange => Some OutOfRange
        | Exn => Some Exn
        end
      end
    end.
  Definition ParseCandWordPiece (trie : list (list N) * list N) (new_symbol : str) : option (run (list nat * nat)) :=
    match str_split_by_char new_symbol with
    | None => Some Exn
    | Some ls =>
      match map_run GetUtf8Codepoint ls with
      | Fine letters => parse_loop (length letters) (fst trie) (snd trie) letters [] []
      | _ => Some Check
      end
    end.
End WordPieces.

(** WordToFst, lines 238-251: the labels of its path *)
Definition WordToFst (input_word : str) : run (list N) :=
  match str_split_by_char input_word with None => Exn | Some ls => map_run GetUtf8Codepoint ls end.
(** GetTextString, lines 254-272, of a linear automaton: labels and weights of its
    arcs, and the final weight *)
Definition GetTextString (arcs : list (N * Z)) (final : Z) : run (str * Z) :=
  bind (LabelsToUTF8String (filter (fun l => negb (N.eqb l 0)) (map fst arcs))) (fun text =>
  Fine (text, (fold_left Z.add (map snd arcs) 0 + final)%Z)).

(** ** Backoff, lines 150-196 *)
(** Arcs: label, weight, next state.  [None] is an infinite cost. *)
Notation lm_arc := (Z * Z * nat)%type.
Record lm_state := LmState { lm_arcs : list lm_arc; lm_final : option Z }.
Notation lm := (list lm_state).
(** [Overflow]: endless recursion; [Undefined]: reads outside an array. *)
Inductive eval (A : Type) := Overflow | Undefined | Done (a : A).
Arguments Overflow {A}. Arguments Undefined {A}. Arguments Done {A} a.
Definition andthen {A B} (x : eval A) (f : A -> eval B) : eval B :=
  match x with Overflow => Overflow | Undefined => Undefined | Done a => f a end.

Definition plus_cost (a b : option Z) : option Z :=
  match a, b with Some x, Some y => Some (x + y)%Z | _, _ => None end.

Definition GetBackoff (fst_ : lm) (st : nat) : eval (option nat * option Z) :=
  match nth_error fst_ st with
  | None => Undefined
  | Some s =>
    match lm_arcs s with
    | [] => Undefined
    | (ilabel, weight, nextstate) :: _ =>
      if negb (Z.eqb ilabel 0) then Done (None, None) else Done (Some nextstate, Some weight)
    end
  end.
Fixpoint set_final (fst_ : lm) (st : nat) (c : option Z) : lm :=
  match fst_, st with
  | [], _ => []
  | s :: r, 0 => LmState (lm_arcs s) c :: r
  | s :: r, S n => s :: set_final r n c
  end.
(** More calls than states are a loop. *)
Fixpoint GetStateFinalCost (fuel : nat) (fst_ : lm) (st : option nat) : eval (option Z * lm) :=
  match st with
  | None => Done (None, fst_)
  | Some q =>
    match nth_error fst_ q with
    | None => Undefined
    | Some s =>
      match lm_final s with
      | Some c => Done (Some c, fst_)
      | None =>
        match fuel with
        | 0 => Overflow
        | S fuel' =>
          andthen (GetBackoff fst_ q) (fun b =>
          andthen (GetStateFinalCost fuel' fst_ (fst b)) (fun r =>
          let fcost := plus_cost (snd b) (fst r) in
          Done (fcost, set_final (snd r) q fcost)))
        end
      end
    end
  end.
Definition final_step (start : nat) (acc : eval lm) (st : nat) : eval lm :=
  andthen acc (fun fst_ =>
    match nth_error fst_ st with
    | None => Undefined
    | Some s =>
      match lm_final s with
      | Some _ => Done fst_
      | None => if Nat.eqb st start then Done fst_
                else andthen (GetStateFinalCost (length fst_) fst_ (Some st)) (fun r => Done (snd r))
      end
    end).
Definition kPhiSymbol : Z := (-2)%Z.
Definition relabel (s : lm_state) : eval lm_state :=
  match lm_arcs s with
  | [] => Undefined
  | (ilabel, weight, nextstate) :: arcs =>
    Done (if Z.eqb ilabel 0 then LmState ((kPhiSymbol, weight, nextstate) :: arcs) (lm_final s) else s)
  end.
Fixpoint relabel_all (fst_ : lm) : eval lm :=
  match fst_ with
  | [] => Done []
  | s :: r => andthen (relabel s) (fun s' => andthen (relabel_all r) (fun r' => Done (s' :: r')))
  end.
(** Without the final ArcSort. *)
Definition MakePhiMatcherLM (start : nat) (fst_ : lm) : eval lm :=
  andthen (fold_left (final_step start) (seq 0 (length fst_)) (Done fst_)) relabel_all.
