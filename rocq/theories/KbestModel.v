(** Model of nisaba/translit/tools/kbest-full-string-util.cc: MostFreqValue,
    GetWordCount, EnsembleFullString::SimpleAlign, PruneByInputLength and the
    alignment acceptor of BuildAlignWfst, VerifyCombineEnsembleInputs,
    KbestExtractor and KbestRejoiner.  Scores (doubles) are integers, text to
    number conversion and the k-shortest-paths search are parameters; reading and
    writing of files, the unigram counter and the softmax are not modelled. *)
From Verif Require Import Base DelimModel.

(** [Check]: a QCHECK fails (the process aborts); [OutOfRange]: a vector access out
    of range; [Exn]: an exception (std::stoi, std::stod, utf8::next). *)
Inductive run (A : Type) := Check | OutOfRange | Exn | Fine (a : A).
Arguments Check {A}. Arguments OutOfRange {A}. Arguments Exn {A}. Arguments Fine {A}.
Definition bind {A B} (r : run A) (f : A -> run B) : run B :=
  match r with Fine a => f a | Check => Check | OutOfRange => OutOfRange | Exn => Exn end.
Definition qcheck {A} (b : bool) (k : run A) : run A := if b then k else Check.
Definition at_ {A} (l : list A) (i : nat) : run A :=
  match nth_error l i with Some a => Fine a | None => OutOfRange end.
Fixpoint map_run {A B} (f : A -> run B) (l : list A) : run (list B) :=
  match l with
  | [] => Fine []
  | a :: l' => bind (f a) (fun b => bind (map_run f l') (fun bs => Fine (b :: bs)))
  end.

(** ** Most frequent value, lines 67-91 *)
(** std::sort *)
Fixpoint insert (x : nat) (l : list nat) : list nat :=
  match l with [] => [x] | y :: l' => if x <=? y then x :: l else y :: insert x l' end.
Fixpoint sort (l : list nat) : list nat :=
  match l with [] => [] | x :: l' => insert x (sort l') end.

(** Lines 76-86 from the second element on: [prev] is input_vec[i - 1], [best] is
    most_freq_val with [None] for -1.  Result: curr_cnt, max_cnt, most_freq_val and
    input_vec.back(). *)
Fixpoint freq_loop (prev : nat) (rest : list nat) (curr_cnt max_cnt : nat) (best : option nat)
  : nat * nat * option nat * nat :=
  match rest with
  | [] => (curr_cnt, max_cnt, best, prev)
  | x :: rest' =>
    if negb (Nat.eqb x prev) then
      if max_cnt <=? curr_cnt then freq_loop x rest' 1 curr_cnt (Some prev)
      else freq_loop x rest' 1 max_cnt best
    else freq_loop x rest' (S curr_cnt) max_cnt best
  end.
(** Word counts are non-negative.  On an empty vector input_vec.back() is
    undefined. *)
Definition MostFreqValue (input_vec : list nat) : run nat :=
  match sort input_vec with
  | [] => OutOfRange
  | x :: rest =>
    let '(curr_cnt, max_cnt, best, back) := freq_loop x rest 1 0 None in
    Fine match best with
         | None => back
         | Some v => if max_cnt <=? curr_cnt then back else v
         end
  end.

(** ** Words, lines 92-97 *)
Definition tokens (s : str) : run (list str) :=
  match split_whitespace s with Got ts => Fine ts | Throws => Exn | Stuck => Check end.
Definition GetWordCount (s : str) : run nat := bind (tokens s) (fun ts => Fine (length ts)).

(** ** Alignment *)
Notation hyp := (str * Z)%type.

(** lines 450-464 *)
Definition PruneByInputLength (input_length : nat) (lists : list hyp) (counts : list nat)
  : run (list hyp * list nat) :=
  bind (if 0 <? input_length then Fine input_length else MostFreqValue counts) (fun most_freq_count =>
  let kept := filter (fun x => Nat.eqb (snd x) most_freq_count) (combine lists counts) in
  Fine (map fst kept, map snd kept)).

(** lines 470-479; a length of zero or less is given as 0 *)
Definition prune_step (input_length : nat) (lists : list hyp) (counts : list nat)
  : run (list hyp * list nat) :=
  let all_same_count := match counts with [] => true | c :: _ => forallb (Nat.eqb c) counts end in
  if all_same_count then Fine (lists, counts) else PruneByInputLength input_length lists counts.

(** lines 480-497: state 0 is the start state; the first hypothesis allocates the
    states 1 .. count - 1; [None] stands for -1. *)
Fixpoint assign_states (count0 : nat) (base : option (list (option nat))) (counts : list nat)
  : list (list (option nat)) :=
  match counts with
  | [] => []
  | c :: counts' =>
    if Nat.eqb c count0 then
      let ws := match base with Some ws => ws | None => map Some (seq 1 (c - 1)) end in
      ws :: assign_states count0 (Some ws) counts'
    else repeat None (c - 1) :: assign_states count0 base counts'
  end.
Record alignment := Alignment { kept : list hyp; ws_states : list (list (option nat)); num_states : nat }.
Definition SimpleAlign (input_length : nat) (lists : list hyp) : run alignment :=
  match lists with
  | [] => Fine (Alignment [] [] 0)
  | _ =>
    bind (map_run (fun h => GetWordCount (fst h)) lists) (fun counts =>
    bind (prune_step input_length lists counts) (fun p =>
    let '(lists', counts') := p in
    match counts' with
    | [] => Fine (Alignment [] [] 1)
    | c :: _ => Fine (Alignment lists' (assign_states c None counts') (1 + (c - 1)))
    end))
  end.

(** BuildAlignWfst, lines 404-440: the arcs (source, target, word) of align_fst_
    before word symbols are numbered; the final state is the next new state. *)
Definition word_arc := (nat * nat * str)%type.
Fixpoint hyp_arcs (curr_state : nat) (ws : list (option nat)) (seq : list str) : run (list word_arc) :=
  match ws, seq with
  | [], _ => Fine []
  | _ :: _, [] => OutOfRange
  | None :: _, _ :: _ => Check
  | Some ws_pos :: ws', w :: seq' =>
    bind (hyp_arcs ws_pos ws' seq') (fun r => Fine ((curr_state, ws_pos, w) :: r))
  end.
Fixpoint all_arcs (final : nat) (hyps : list hyp) (states : list (list (option nat))) : run (list word_arc) :=
  match hyps, states with
  | [], _ => Fine []
  | _ :: _, [] => OutOfRange
  | h :: hyps', ws :: states' =>
    bind (tokens (fst h)) (fun seq =>
    qcheck (Nat.eqb (length ws + 1) (length seq))
    (bind (hyp_arcs 0 (ws ++ [Some final]) seq) (fun a =>
     bind (all_arcs final hyps' states') (fun r => Fine (a ++ r)))))
  end.
Definition BuildAlign (a : alignment) : run (nat * list word_arc) :=
  bind (all_arcs (num_states a) (kept a) (ws_states a)) (fun arcs => Fine (num_states a, arcs)).

(** ** Combining systems, lines 112-136 *)
Fixpoint combine_items {A} (a b : list (list A)) : run (list (list A)) :=
  match a, b with
  | [], [] => Fine []
  | x :: a', y :: b' => bind (combine_items a' b') (fun r => Fine ((x ++ y) :: r))
  | _, _ => Check
  end.
(** An empty list of systems would be an access out of range; the caller
    requires at least two. *)
Definition VerifyCombineEnsembleInputs {A} (systems : list (list (list A))) : run (list (list A)) :=
  match systems with
  | [] => OutOfRange
  | s :: l => fold_left (fun acc x => bind acc (fun c => combine_items c x)) l (Fine s)
  end.

(** ** Splitting lines: absl::StrSplit(str, '\t', absl::SkipEmpty()) *)
Fixpoint split_char (d : N) (s : str) : str * list str :=
  match s with
  | [] => ([], [])
  | c :: s' =>
    let (p, ps) := split_char d s' in
    if N.eqb c d then ([], p :: ps) else (c :: p, ps)
  end.
Definition fields (line : str) : list str :=
  let (p, ps) := split_char 9%N line in filter SkipEmpty (p :: ps).

(** curr_list.back().push_back(x) *)
Fixpoint push_back_last {A} (l : list (list A)) (x : A) : run (list (list A)) :=
  match l with
  | [] => OutOfRange
  | [a] => Fine [a ++ [x]]
  | a :: l' => bind (push_back_last l' x) (fun r => Fine (a :: r))
  end.

Section Numbers.
  (** std::stod (as a score) and std::stoi; [None]: exception *)
  Variable stod : str -> option Z.
  Variable stoi : str -> option Z.

  (** ** KbestRejoiner, lines 635-674 *)
  Fixpoint steps_ok (indices : list Z) : bool :=
    match indices with
    | a :: (b :: _) as l => (a <=? b)%Z && (b <=? a + 1)%Z && steps_ok l
    | _ => true
    end.

  Record rejoin_state := RejoinState {
    kbest_lists : list (list (list hyp)); curr_list : list (list hyp);
    last_input : str; output_idx : nat; max_kbest : nat }.

  Definition max_size (m : nat) (l : list (list hyp)) : nat :=
    fold_left (fun m s => if m <? length s then length s else m) l m.

  (** lines 650-669, one line; the unsigned output_indices_.size() - 1 wraps to
      the largest number if there are no indices. *)
  Definition rejoin_line (indices : list Z) (s : rejoin_state) (line : str) : run rejoin_state :=
    match fields line with
    | [input; output; score] =>
      bind (if SkipEmpty (last_input s) && negb (str_eqb input (last_input s)) then
              qcheck (match indices with [] => true | _ => output_idx s <? length indices - 1 end)
              (bind (at_ indices (output_idx s)) (fun i =>
               bind (at_ indices (S (output_idx s))) (fun j =>
               let s' := if Z.eqb i j then s
                         else RejoinState (kbest_lists s ++ [curr_list s]) [] (last_input s) (output_idx s)
                                (max_size (max_kbest s) (curr_list s)) in
               Fine (RejoinState (kbest_lists s') (curr_list s' ++ [[]]) (last_input s') (S (output_idx s'))
                       (max_kbest s')))))
            else Fine s) (fun s' =>
      match stod score with
      | None => Exn
      | Some x =>
        bind (push_back_last (curr_list s') (output, x)) (fun c =>
        Fine (RejoinState (kbest_lists s') c input (output_idx s') (max_kbest s')))
      end)
    | _ => Check
    end.

  Definition rejoin_lines (indices : list Z) (lines : list str) : run rejoin_state :=
    fold_left (fun acc line => bind acc (fun s => rejoin_line indices s line)) lines
      (Fine (RejoinState [] [[]] [] 0 0)).

  (** Result: kbest_lists_ and kbest_; a [kbest] of zero or less is given as 0. *)
  Definition InitializeKbestRejoiner (lines : list str) (indices : list Z) (kbest : nat)
    : run (list (list (list hyp)) * nat) :=
    qcheck (steps_ok indices)
    (match lines with
     | [] => Fine ([], kbest)
     | _ =>
       bind (rejoin_lines indices lines) (fun s =>
       let lists := kbest_lists s ++ [curr_list s] in
       match rev indices with
       | [] => OutOfRange
       | b :: _ => qcheck (Z.eqb (Z.of_nat (length lists)) (b + 1)%Z)
                     (Fine (lists, if 0 <? kbest then kbest else max_kbest s))
       end)
     end).

  (** ** KbestExtractor::InitializeKbestExtractor, lines 560-592 *)
  Record extract_state := ExtractState {
    input_arcs : list (list (list hyp)); input_words : list (list str); input_index : list Z;
    str_arcs : list (list hyp); words : list str; last_idx : Z; last_pos : Z }.

  (** str_arcs[pos].push_back after the check that pos is the last index *)
  Definition extract_line (s : extract_state) (line : str) : run extract_state :=
    match fields line with
    | [f0; f1; f2; f3; f4] =>
      match stoi f0, stoi f1 with
      | Some idx, Some pos =>
        let s1 := if negb (Z.eqb idx (last_idx s)) && (0 <=? last_idx s)%Z
                  then ExtractState (input_arcs s ++ [str_arcs s]) (input_words s ++ [words s])
                         (input_index s ++ [last_idx s]) [] [] (last_idx s) (last_pos s)
                  else s in
        let s2 := if negb (Z.eqb idx (last_idx s)) || negb (Z.eqb pos (last_pos s))
                  then ExtractState (input_arcs s1) (input_words s1) (input_index s1)
                         (str_arcs s1 ++ [[]]) (words s1 ++ [f2]) (last_idx s1) (last_pos s1)
                  else s1 in
        qcheck (Z.eqb (Z.of_nat (length (str_arcs s2))) (pos + 1)%Z)
        match stod f4 with
        | None => Exn
        | Some x =>
          bind (push_back_last (str_arcs s2) (f3, x)) (fun a =>
          Fine (ExtractState (input_arcs s2) (input_words s2) (input_index s2) a (words s2) idx pos))
        end
      | _, _ => Exn
      end
    | _ => Check
    end.

  (** Result: input_arcs_, input_words_ (before joining with blanks) and
      input_index_. *)
  Definition InitializeKbestExtractor (lines : list str)
    : run (list (list (list hyp)) * list (list str) * list Z) :=
    match lines with
    | [] => Fine ([], [], [])
    | _ =>
      bind (fold_left (fun acc line => bind acc (fun s => extract_line s line)) lines
              (Fine (ExtractState [] [] [] [] [] (-1)%Z (-1)%Z))) (fun s =>
      Fine (input_arcs s ++ [str_arcs s], input_words s ++ [words s], input_index s ++ [last_idx s]))
    end.
End Numbers.

(** ** Rejoining, lines 298-384 *)
(** absl::StrJoin(parts, " ") *)
Fixpoint join_blank (ps : list str) : str :=
  match ps with
  | [] => []
  | [p] => p
  | p :: ps' => p ++ 32%N :: join_blank ps'
  end.

(** kbest_lists[i][best_cand[i] - 1] for all i *)
Fixpoint pick (lists : list (list hyp)) (cand : list nat) : run (list hyp) :=
  match lists, cand with
  | [], [] => Fine []
  | l :: lists', S j :: cand' =>
    bind (at_ l j) (fun h => bind (pick lists' cand') (fun r => Fine (h :: r)))
  | _, _ => OutOfRange
  end.

Section Search.
  (** ShortestPath(fst, &kbest_cands, kbest) followed by GatherBestCands, as a
      function of the arc costs of the lattice: the label sequences found. *)
  Variable shortest_paths : list (list Z) -> nat -> list (list nat).

  Definition RejoinList (lists : list (list hyp)) (kbest : nat) : run (list hyp) :=
    match lists with
    | [] => Check
    | [l] => Fine l
    | _ =>
      let best_cands := shortest_paths (map (map snd) lists) kbest in
      match best_cands with
      | [] => Check
      | _ =>
        map_run (fun c => qcheck (Nat.eqb (length c) (length lists))
          (bind (pick lists c) (fun hs =>
           Fine (join_blank (map fst hs), fold_left Z.add (map snd hs) 0%Z)))) best_cands
      end
    end.

  Definition norm_ws (s : str) : run str := bind (tokens s) (fun ts => Fine (join_blank ts)).
  Definition WhitespaceNorm (l : list hyp) : run (list hyp) :=
    map_run (fun h => bind (norm_ws (fst h)) (fun s => Fine (s, snd h))) l.

  (** lines 676-690 *)
  Definition GetRejoinedList (rj : list (list (list hyp)) * nat) (idx : nat) : run (list hyp) :=
    if idx <? length (fst rj) then
      bind (at_ (fst rj) idx) (fun l => bind (RejoinList l (snd rj)) WhitespaceNorm)
    else Fine [].
End Search.
