(** Model of nisaba/translit/tools/calculate_error_rate.{h,cc}: edit distances by
    a minimum-cost alignment, the choice among several references, totals and
    pairwise distances.  Costs of test items (doubles) are integers; counts are
    natural numbers and rates exact fractions; composition with the alignment
    model followed by ShortestPath is a parameter; the output text and the
    probabilities in it are not modelled. *)
From Verif Require Import Base Utf8Model DelimModel KbestModel.

(** ** Edit distance *)
(** "<epsilon>", the first symbol of the tables *)
Definition epsilon_token : str := [60; 101; 112; 115; 105; 108; 111; 110; 62]%N.

(** A symbol table: the symbol at position n has key n. *)
Fixpoint find_sym (tok : str) (syms : list str) : option nat :=
  match syms with
  | [] => None
  | s :: syms' => if str_eqb tok s then Some 0 else option_map S (find_sym tok syms')
  end.

(** GetStringFst, lines 79-96: the labels of the linear automaton and the table *)
Fixpoint GetStringFst (toks : list str) (syms : list str) : list nat * list str :=
  match toks with
  | [] => ([], syms)
  | t :: toks' =>
    let (sym, syms1) := match find_sym t syms with
                        | Some i => (i, syms)
                        | None => (length syms, syms ++ [t])
                        end in
    let (ls, syms2) := GetStringFst toks' syms1 in (sym :: ls, syms2)
  end.

(** AlignStringFsts, lines 98-119: input label, output label, cost *)
Definition mod_arc := (nat * nat * nat)%type.
Definition align_mod (num_symbols : nat) : list mod_arc :=
  flat_map (fun sym =>
    [(sym, 0, 1); (0, sym, 1)] ++
    map (fun sub_sym => (sym, sub_sym, if Nat.eqb sym sub_sym then 0 else 1)) (seq 1 (num_symbols - 1)))
    (seq 1 (num_symbols - 1)).

Record edit_distance := EditDistance {
  reference_length : nat; substitutions : nat; insertions : nat; deletions : nat }.
Definition Edits (e : edit_distance) : nat := substitutions e + insertions e + deletions e.

(** lines 128-147 *)
Fixpoint count_edits (path : list (nat * nat)) (e : edit_distance) : edit_distance :=
  match path with
  | [] => e
  | (ilabel, olabel) :: path' =>
    count_edits path'
      (if negb (Nat.eqb ilabel olabel) then
         if Nat.eqb ilabel 0 then
           EditDistance (reference_length e) (substitutions e) (insertions e) (S (deletions e))
         else if Nat.eqb olabel 0 then
           EditDistance (reference_length e) (substitutions e) (S (insertions e)) (deletions e)
         else EditDistance (reference_length e) (S (substitutions e)) (insertions e) (deletions e)
       else e)
  end.

(** An output and its cost. *)
Notation item := (str * Z)%type.

Section Align.
  (** GetMinErrorAlignment, lines 46-58: arcs of the alignment model, labels of the
      input and the output automaton; result: the labels along the path found. *)
  Variable min_alignment : list mod_arc -> list nat -> list nat -> list (nat * nat).

  (** lines 121-166 *)
  Definition CalculatePairEditDistance (ref_string test_string : list str) : edit_distance :=
    let (ref_fst, syms1) := GetStringFst ref_string [epsilon_token] in
    let (test_fst, syms2) := GetStringFst test_string syms1 in
    count_edits (min_alignment (align_mod (length syms2)) test_fst ref_fst)
      (EditDistance (length ref_fst) 0 0 0).
  Definition CalculatePairEditDistanceValue (ref_string test_string : list str) : nat :=
    Edits (CalculatePairEditDistance ref_string test_string).

  (** ** Inputs *)
  (** lines 168-180 *)
  Definition MaybeSplitChars (s : str) (split_chars : bool) : run (list str) :=
    bind (tokens s) (fun ts =>
    if split_chars then
      match str_split_by_char (join_blank ts) with Some cs => Fine cs | None => Exn end
    else Fine ts).

  (** lines 393-405: the text "<epsilon>" is symbol 0 and
      stands for no text. *)
  Definition GetTokenizedString (split_chars : bool) (items : list item) (k : nat) : run (list str) :=
    match nth_error items k with
    | None => Fine []
    | Some (text, _) => if str_eqb text epsilon_token then Fine [] else MaybeSplitChars text split_chars
    end.

  (** ReadInputs, lines 349-391, for one line: index, text, value.  The vector is
      enlarged when the index is beyond its end. *)
  Fixpoint push_at (inputs : list (list item)) (idx : nat) (x : item) : list (list item) :=
    match idx, inputs with
    | 0, [] => [[x]]
    | 0, l :: inputs' => (l ++ [x]) :: inputs'
    | S i, [] => [] :: push_at [] i x
    | S i, l :: inputs' => l :: push_at inputs' i x
    end.
  Definition ReadInputs (lines : list (nat * item)) : list (list item) :=
    fold_left (fun acc l => push_at acc (fst l) (snd l)) lines [].

  (** ** Rates, ErrorRate() and operator< on doubles: 0/0 is NaN, n/0 infinite. *)
  Definition BetterErrorValues (a b : edit_distance) : bool :=
    match reference_length a, reference_length b with
    | 0, 0 => false
    | 0, S _ => false
    | S _, 0 => match Edits b with 0 => false | _ => true end
    | la, lb => Edits a * lb <? Edits b * la
    end.

  (** lines 408-414 *)
  Fixpoint min_cost_loop (items : list item) (i : nat) (best : nat * Z) : nat :=
    match items with
    | [] => fst best
    | (_, c) :: items' => min_cost_loop items' (S i) (if (c <? snd best)%Z then (i, c) else best)
    end.
  Definition min_cost_item (items : list item) : nat :=
    match items with [] => 0 | (_, c) :: items' => min_cost_loop items' 1 (0, c) end.

  (** lines 415-431: the loop over the references *)
  Fixpoint best_reference (test : list str) (refs : list (list str)) (best : option edit_distance)
    : option edit_distance :=
    match refs with
    | [] => best
    | r :: refs' =>
      let this := CalculatePairEditDistance r test in
      best_reference test refs'
        (match best with
         | None => Some this
         | Some b => if BetterErrorValues this b then Some this else best
         end)
    end.
  Definition CalculateMinErrorRate (split_chars : bool) (refs tests : list item) : run edit_distance :=
    bind (GetTokenizedString split_chars tests (min_cost_item tests)) (fun test =>
    bind (map_run (GetTokenizedString split_chars refs) (seq 0 (length refs))) (fun rs =>
    Fine match best_reference test rs None with
         | Some e => e
         | None => EditDistance 0 0 0 0
         end)).

  (** lines 433-451 *)
  Definition CalculatePairwiseErrors (split_chars : bool) (refs tests : list item) : run (list (list nat)) :=
    map_run (fun i =>
      bind (GetTokenizedString split_chars tests i) (fun test =>
      map_run (fun j => bind (GetTokenizedString split_chars refs j) (fun ref =>
                        Fine (CalculatePairEditDistanceValue ref test))) (seq 0 (length refs))))
      (seq 0 (length tests)).

  (** lines 453-483, for either kind of result: examples without references add
      nothing. *)
  Fixpoint over_examples {A} (calc : list item -> list item -> run A)
    (references test_input : list (list item)) : run (list A) :=
    match references, test_input with
    | [], [] => Fine []
    | refs :: references', tests :: test_input' =>
      qcheck (match refs, tests with [], _ :: _ => false | _, _ => true end)
      (let tests' := match tests with [] => [(epsilon_token, 0%Z)] | _ => tests end in
       match refs with
       | [] => over_examples calc references' test_input'
       | _ => bind (calc refs tests') (fun e =>
              bind (over_examples calc references' test_input') (fun r => Fine (e :: r)))
       end)
    | _, _ => Check
    end.
  Definition CalculateErrorRate (split_chars : bool) (references test_input : list (list item)) :=
    qcheck (Nat.eqb (length references) (length test_input))
      (over_examples (CalculateMinErrorRate split_chars) references test_input).
  Definition CalculatePairwise (split_chars : bool) (references test_input : list (list item)) :=
    qcheck (Nat.eqb (length references) (length test_input))
      (over_examples (CalculatePairwiseErrors split_chars) references test_input).
End Align.

(** lines 276-282 and header lines 75-81: the totals *)
Definition add_distance (a b : edit_distance) : edit_distance :=
  EditDistance (reference_length a + reference_length b) (substitutions a + substitutions b)
    (insertions a + insertions b) (deletions a + deletions b).
Definition totals (l : list edit_distance) : edit_distance :=
  fold_left add_distance l (EditDistance 0 0 0 0).

(** ** Distance matrix of the JSON output *)
(** TransposeMatrix, lines 221-240 *)
Definition TransposeMatrix (matrix : list (list nat)) : run (list (list nat)) :=
  match matrix with
  | [] => Fine []
  | row0 :: _ => map_run (fun i => map_run (fun row => at_ row i) matrix) (seq 0 (length row0))
  end.
(** GetDistances, lines 242-261: the rows that are printed *)
Definition GetDistances (dists : list (list nat)) : run (list (list nat)) :=
  match dists with
  | [] => Fine []
  | row0 :: _ =>
    bind (TransposeMatrix dists) (fun transposed =>
    Fine (map (fun d => repeat 0 (length dists) ++ d) dists ++
          map (fun t => t ++ repeat 0 (length row0)) transposed))
  end.

(** WritePairwiseEdits, lines 299-337: the matrix printed for every example is
    pairwise_edits_[idx]. *)
Definition printed_matrices (references : list (list item)) (pairwise_edits : list (list (list nat)))
  : run (list (list (list nat))) :=
  map_run (fun idx => bind (at_ pairwise_edits idx) GetDistances) (seq 0 (length references)).
