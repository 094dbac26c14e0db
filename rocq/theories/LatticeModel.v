(** Model of nisaba/translit/fst/pairlm_decoder.cc, part 2: lattices of candidates,
    and of nisaba/translit/fst/pairlm_decoder_runner.cc.  Costs (doubles) are
    integers.  A lattice ("sausage") is the list of its positions; the arcs of
    position n lead from state n to state n + 1.  [None] is the FST without
    states. *)
From Verif Require Import Base DelimModel KbestModel ErrorRateModel.
From Verif Require PoolModel.

Record arc := Arc { ilabel : Z; olabel : Z; weight : Z }.
Notation sausage := (list (list arc)).

(** ** ApplyArcScoreThresh, lines 289-321 *)
(** std::sort of pairs of score and arc index *)
Definition pair_leb (a b : Z * nat) : bool :=
  (fst a <? fst b)%Z || (Z.eqb (fst a) (fst b) && (snd a <=? snd b)).
Fixpoint insert_pair (x : Z * nat) (l : list (Z * nat)) : list (Z * nat) :=
  match l with
  | [] => [x]
  | y :: l' => if pair_leb x y then x :: l else y :: insert_pair x l'
  end.
Fixpoint sort_pairs (l : list (Z * nat)) : list (Z * nat) :=
  match l with [] => [] | x :: l' => insert_pair x (sort_pairs l') end.

Definition arc_score (costs : option (list Z)) (a : arc) : run Z :=
  qcheck (0 <? ilabel a)%Z
  match costs with
  | Some cs => qcheck (ilabel a <? Z.of_nat (length cs))%Z (at_ cs (Z.to_nat (ilabel a)))
  | None => Fine (weight a)
  end.
Fixpoint set_true (i : nat) (l : list bool) : list bool :=
  match i, l with
  | _, [] => []
  | 0, _ :: l' => true :: l'
  | S i', b :: l' => b :: set_true i' l'
  end.
(** [bound] is -log(min_cand_posterior), [None] if min_cand_posterior <= 0. *)
Fixpoint keep_loop (i : nat) (best : list (Z * nat)) (bound : option Z) (keep_arc : list bool) : run (list bool) :=
  match best with
  | [] => Fine keep_arc
  | (score, arc_idx) :: best' =>
    if Nat.eqb i 0 || match bound with None => true | Some b => (score <=? b)%Z end
    then qcheck (arc_idx <? length keep_arc) (keep_loop (S i) best' bound (set_true arc_idx keep_arc))
    else keep_loop (S i) best' bound keep_arc
  end.
Definition ApplyArcScoreThresh (arcs : list arc) (k_best : nat) (bound : option Z) (costs : option (list Z))
  : run (list bool) :=
  qcheck (k_best <? length arcs)
  (bind (map_run (arc_score costs) arcs) (fun values =>
   keep_loop 0 (firstn k_best (sort_pairs (combine values (seq 0 (length arcs))))) bound
     (repeat false (length arcs)))).

(** "NumArcs(s) > k_best" compares unsigned numbers: a negative limit is none. *)
Definition exceeds (arcs : list arc) (k_best : Z) : bool :=
  (0 <=? k_best)%Z && (k_best <? Z.of_nat (length arcs))%Z.
Definition pick_arcs (arcs : list arc) (keep_arc : list bool) : list arc :=
  map fst (filter (fun p => snd p) (combine arcs keep_arc)).

(** fst::Connect after pruned arcs were sent to a dead state: a position without
    arcs cuts all paths. *)
Definition connect (l : sausage) : option sausage :=
  if existsb (fun arcs => match arcs with [] => true | _ => false end) l then None else Some l.

(** ** ApplyFinalKBestFilter, lines 1110-1138 *)
Definition ApplyFinalKBestFilter (k_best : Z) (bound : option Z) (l : sausage) : run (option sausage) :=
  bind (map_run (fun arcs =>
          if exceeds arcs k_best
          then bind (ApplyArcScoreThresh arcs (Z.to_nat k_best) bound None) (fun keep => Fine (pick_arcs arcs keep))
          else Fine arcs) l)
  (fun l' => Fine (connect l')).

(** ** AssignLabelsAndCostsToTranslitLattice, lines 1140-1183 *)
Definition find_input (input_syms : list str) (word : str) : run Z :=
  match find_sym word input_syms with
  | Some n => qcheck (0 <? Z.of_nat n)%Z (Fine (Z.of_nat n))
  | None => Check
  end.
Definition index_ {A} (l : list A) (i : Z) : run A := if (i <? 0)%Z then OutOfRange else at_ l (Z.to_nat i).
Definition relabel_arc (input_sym : Z) (ids : list Z) (costs : list Z) (a : arc) : run arc :=
  bind (index_ costs (ilabel a)) (fun c => bind (index_ ids (ilabel a)) (fun id => Fine (Arc input_sym id c))).
Definition assign_position (input_syms : list str) (ids costs : list Z) (k_best : Z) (bound : option Z)
  (word : str) (arcs : list arc) : run (list arc) :=
  bind (find_input input_syms word) (fun input_sym =>
  bind (if exceeds arcs k_best
        then bind (ApplyArcScoreThresh arcs (Z.to_nat k_best) bound (Some costs)) (fun keep => Fine (pick_arcs arcs keep))
        else Fine arcs)
  (fun kept => map_run (relabel_arc input_sym ids costs) kept)).
Fixpoint map2_run {A B C} (f : A -> B -> run C) (l : list A) (m : list B) : run (list C) :=
  match l, m with
  | a :: l', b :: m' => bind (f a b) (fun c => bind (map2_run f l' m') (fun cs => Fine (c :: cs)))
  | _, _ => Fine []
  end.
Definition AssignLabelsAndCostsToTranslitLattice (input_syms : list str) (ids costs : list Z) (k_best : Z)
  (bound : option Z) (input_line : str) (l : sausage) : run (option sausage) :=
  bind (tokens input_line) (fun ws =>
  qcheck (Nat.eqb (length ws) (length l))
  (bind (map2_run (assign_position input_syms ids costs k_best bound) ws l) (fun l' => Fine (connect l')))).

(** ** BuildTransliterationFst, lines 1007-1063 *)
(** A word's lattice: the arcs of its start state.  The thread pool writes
    translit_fsts[i]; entries not written are the FST without states, and
    NumArcs(Start()) then reads outside the array of states. *)
Definition word_fst := (option (list arc)).
Definition write_results (results : nat -> list arc) (executed : list nat) (n : nat) : list word_fst :=
  map (fun i => if existsb (Nat.eqb i) executed then Some (results i) else None) (seq 0 n).

Fixpoint insert_olabel (x : arc) (l : list arc) : list arc :=
  match l with
  | [] => [x]
  | y :: l' => if (olabel x <=? olabel y)%Z then x :: l else y :: insert_olabel x l'
  end.
(** ArcSort(OLabelCompare); equal labels stay in order *)
Fixpoint arc_sort (l : list arc) : list arc :=
  match l with [] => [] | x :: l' => insert_olabel x (arc_sort l') end.

(** [with_lm]: lm_fst_ != nullptr *)
Definition add_arcs (with_lm : bool) (input_syms : list str) (word : str) (arcs : list arc) (ids : list Z)
  : run (list arc * list Z) :=
  if with_lm
  then Fine (map (fun p => Arc (Z.of_nat (length ids + fst p)) (olabel (snd p)) (weight (snd p)))
               (combine (seq 0 (length arcs)) arcs),
             ids ++ map ilabel arcs)
  else bind (map_run (fun a => bind (find_input input_syms word) (fun i => Fine (Arc i (olabel a) (weight a)))) arcs)
       (fun arcs' => Fine (arcs', ids)).
Fixpoint build_loop (with_lm : bool) (input_syms : list str) (words : list str) (fsts : list word_fst) (ids : list Z)
  : run (sausage * list Z) :=
  match words, fsts with
  | w :: words', f :: fsts' =>
    match f with
    | None => OutOfRange
    | Some arcs =>
      qcheck (1 <=? length arcs)
      (bind (add_arcs with_lm input_syms w arcs ids) (fun r =>
       bind (build_loop with_lm input_syms words' fsts' (snd r)) (fun rest =>
       Fine (fst r :: fst rest, snd rest))))
    end
  | _, _ => Fine ([], ids)
  end.
Definition kNoLabel : Z := (-1)%Z.
(** The pool: ThreadPool pool(n) without
    StartWorkers, then Schedule for each word. *)
Definition pool_ops (n : nat) : list PoolModel.op := map PoolModel.Schedule (seq 0 n).
Definition BuildTransliterationFst (with_lm : bool) (input_syms : list str) (words : list str)
  (results : nat -> list arc) (executed : list nat) : run (sausage * list Z) :=
  bind (build_loop with_lm input_syms words (write_results results executed (length words)) [kNoLabel]) (fun r =>
  Fine (map arc_sort (fst r), snd r)).

(** ** RemoveContext, lines 365-380 *)
Definition RemoveContext (l : sausage) : list arc := concat l.

(** ** BuildUnicodeToPairTransducer, lines 201-233 *)
(** The arcs of its only state: input and output label. *)
Section Pairs.
  Variable SimpleAtoi : str -> option Z.
  Definition semi_fields (s : str) : list str :=
    let (p, ps) := split_char 59%N s in filter SkipEmpty (p :: ps).
  Definition pair_arc (invert_pairlm : bool) (label : nat) (symbol : str) : run (list (Z * Z)) :=
    if label =? 0 then Fine [] else
    match semi_fields symbol with
    | [a; b] => match SimpleAtoi (if invert_pairlm then b else a) with
                | Some isym => Fine [(isym, Z.of_nat label)]
                | None => Check
                end
    | _ => Fine []
    end.
  Definition BuildUnicodeToPairTransducer (syms : list str) (invert_pairlm flip_transducer : bool)
    : run (list (Z * Z)) :=
    bind (map_run (fun p => pair_arc invert_pairlm (fst p) (snd p)) (combine (seq 0 (length syms)) syms)) (fun ll =>
    Fine (if flip_transducer then map (fun a => (snd a, fst a)) (concat ll) else concat ll)).
End Pairs.

(** ** PrintTransliterations, lines 1224-1257 *)
Section Print.
  (** absl::StrCat of an int and of a float *)
  Variable show_int : nat -> str.
  Variable show_weight : Z -> str.
  (** SymbolTable::Find(label): the empty string if there is none *)
  Definition symbol_text (syms : list str) (label : Z) : str :=
    if (label <? 0)%Z then [] else match nth_error syms (Z.to_nat label) with Some s => s | None => [] end.
  Fixpoint join_with (d : N) (ps : list str) : str :=
    match ps with
    | [] => []
    | [p] => p
    | p :: ps' => p ++ d :: join_with d ps'
    end.
  Definition common_columns (input_syms output_syms : list str) (state : nat) (a : arc) : str :=
    join_with 9%N [show_int state; symbol_text input_syms (ilabel a); symbol_text output_syms (olabel a);
                   show_weight (weight a)].
  Definition print_arc (line_prefix : str) (input_syms output_syms : list str) (state : nat) (a : arc) : str :=
    match line_prefix with
    | [] => common_columns input_syms output_syms state a
    | _ => join_with 9%N [line_prefix; common_columns input_syms output_syms state a]
    end.
  Definition PrintTransliterations (line_prefix : str) (input_syms output_syms : list str) (l : option sausage)
    (include_final_endline : bool) : run str :=
    match l with
    | None => OutOfRange
    | Some ps =>
      let state_cands := flat_map (fun p => map (print_arc line_prefix input_syms output_syms (fst p)) (snd p))
                           (combine (seq 0 (length ps)) ps) in
      Fine (join_with 10%N (state_cands ++ if include_final_endline then [[]] else []))
    end.
End Print.

(** ** The runner, pairlm_decoder_runner.cc *)
Section Runner.
  (** Transliterate, lines 44-49: line and index to text.  The state of the decoder
      (its cache) is not seen. *)
  Variable Transliterate : str -> nat -> str.
  Definition comment (line : str) : bool := match line with 35%N :: _ => true | _ => false end.

  (** lines 52-67 *)
  Fixpoint sequential_loop (index : nat) (input_lines : list str) : str :=
    match input_lines with
    | [] => []
    | line :: rest =>
      if comment line then sequential_loop index rest
      else Transliterate line index ++ sequential_loop (S index) rest
    end.
  Definition SequentialDecoding (input_lines : list str) : str := sequential_loop 0 input_lines.

  (** lines 70-113: the lines scheduled, with their indices. *)
  Fixpoint schedule_loop (index : nat) (input_lines : list str) : list (str * nat) :=
    match input_lines with
    | [] => []
    | line :: rest =>
      if comment line then schedule_loop index rest else (line, index) :: schedule_loop (S index) rest
    end.
  (** std::sort of the outputs by index *)
  Fixpoint insert_output (x : str * nat) (l : list (str * nat)) : list (str * nat) :=
    match l with
    | [] => [x]
    | y :: l' => if snd x <? snd y then x :: l else y :: insert_output x l'
    end.
  Fixpoint sort_outputs (l : list (str * nat)) : list (str * nat) :=
    match l with [] => [] | x :: l' => insert_output x (sort_outputs l') end.
  (** What the tasks append, in the order in which they do. *)
  Definition task_output (tasks : list (str * nat)) (i : nat) : list (str * nat) :=
    match nth_error tasks i with Some t => [(Transliterate (fst t) (snd t), snd t)] | None => [] end.
  Definition written (tasks : list (str * nat)) (finished_tasks : list nat) : str :=
    concat (map fst (sort_outputs (flat_map (task_output tasks) finished_tasks))).

  (** ParallelDecoding makes the pool with std::make_unique<ThreadPool>(num_workers)
      and schedules; it does not call StartWorkers. *)
  Definition parallel_ops (input_lines : list str) : list PoolModel.op :=
    pool_ops (length (schedule_loop 0 input_lines)).
  (** The same with StartWorkers. *)
  Definition started_ops (num_workers : nat) (input_lines : list str) : list PoolModel.op :=
    PoolModel.StartWorkers num_workers ++ parallel_ops input_lines.
End Runner.
