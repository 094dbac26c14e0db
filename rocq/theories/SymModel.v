(** The automaton of the closure of an expression.  The string maps of the expression are
    given by numbers, so that states can be compared; a state is the rest of a pair that is
    being read, and the expressions still to come before the closure goes on. *)
From Verif Require Import Base RuleModel VisualModel ScriptData IsoModel MachineModel.

Inductive swt := SLeaf (n : nat) | SEps (w : N) | SCat (a b : swt) | SAlt (a b : swt) | SStar (a : swt).
Definition maps := list (list (str * str)).
Definition map_at (env : maps) (n : nat) : list (str * str) := match nth_error env n with Some l => l | None => [] end.
Fixpoint denote (env : maps) (s : swt) : wt :=
  match s with
  | SLeaf n => WPairs (map_at env n)
  | SEps w => WEps w
  | SCat a b => WCat (denote env a) (denote env b)
  | SAlt a b => WAlt (denote env a) (denote env b)
  | SStar a => WStar (denote env a)
  end.
Fixpoint swt_eqb (a b : swt) : bool :=
  match a, b with
  | SLeaf n, SLeaf m => Nat.eqb n m
  | SEps w, SEps v => N.eqb w v
  | SCat a1 a2, SCat b1 b2 => if swt_eqb a1 b1 then swt_eqb a2 b2 else false
  | SAlt a1 a2, SAlt b1 b2 => if swt_eqb a1 b1 then swt_eqb a2 b2 else false
  | SStar a1, SStar b1 => swt_eqb a1 b1
  | _, _ => false
  end.
Fixpoint stack_eqb (a b : list swt) : bool :=
  match a, b with [], [] => true | x :: a', y :: b' => if swt_eqb x y then stack_eqb a' b' else false | _, _ => false end.

(** What is left of a pair: nothing, or input and output *)
Notation sstate := (option (str * str) * list swt)%type.
Definition rest_eqb (a b : option (str * str)) : bool :=
  match a, b with
  | None, None => true
  | Some (i, o), Some (i', o') => if str_eqb i i' then str_eqb o o' else false
  | _, _ => false
  end.
Definition sstate_eqb (a b : sstate) : bool := if rest_eqb (fst a) (fst b) then stack_eqb (snd a) (snd b) else false.

Definition sstate_hash (q : sstate) : positive :=
  match fst q with
  | None => 1
  | Some (i, o) => Pos.succ (key (fold_left N.add o (fold_left N.add i 0%N)))
  end.

Notation move := (str * N * N * sstate)%type.
Definition pre_move (p : str * N) (m : move) : move := let '(o, w, c, q) := m in (fst p ++ o, (snd p + w)%N, c, q).
Definition read_row (i o : str) (k : list swt) : list move :=
  match i with
  | [] => []
  | [c] => [(o, 0%N, c, (None, k))]
  | c :: t => [([], 0%N, c, (Some (t, o), k))]
  end.
(** Outputs and costs with no input *)
Fixpoint nulls (env : maps) (s : swt) : list (str * N) :=
  match s with
  | SLeaf n => flat_map (fun '(i, o) => match i with [] => [(o, 0%N)] | _ => [] end) (map_at env n)
  | SEps w => [([], w)]
  | SCat a b => flat_map (fun p => map (fun q => (fst p ++ fst q, (snd p + snd q)%N)) (nulls env b)) (nulls env a)
  | SAlt a b => nulls env a ++ nulls env b
  | SStar _ => [([], 0%N)]
  end.
(** Moves into the expression, before going on with [k] *)
Fixpoint direct (env : maps) (s : swt) (k : list swt) : list move :=
  match s with
  | SLeaf n => flat_map (fun '(i, o) => read_row i o k) (map_at env n)
  | SEps _ => []
  | SCat a b =>
    direct env a (b :: k) ++ match nulls env a with [] => [] | l => let m := direct env b k in flat_map (fun p => map (pre_move p) m) l end
  | SAlt a b => direct env a k ++ direct env b k
  | SStar a => direct env a (s :: k)
  end.
Fixpoint stack_moves (env : maps) (body : swt) (k : list swt) : list move :=
  match k with
  | [] => direct env body []
  | s :: r => direct env s r ++ match nulls env s with [] => [] | l => let m := stack_moves env body r in flat_map (fun p => map (pre_move p) m) l end
  end.
Fixpoint stack_nulls (env : maps) (k : list swt) : list (str * N) :=
  match k with
  | [] => [([], 0%N)]
  | s :: r => match nulls env s with [] => [] | l => let m := stack_nulls env r in flat_map (fun p => map (fun q => (fst p ++ fst q, (snd p + snd q)%N)) m) l end
  end.
Definition moves (env : maps) (body : swt) (q : sstate) : list move :=
  match fst q with
  | Some (i, o) => read_row i o (snd q)
  | None => stack_moves env body (snd q)
  end.
Definition sfinal (env : maps) (q : sstate) : list (str * N) :=
  match fst q with Some _ => [] | None => stack_nulls env (snd q) end.
Definition sdelta (env : maps) (body : swt) (q : sstate) (c : N) : list (str * N * sstate) :=
  flat_map (fun '(o, w, c', q') => if N.eqb c c' then [(o, w, q')] else []) (moves env body q).

(** The numbered automaton *)
Definition sstates (env : maps) (body : swt) (fuel : nat) : list (sstate * list move) :=
  reached_from _ _ sstate_eqb sstate_hash (moves env body) fuel (None, []).
Definition nfa_rows (env : maps) (states : list (sstate * list move)) : option (list (trie (list arc) * list (str * N))) :=
  let t := make_index _ sstate_hash 1 (map fst states) in
  all_some (map (fun p => match row _ _ sstate_eqb sstate_hash t (snd p) with
                          | Some r => Some (group r, sfinal env (fst p))
                          | None => None
                          end) states).
Definition alphabet_of (env : maps) : list N :=
  fold_right (fun c l => if memN c l then l else c :: l) [] (flat_map (fun l => flat_map fst l) env).
Fixpoint swt_star_ok (env : maps) (s : swt) : bool :=
  match s with
  | SLeaf _ | SEps _ => true
  | SCat a b | SAlt a b => swt_star_ok env a && swt_star_ok env b
  | SStar a => match nulls env a with [] => true | _ => false end && swt_star_ok env a
  end.
(** The automaton, and the machine of an expression.  [covered]: the letters of all moves
    are in the alphabet. *)
Definition covered (alphabet : list N) (states : list (sstate * list move)) : bool :=
  let t := fold_right (fun c t => tadd (key c) tt t) Empty alphabet in
  all_in (fun p => all_in (fun '(_, _, c, _) => match tfind (key c) t with Some _ => true | None => false end) (snd p)) states.
Definition make_nfa (env : maps) (body : swt) (alphabet : list N) (fuel : nat) : option nfa :=
  let states := sstates env body fuel in
  if covered alphabet states then match nfa_rows env states with Some l => Some (tlist 1 l) | None => None end else None.
Definition make_machine (A : nfa) (alphabet : list N) (D : dists) (fuel : nat) : option machine :=
  match config_rows A
          (reached_from _ _ config_eqb config_hash (expand_config A D alphabet) fuel (start_config 1)) with
  | Some l => Some (tlist 1 l)
  | None => None
  end.
Definition check_dists (A : nfa) (alphabet : list N) (l : list (positive * positive * N * N)) : bool :=
  let D := make_dists l in
  all_in (fun '(q, p, a, b) => check_dist A D alphabet p (q, a, b)) l.

(** All together; [None] if something cannot be decided *)
Definition decide (env : maps) (body : swt) (l : list (positive * positive * N * N)) (fuel : nat) : option machine :=
  if (if swt_star_ok env body then match nulls env body with [] => true | _ => false end else false) then
    let alphabet := alphabet_of env in
    match make_nfa env body alphabet fuel with
    | Some A => if check_dists A alphabet l then make_machine A alphabet (make_dists l) fuel else None
    | None => None
    end
  else None.

(** iso.py:118-139 with the string maps numbered *)
Definition iso_maps (d : script_data) : maps :=
  let pairs := map (fun r => (fst r, column2 r)) in
  [pairs (sd_consonant d);
   match sd_subjoined_consonant d with [] => [([], [])] | f => pairs f end;
   [([], [])];
   pairs (sd_vowel_sign d); pairs (sd_vowel d); pairs (sd_vowel_length_sign d); pairs (sd_coda d);
   pairs (sd_dead_consonant d); pairs (sd_standalone d);
   map (fun x => ([], x)) (inputs (sd_inherent_vowel d));
   [([], [45])]; [([], [46])];
   map (fun x => (x, [])) (inputs (sd_virama d));
   map (fun x => (x, [728])) (inputs (sd_virama d));
   [([8204], [124]); ([8205], [43])]]%N.
Fixpoint s_union (l : list swt) : swt :=
  match l with [] => SLeaf 99 | [a] => a | a :: r => SAlt a (s_union r) end.
Fixpoint s_concat (l : list swt) : swt :=
  match l with [] => SLeaf 99 | [a] => a | a :: r => SCat a (s_concat r) end.
(** The body of the closure *)
Definition iso_body : swt :=
  let consonant := SCat (SLeaf 0) (SAlt (SLeaf 1) (SLeaf 2)) in
  let vowel_sign := SLeaf 3 in
  let vowel := SLeaf 4 in
  let ins_inherent := SLeaf 9 in
  let del_virama := SLeaf 12 in
  let dot_vowel := SCat (SLeaf 11) vowel in
  let dot_vowels := SCat dot_vowel (SStar dot_vowel) in
  let low := SEps 1 in
  s_union
    [s_concat [consonant; vowel_sign];
     s_concat [consonant; ins_inherent; low];
     s_concat [consonant; del_virama; low];
     s_concat [vowel; low];
     s_concat [SLeaf 6; low];
     SLeaf 7;
     SLeaf 5;
     s_concat [SLeaf 8; low];
     s_concat [SLeaf 10; vowel_sign; SStar dot_vowel; low];
     s_concat [SLeaf 13; SEps 2];
     SLeaf 14;
     s_concat [vowel; dot_vowels; low];
     s_concat [consonant; vowel_sign; dot_vowels];
     s_concat [consonant; del_virama; dot_vowels];
     s_concat [consonant; ins_inherent; dot_vowels]].
Definition flip (env : maps) : maps := map (map (fun p => (snd p, fst p))) env.
