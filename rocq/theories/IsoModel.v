(** ISO 15919 romanization of Brahmic scripts, nisaba/scripts/brahmic/iso.py: the
    weighted transducer that brahmic_to_iso builds, as an expression over the pynini
    operations it uses, and its outputs with their costs for an input. *)
From Verif Require Import Base RuleModel VisualModel ScriptData.

(** A string map (StringFile, cross, insert, delete), an empty string with a weight
    (accep('', weight=w)), concatenation, union and closure.  Weights are those of the
    tropical semiring: costs that are added along a path, the least being best. *)
Inductive wt :=
| WPairs (l : list (str * str))
| WEps (w : N)
| WCat (a b : wt)
| WAlt (a b : wt)
| WStar (a : wt).

(** utils/file.py:50-53 StringFile: a line without a second column maps to itself. *)
Definition column2 (r : str * option str) : str := match snd r with Some o => o | None => fst r end.
Definition string_map (f : string_file) : wt := WPairs (map (fun r => (fst r, column2 r)) f).
(** pynutil.insert(x) is cross('', x) and delete(x) is cross(x, ''). *)
Definition insert (l : list str) : wt := WPairs (map (fun x => ([], x)) l).
Definition delete (l : list str) : wt := WPairs (map (fun x => (x, [])) l).
Definition cross_to (l : list str) (o : str) : wt := WPairs (map (fun x => (x, o)) l).
Definition w_plus (a : wt) : wt := WCat a (WStar a).
Definition w_ques (a : wt) : wt := WAlt a (WPairs [([], [])]).
(** utils/file.py:56-58 QuesSafe *)
Definition ques_safe (f : string_file) : wt :=
  w_ques (match f with [] => WPairs [([], [])] | _ => string_map f end).
Fixpoint w_union (l : list wt) : wt :=
  match l with [] => WPairs [] | [a] => a | a :: r => WAlt a (w_union r) end.
Fixpoint w_concat (l : list wt) : wt :=
  match l with [] => WPairs [([], [])] | [a] => a | a :: r => WCat a (w_concat r) end.

(** brahmic/data/symbol.textproto: zero width non-joiner and joiner *)
Definition common_symbol : wt := WPairs [([8204], [124]); ([8205], [43])]%N.

(** iso.py:57-139 brahmic_to_iso; optimize() keeps the relation. *)
Definition iso_units (d : script_data) : list wt :=
  let core_consonant := string_map (sd_consonant d) in
  let vowel_sign := string_map (sd_vowel_sign d) in
  let vowel := string_map (sd_vowel d) in
  let vowel_length_sign := string_map (sd_vowel_length_sign d) in
  let coda := string_map (sd_coda d) in
  let dead_consonant := string_map (sd_dead_consonant d) in
  let standalone := string_map (sd_standalone d) in
  let ins_inherent := insert (inputs (sd_inherent_vowel d)) in
  let ins_dash := insert [[45]]%N in
  let ins_dot := insert [[46]]%N in
  let del_virama := delete (inputs (sd_virama d)) in
  let virama_mark := cross_to (inputs (sd_virama d)) [728]%N in
  let low := WEps 1 in
  let very_low := WEps 2 in
  let consonant := WCat core_consonant (ques_safe (sd_subjoined_consonant d)) in
  let dot_vowel := WCat ins_dot vowel in
  [w_concat [consonant; vowel_sign];
   w_concat [consonant; ins_inherent; low];
   w_concat [consonant; del_virama; low];
   w_concat [vowel; low];
   w_concat [coda; low];
   dead_consonant;
   vowel_length_sign;
   w_concat [standalone; low];
   w_concat [ins_dash; vowel_sign; WStar dot_vowel; low];
   w_concat [virama_mark; very_low];
   common_symbol;
   w_concat [vowel; w_plus dot_vowel; low];
   w_concat [consonant; vowel_sign; w_plus dot_vowel];
   w_concat [consonant; del_virama; w_plus dot_vowel];
   w_concat [consonant; ins_inherent; w_plus dot_vowel]].
Definition iso_wt (d : script_data) : wt := WStar (w_union (iso_units d)).

(** pynini.invert, iso.py:156 *)
Fixpoint w_invert (r : wt) : wt :=
  match r with
  | WPairs l => WPairs (map (fun p => (snd p, fst p)) l)
  | WEps w => WEps w
  | WCat a b => WCat (w_invert a) (w_invert b)
  | WAlt a b => WAlt (w_invert a) (w_invert b)
  | WStar a => WStar (w_invert a)
  end.

(** All ways to read a start of [s]: output, cost and rest.  Rounds of a closure that read
    nothing are left out; [star_ok] says when this loses nothing. *)
Notation reading := (str * N * str)%type.
Definition put (o : str) (w : N) (p : reading) : reading := let '(o', w', t) := p in (o ++ o', (w + w')%N, t).
Definition cut_prefix (i s : str) : option str := if prefixb i s then Some (skipn (length i) s) else None.
Fixpoint read (r : wt) (s : str) {struct r} : list reading :=
  match r with
  | WPairs l => flat_map (fun p => match cut_prefix (fst p) s with Some t => [(snd p, 0%N, t)] | None => [] end) l
  | WEps w => [([], w, s)]
  | WCat a b => flat_map (fun '(o, w, t) => map (put o w) (read b t)) (read a s)
  | WAlt a b => read a s ++ read b s
  | WStar a =>
    (fix go (n : nat) (s : str) : list reading :=
       ([], 0%N, s) ::
       match n with
       | O => []
       | S n' => flat_map (fun '(o, w, t) => if Nat.ltb (length t) (length s) then map (put o w) (go n' t) else []) (read a s)
       end) (length s) s
  end.
(** Whether [r] reads the empty string, and whether no closure in [r] repeats such an
    expression (else a text can have infinitely many outputs). *)
Fixpoint reads_empty (r : wt) : bool :=
  match r with
  | WPairs l => existsb (fun p => match fst p with [] => true | _ => false end) l
  | WEps _ => true
  | WCat a b => reads_empty a && reads_empty b
  | WAlt a b => reads_empty a || reads_empty b
  | WStar _ => true
  end.
Fixpoint star_ok (r : wt) : bool :=
  match r with
  | WPairs _ | WEps _ => true
  | WCat a b | WAlt a b => star_ok a && star_ok b
  | WStar a => negb (reads_empty a) && star_ok a
  end.

(** The outputs of an input, and the best ones: what a shortest path gives. *)
Definition outs (r : wt) (s : str) : list (str * N) :=
  flat_map (fun '(o, w, t) => match t with [] => [(o, w)] | _ => [] end) (read r s).
Definition least (l : list (str * N)) : option N :=
  match l with [] => None | p :: r => Some (fold_left (fun m q => N.min m (snd q)) r (snd p)) end.
Definition best_cost (r : wt) (s : str) : option N := least (outs r s).
Definition best_outs (r : wt) (s : str) : list str :=
  match best_cost r s with
  | None => []
  | Some m => map fst (filter (fun p => N.eqb (snd p) m) (outs r s))
  end.
