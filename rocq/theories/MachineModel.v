(** Weighted automata with output: their runs, a pruned subset construction, and finite
    checks on its result.  Nothing here models nisaba; these are the tools with which
    statements about all texts are decided for given tables. *)
From Verif Require Import Base.

(** Finite maps with binary keys *)
Inductive trie (A : Type) := Empty | Node (l : trie A) (v : option A) (r : trie A).
Arguments Empty {A}.
Arguments Node {A} _ _ _.
Fixpoint tfind {A} (p : positive) (t : trie A) : option A :=
  match t with
  | Empty => None
  | Node l v r => match p with xH => v | xO q => tfind q l | xI q => tfind q r end
  end.
Fixpoint tadd {A} (p : positive) (x : A) (t : trie A) : trie A :=
  match p with
  | xH => match t with Empty => Node Empty (Some x) Empty | Node l _ r => Node l (Some x) r end
  | xO q => match t with Empty => Node (tadd q x Empty) None Empty | Node l v r => Node (tadd q x l) v r end
  | xI q => match t with Empty => Node Empty None (tadd q x Empty) | Node l v r => Node l v (tadd q x r) end
  end.
(** [existsb] and [forallb] that stop early also under call by value *)
Fixpoint some_in {A} (f : A -> bool) (l : list A) : bool :=
  match l with [] => false | x :: r => if f x then true else some_in f r end.
Fixpoint all_in {A} (f : A -> bool) (l : list A) : bool :=
  match l with [] => true | x :: r => if f x then all_in f r else false end.
Definition key (c : N) : positive := N.succ_pos c.
Definition tget {A} (p : positive) (t : trie (list A)) : list A := match tfind p t with Some l => l | None => [] end.
(** A list as a map from 1, 2, ... *)
Fixpoint tlist {A} (n : positive) (l : list A) : trie A :=
  match l with [] => Empty | x :: r => tadd n x (tlist (Pos.succ n) r) end.

(** Automata with states [Q]: [delta q c] has outputs, costs and next states; [final q]
    has outputs and costs at the end.  [runs] has the outputs and costs of a text. *)
Section Runs.
Variable Q : Type.
Variable delta : Q -> N -> list (str * N * Q).
Variable final : Q -> list (str * N).
Fixpoint runs (q : Q) (x : str) : list (str * N) :=
  match x with
  | [] => final q
  | c :: x' => flat_map (fun '(o1, w1, q') => map (fun '(o2, w2) => (o1 ++ o2, (w1 + w2)%N)) (runs q' x')) (delta q c)
  end.
End Runs.

(** States as a list, reached from the first one; [expand] has labels and next states, and
    [hash] only makes it faster to find a state.  The list, with what each state expands to,
    is a candidate; [row] checks that it is closed. *)
Section Explore.
Variables S L : Type.
Variable eqb : S -> S -> bool.
Variable hash : S -> positive.
Variable expand : S -> list (L * S).
Notation index := (trie (list (S * positive))) (only parsing).
Fixpoint in_bucket (s : S) (l : list (S * positive)) : option positive :=
  match l with
  | [] => None
  | (s', n) :: r => if eqb s s' then Some n else in_bucket s r
  end.
Definition look_up (t : index) (s : S) : option positive := in_bucket s (tget (hash s) t).
Definition enter (n : positive) (s : S) (t : index) : index := let h := hash s in tadd h ((s, n) :: tget h t) t.
Fixpoint make_index (n : positive) (l : list S) : index :=
  match l with [] => Empty | s :: r => enter n s (make_index (Pos.succ n) r) end.
Fixpoint all_new (l : list (L * S)) (t : index) (acc : list S) : index * list S :=
  match l with
  | [] => (t, acc)
  | (_, s) :: r => match look_up t s with Some _ => all_new r t acc | None => all_new r (enter 1 s t) (s :: acc) end
  end.
Fixpoint explore (fuel : nat) (t : index) (done : list (S * list (L * S))) (todo : list S) : list (S * list (L * S)) :=
  match fuel with
  | O => rev done
  | Datatypes.S f =>
    match todo with
    | [] => rev done
    | s :: r => let e := expand s in let '(t', new) := all_new e t [] in explore f t' ((s, e) :: done) (r ++ rev new)
    end
  end.
Definition reached_from (fuel : nat) (s : S) : list (S * list (L * S)) := explore fuel (enter 1 s Empty) [] [s].
Fixpoint all_some {A} (l : list (option A)) : option (list A) :=
  match l with
  | [] => Some []
  | Some x :: r => option_map (cons x) (all_some r)
  | None :: _ => None
  end.
Definition row (t : index) (e : list (L * S)) : option (list (L * positive)) :=
  all_some (map (fun p => option_map (fun n => (fst p, n)) (look_up t (snd p))) e).
End Explore.

(** Automata with numbered states *)
Notation arc := (str * N * positive)%type.
Definition nfa := trie (trie (list arc) * list (str * N)).
Definition ndelta (A : nfa) (q : positive) (c : N) : list arc :=
  match tfind q A with Some (t, _) => tget (key c) t | None => [] end.
Definition nfinal (A : nfa) (q : positive) : list (str * N) :=
  match tfind q A with Some (_, f) => f | None => [] end.
Definition arc_eqb (x y : arc) : bool :=
  let '(o, w, q) := x in let '(o', w', q') := y in if Pos.eqb q q' then if N.eqb w w' then str_eqb o o' else false else false.
Fixpoint group (l : list (str * N * N * positive)) : trie (list arc) :=
  match l with
  | [] => Empty
  | (o, w, c, q) :: r =>
    let t := group r in
    let k := key c in
    let b := tget k t in
    if some_in (arc_eqb (o, w, q)) b then t else tadd k ((o, w, q) :: b) t
  end.

(** [D p] has pairs (q, a, b): whatever [p] reads, [q] reads at a cost that is at most the
    cost of [p] plus a minus b. *)
Notation dist := (positive * N * N)%type.
Definition dists := trie (list dist).
Definition closer (D : dists) (q p : positive) (x y : N) : bool :=
  if (if Pos.eqb q p then N.leb x y else false) then true
  else some_in (fun '(q', a, b) => if Pos.eqb q q' then N.leb (x + a) (y + b) else false)%N (tget p D).
Definition check_dist (A : nfa) (D : dists) (alphabet : list N) (p : positive) (e : dist) : bool :=
  let '(q, a, b) := e in
  if all_in (fun '(_, w) => some_in (fun '(_, w') => N.leb (w' + b) (w + a)) (nfinal A q))%N (nfinal A p) then
    all_in (fun c =>
      match ndelta A p c with
      | [] => true
      | lp => let l := ndelta A q c in
        all_in (fun '(_, w, p') => some_in (fun '(_, w', q') => closer D q' p' (w' + b) (w + a)) l)%N lp
      end) alphabet
  else false.
Definition make_dists (l : list (positive * positive * N * N)) : dists :=
  fold_right (fun '(q, p, a, b) t => tadd p ((q, a, b) :: tget p t) t) Empty l.

(** Items: a state, the output so far and the cost so far *)
Notation item := (positive * str * N)%type.
Definition item_eqb (x y : item) : bool :=
  let '(q, o, w) := x in let '(q', o', w') := y in if Pos.eqb q q' then if N.eqb w w' then str_eqb o o' else false else false.
Fixpoint config_eqb (k k' : list item) : bool :=
  match k, k' with
  | [], [] => true
  | x :: r, y :: r' => if item_eqb x y then config_eqb r r' else false
  | _, _ => false
  end.
Definition config_hash (k : list item) : positive :=
  match k with [] => 1 | (q, o, _) :: _ => match o with [] => q | c :: _ => Pos.add q (key c) end end.
Definition successors (A : nfa) (k : list item) (c : N) : list item :=
  flat_map (fun '(q, o, w) => map (fun '(o1, w1, q') => (q', o ++ o1, (w + w1)%N)) (ndelta A q c)) k.
(** The same, with the tables of the states looked up beforehand *)
Definition item_rows (A : nfa) (k : list item) : list (trie (list arc) * str * N) :=
  flat_map (fun '(q, o, w) => match tfind q A with Some (t, _) => [(t, o, w)] | None => [] end) k.
Fixpoint row_successors (l : list (trie (list arc) * str * N)) (c : positive) : list item :=
  match l with
  | [] => []
  | (t, o, w) :: r =>
    match tfind c t with
    | None => row_successors r c
    | Some arcs => map (fun '(o1, w1, q') => (q', o ++ o1, (w + w1)%N)) arcs ++ row_successors r c
    end
  end.
(** An item that is worse than another one whatever follows *)
Definition worse (D : dists) (l : list item) (x : item) : bool :=
  let '(p, _, w) := x in
  if some_in (fun '(q, _, w') => if Pos.eqb q p then N.ltb w' w else false) l then true else
  match tget p D with
  | [] => false
  | ds => some_in (fun '(q, a, b) => some_in (fun '(q', _, w') => if Pos.eqb q q' then N.ltb (w' + a) (w + b) else false) l) ds
  end%N.
Fixpoint sort_in (x : item) (l : list item) : list item :=
  match l with
  | [] => [x]
  | y :: r => if item_eqb x y then l else if Pos.leb (fst (fst x)) (fst (fst y)) then x :: l else y :: sort_in x r
  end.
Definition prune (D : dists) (l : list item) : list item := fold_right sort_in [] (filter (fun x => negb (worse D l x)) l).
Fixpoint lcp (a b : str) : str :=
  match a, b with x :: a', y :: b' => if N.eqb x y then x :: lcp a' b' else [] | _, _ => [] end.
Definition config_lcp (k : list item) : str :=
  match k with [] => [] | (_, o, _) :: r => fold_left (fun a '(_, o', _) => lcp a o') r o end.
Definition config_min (k : list item) : N :=
  match k with [] => 0%N | (_, _, w) :: r => fold_left (fun a '(_, _, w') => N.min a w') r w end.
Definition shift (pre : str) (m : N) (k : list item) : list item :=
  map (fun '(q, o, w) => (q, skipn (length pre) o, (w - m)%N)) k.
(** The next configurations with the output that is certain *)
Definition expand_config (A : nfa) (D : dists) (alphabet : list N) (k : list item) : list (N * str * list item) :=
  let rows := item_rows A k in
  flat_map (fun c =>
    match row_successors rows (key c) with
    | [] => []
    | l => let k' := prune D l in let pre := config_lcp k' in [(c, pre, shift pre (config_min k') k')]
    end) alphabet.
(** The best output at the end; [None] if it is not unique *)
Definition config_finals (A : nfa) (k : list item) : list (str * N) :=
  flat_map (fun '(q, o, w) => map (fun '(o1, w1) => (o ++ o1, (w + w1)%N)) (nfinal A q)) k.
Definition config_final (A : nfa) (k : list item) : option (option str) :=
  match config_finals A k with
  | [] => Some None
  | (o, w) :: r =>
    let '(o0, w0) := fold_left (fun a b => if N.ltb (snd b) (snd a) then b else a) r (o, w) in
    if all_in (fun '(o', w') => if N.ltb w0 w' then true else if N.eqb w0 w' then str_eqb o0 o' else false) ((o, w) :: r)
    then Some (Some o0) else None
  end.

(** Sequential machines *)
Definition machine := trie (trie (str * positive) * option str).
Fixpoint srun (M : machine) (i : positive) (x : str) : option str :=
  match tfind i M with
  | None => None
  | Some (t, f) =>
    match x with
    | [] => f
    | c :: x' => match tfind (key c) t with
                 | None => None
                 | Some (o, j) => option_map (app o) (srun M j x')
                 end
    end
  end.
Definition make_row (l : list (N * str * positive)) : trie (str * positive) :=
  fold_right (fun '(c, o, j) t => tadd (key c) (o, j) t) Empty l.
(** The configuration of a start state, and the machine of listed configurations *)
Definition start_config (q : positive) : list item := [(q, [], 0%N)].
Definition config_rows (A : nfa) (ks : list (list item * list (N * str * list item))) : option (list (trie (str * positive) * option str)) :=
  let t := make_index _ config_hash 1 (map fst ks) in
  all_some (map (fun p =>
    match row _ _ config_eqb config_hash t (snd p), config_final A (fst p) with
    | Some r, Some f => Some (make_row r, f)
    | _, _ => None
    end) ks).

(** Two machines, one after the other, giving back the input.  A triple has the states of
    both and what the second has not yet given back. *)
Fixpoint feed (G : machine) (g : positive) (y : str) : option (str * positive) :=
  match y with
  | [] => Some ([], g)
  | c :: y' =>
    match tfind g G with
    | None => None
    | Some (t, _) =>
      match tfind (key c) t with
      | None => None
      | Some (o, g') => match feed G g' y' with Some (o', g'') => Some (o ++ o', g'') | None => None end
      end
    end
  end.
Definition cut (p s : str) : option str := if prefixb p s then Some (skipn (length p) s) else None.
Notation triple := (positive * positive * str)%type.
Definition triple_step (F G : machine) (alphabet : list N) (s : triple) : list (option triple) :=
  let '(f, g, pend) := s in
  match tfind f F with
  | None => []
  | Some (t, _) =>
    flat_map (fun c =>
      match tfind (key c) t with
      | None => []
      | Some (y, f') =>
        [match feed G g y with
         | None => None
         | Some (z, g') => match cut z (pend ++ [c]) with Some pend' => Some (f', g', pend') | None => None end
         end]
      end) alphabet
  end.
Definition triple_end (F G : machine) (s : triple) : bool :=
  let '(f, g, pend) := s in
  match tfind f F with
  | Some (_, Some y) =>
    match feed G g y with
    | Some (z, g') => match tfind g' G with Some (_, Some z') => str_eqb (z ++ z') pend | _ => false end
    | None => false
    end
  | _ => true
  end.
(** Sets of triples, by the first state *)
Definition tset := trie (list (positive * str)).
Definition in_tset (T : tset) (s : triple) : bool :=
  let '(f, g, pend) := s in some_in (fun '(g', p') => if Pos.eqb g g' then str_eqb pend p' else false) (tget f T).
Definition put_tset (T : tset) (s : triple) : tset := let '(f, g, pend) := s in tadd f ((g, pend) :: tget f T) T.
(** One round: the triples not yet in the set are added, and their successors collected *)
Fixpoint grow (F G : machine) (alphabet : list N) (fuel : nat) (T : tset) (done todo : list triple) : option (tset * list triple) :=
  match todo with
  | [] => Some (T, done)
  | s :: r =>
    match fuel with
    | O => None
    | S n =>
      match all_some (triple_step F G alphabet s) with
      | None => None
      | Some l =>
        let '(T', new) := fold_left (fun '(T0, acc) s' => if in_tset T0 s' then (T0, acc) else (put_tset T0 s', s' :: acc)) l (T, []) in
        grow F G alphabet n T' (s :: done) (new ++ r)
      end
    end
  end.
Definition inverse_ok (F G : machine) (alphabet : list N) (fuel : nat) : bool :=
  match grow F G alphabet fuel (put_tset Empty (1, 1, [])%positive) [] [(1, 1, [])%positive] with
  | None => false
  | Some (_, done) => all_in (fun s => triple_end F G s) done
  end.
