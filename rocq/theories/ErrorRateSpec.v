(** Edit distance after Levenshtein, and what error rates should be. *)
From Verif Require Import Base.

(** [script ref test s i d]: [ref] is turned into [test] by [s] substitutions,
    [i] insertions and [d] deletions. *)
Inductive script {A} : list A -> list A -> nat -> nat -> nat -> Prop :=
| script_nil : script [] [] 0 0 0
| script_keep a r t s i d : script r t s i d -> script (a :: r) (a :: t) s i d
| script_sub a b r t s i d : a <> b -> script r t s i d -> script (a :: r) (b :: t) (S s) i d
| script_ins b r t s i d : script r t s i d -> script r (b :: t) s (S i) d
| script_del a r t s i d : script r t s i d -> script (a :: r) t s i (S d).

Definition distance {A} (ref test : list A) (n : nat) : Prop :=
  (exists s i d, script ref test s i d /\ n = s + i + d) /\
  forall s i d, script ref test s i d -> n <= s + i + d.

(** Paths in the composition of a linear input automaton, a one-state transducer
    and a linear output automaton: label 0 consumes nothing. *)
Inductive composed (arcs : list (nat * nat * nat)) : list nat -> list nat -> list (nat * nat) -> nat -> Prop :=
| composed_nil : composed arcs [] [] [] 0
| composed_eps_in xs ys p c : composed arcs xs ys p c -> composed arcs (0 :: xs) ys ((0, 0) :: p) c
| composed_eps_out xs ys p c : composed arcs xs ys p c -> composed arcs xs (0 :: ys) ((0, 0) :: p) c
| composed_in x w xs ys p c : x <> 0 -> In (x, 0, w) arcs -> composed arcs xs ys p c ->
    composed arcs (x :: xs) ys ((x, 0) :: p) (w + c)
| composed_out y w xs ys p c : y <> 0 -> In (0, y, w) arcs -> composed arcs xs ys p c ->
    composed arcs xs (y :: ys) ((0, y) :: p) (w + c)
| composed_both x y w xs ys p c : x <> 0 -> y <> 0 -> In (x, y, w) arcs -> composed arcs xs ys p c ->
    composed arcs (x :: xs) (y :: ys) ((x, y) :: p) (w + c).

(** A search for a path of least cost. *)
Definition finds_best (arcs : list (nat * nat * nat)) (search : list nat -> list nat -> list (nat * nat)) : Prop :=
  forall xs ys, (exists p c, composed arcs xs ys p c) ->
    exists c, composed arcs xs ys (search xs ys) c /\ forall p d, composed arcs xs ys p d -> c <= d.

(** Edits per token, compared as fractions: [e / l <= e' / l']. *)
Definition rate_le (e l e' l' : nat) : Prop := e * l' <= e' * l.
Definition rate_lt (e l e' l' : nat) : Prop := e * l' < e' * l.

(** The element [b] at position [k] of [l] is the first minimum for [cost]. *)
Definition first_minimum {A} (le lt : A -> A -> Prop) (l : list A) (k : nat) (b : A) : Prop :=
  nth_error l k = Some b /\ (forall x, In x l -> le b x) /\
  forall j x, j < k -> nth_error l j = Some x -> lt b x.

(** Lines by index, in order. *)
Definition lines_at {A} (lines : list (nat * A)) (n : nat) : list A :=
  map snd (filter (fun l => Nat.eqb (fst l) n) lines).

Definition entry (m : list (list nat)) (i j : nat) : option nat :=
  match nth_error m i with Some row => nth_error row j | None => None end.

(** Every row of the matrix has [c] entries. *)
Definition rectangular {A} (m : list (list A)) (c : nat) : Prop := forall row, In row m -> length row = c.

Definition sum_of {A} (f : A -> nat) (l : list A) : nat := list_sum (map f l).
Definition non_empty {A} (l : list A) : bool := match l with [] => false | _ => true end.
Definition or_one {A} (d : A) (l : list A) : list A := match l with [] => [d] | _ => l end.
