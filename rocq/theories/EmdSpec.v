(** Moving probability from hypotheses to references at least cost. *)
From Coq Require Import QArith.
From Verif Require Import Base.
Local Open Scope Q_scope.

(** The sum of [f 0], ..., [f (n - 1)] *)
Fixpoint sum (n : nat) (f : nat -> Q) : Q :=
  match n with 0%nat => 0 | S k => sum k f + f k end.

Definition at_pos (l : list Q) (i : nat) : Q := nth i l 0.
Definition at_cell (m : list (list Q)) (i j : nat) : Q := nth j (nth i m []) 0.
Definition edits_at (m : list (list nat)) (i j : nat) : Q := inject_Z (Z.of_nat (nth j (nth i m []) 0%nat)).
Definition length_at (l : list nat) (j : nat) : Q := inject_Z (Z.of_nat (nth j l 0%nat)).

(** The share of an element in the whole weight. *)
Definition share (w : list Q) (i : nat) : Q := at_pos w i / sum (length w) (at_pos w).
Definition all_positive (w : list Q) : Prop := forall x, In x w -> 0 < x.

(** [g] moves the masses [a] of [n] places to the masses [b] of [m] places. *)
Definition moves (n m : nat) (a b : nat -> Q) (g : nat -> nat -> Q) : Prop :=
  (forall i j, (i < n)%nat -> (j < m)%nat -> 0 <= g i j) /\
  (forall i, (i < n)%nat -> sum m (g i) == a i) /\
  (forall j, (j < m)%nat -> sum n (fun i => g i j) == b j).
Definition cost (n m : nat) (g E : nat -> nat -> Q) : Q :=
  sum n (fun i => sum m (fun j => g i j * E i j)).
Definition least_cost (n m : nat) (a b : nat -> Q) (E : nat -> nat -> Q) (c : Q) : Prop :=
  (exists g, moves n m a b g /\ cost n m g E == c) /\
  forall g, moves n m a b g -> c <= cost n m g E.

(** A matrix of [n] rows of [n] numbers. *)
Definition square (n : nat) (m : list (list Q)) : Prop :=
  length m = n /\ forall row, In row m -> length row = n.
(** What pyemd.emd_with_flow promises: the cost and a flow of least cost. *)
Definition best_flow (p1 p2 : list Q) (D : list (list Q)) (r : Q * list (list Q)) : Prop :=
  square (length p1) (snd r) /\
  moves (length p1) (length p1) (at_pos p1) (at_pos p2) (at_cell (snd r)) /\
  fst r == cost (length p1) (length p1) (at_cell (snd r)) (at_cell D) /\
  forall g, moves (length p1) (length p1) (at_pos p1) (at_pos p2) g ->
    fst r <= cost (length p1) (length p1) g (at_cell D).

(** ** JSON *)
(** The characters of a string between quotes that stand for themselves: all but
    the quote, the backslash and the control characters (RFC 8259, section 7) *)
Definition plain_char (c : N) : Prop := c <> 34%N /\ c <> 92%N /\ (32 <= c)%N.
(** [string_then t w rest]: [t] is a JSON string without escapes, for [w], then [rest]. *)
Definition string_then (t w rest : list N) : Prop :=
  t = 34%N :: w ++ 34%N :: rest /\ Forall plain_char w.
(** [members number t l]: [t] is the inside of a JSON object with members [l], whose
    values are the texts of [number]; none is empty or has a comma or a quote. *)
Inductive members (number : list N -> Prop) : list N -> list (list N * list N) -> Prop :=
| members_one t w v : string_then t w (58 :: 32 :: v)%N -> number v -> members number t [(w, v)]
| members_more t w v t' l : string_then t w (58 :: 32 :: v ++ 44 :: 32 :: t')%N -> number v ->
    members number t' l -> members number t ((w, v) :: l).
Definition number_text (v : list N) : Prop :=
  v <> [] /\ Forall (fun c => (48 <= c <= 57)%N \/ In c [43; 45; 46; 101]%N) v.
(** An array of numbers *)
Inductive elements (number : list N -> Prop) : list N -> list (list N) -> Prop :=
| elements_one v : number v -> elements number v [v]
| elements_more v t l : number v -> elements number t l -> elements number (v ++ 44 :: 32 :: t)%N (v :: l).
Definition array (t : list N) (l : list (list N)) : Prop :=
  exists u, t = (91%N :: u ++ [93%N])%list /\ elements number_text u l.
