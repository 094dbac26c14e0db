(** Model of the aligner lattice,
    nisaba/scripts/natural_translit/utils/lattice.py.  An FST is the number of its states;
    FSTs and error nodes are referred to by position, since they are shared between
    lattices.  The default arguments of Lattice.__init__, lines 76-84, are made once: they
    are FST 0 and error node 0 of the initial world; the default FST of nodes, lines 38-45,
    is FST 1.  [None] stands for an object that does not exist. *)
From Verif Require Import Base.

Fixpoint set_nth {A} (n : nat) (v : A) (l : list A) : list A :=
  match l, n with
  | [], _ => []
  | _ :: r, O => v :: r
  | x :: r, S n' => x :: set_nth n' v r
  end.

Record lat := Lat { l_fst : nat; l_width : nat; l_height : nat; l_nodes : list (list (option nat)); l_err : nat }.
(** An error node is the FST it refers to and its state. *)
Record world := World { fsts : list nat; errs : list (nat * option nat); lats : list lat }.
Definition initial : world := World [0; 0] [(1, None)] [].

(** fst.add_state() *)
Definition add_state (w : world) (f : nat) : option (nat * world) :=
  match nth_error (fsts w) f with
  | Some n => Some (n, World (set_nth f (S n) (fsts w)) (errs w) (lats w))
  | None => None
  end.

(** The nodes of a lattice, lines 90-93, and the loop of populate, lines 99-102 *)
Definition empty_nodes (width height : nat) : list (list (option nat)) := repeat (repeat None width) height.
Fixpoint fill_row (width n : nat) : list (option nat) :=
  match width with O => [] | S w' => Some n :: fill_row w' (S n) end.
Fixpoint fill (width height n : nat) : list (list (option nat)) :=
  match height with O => [] | S h' => fill_row width n :: fill width h' (n + width) end.

(** Lattice.__init__, lines 76-102 *)
Definition new_lattice (w : world) (width height f e : nat) (populate : bool) : option world :=
  match nth_error (errs w) e, nth_error (fsts w) f with
  | Some (f0, s), Some n =>
    let '(s', n') := match s with Some k => (k, n) | None => (n, S n) end in
    let nodes := if populate then fill width height n' else empty_nodes width height in
    let n'' := if populate then n' + width * height else n' in
    Some (World (set_nth f n'' (fsts w)) (set_nth e (f, Some s') (errs w)) (lats w ++ [Lat f width height nodes e]))
  | _, _ => None
  end.

(** Lattice.node, lines 145-159: x in range(width) and y in range(height) *)
Definition in_range (L : lat) (x y : Z) : bool :=
  (Z.leb 0 x && Z.ltb x (Z.of_nat (l_width L)) && (Z.leb 0 y && Z.ltb y (Z.of_nat (l_height L))))%Z.
Definition node_at (L : lat) (x y : nat) : option (option nat) :=
  match nth_error (l_nodes L) y with Some row => nth_error row x | None => None end.
Definition set_node (L : lat) (x y : nat) (s : nat) : lat :=
  match nth_error (l_nodes L) y with
  | Some row => Lat (l_fst L) (l_width L) (l_height L) (set_nth y (set_nth x (Some s) row) (l_nodes L)) (l_err L)
  | None => L
  end.

(** Lattice.state, lines 161-180.  The error node has got a state in __init__; for it the
    branch that adds a state is here too. *)
Definition state (w : world) (i : nat) (x y : Z) : option (nat * world) :=
  match nth_error (lats w) i with
  | None => None
  | Some L =>
    if in_range L x y then
      match node_at L (Z.to_nat x) (Z.to_nat y) with
      | None => None
      | Some (Some s) => Some (s, w)
      | Some None =>
        match add_state w (l_fst L) with
        | None => None
        | Some (s, w') => Some (s, World (fsts w') (errs w') (set_nth i (set_node L (Z.to_nat x) (Z.to_nat y) s) (lats w')))
        end
      end
    else
      match nth_error (errs w) (l_err L) with
      | None => None
      | Some (_, Some s) => Some (s, w)
      | Some (f, None) =>
        match add_state w (l_fst L) with
        | None => None
        | Some (s, w') => Some (s, World (fsts w') (set_nth (l_err L) (f, Some s) (errs w')) (lats w'))
        end
      end
  end.

(** What a program can do: make FSTs, nodes and lattices, add states to an FST, request
    states. *)
Inductive op :=
| NewFst
| NewNode (f : nat)
| NewLattice (width height f e : nat) (populate : bool)
| AddState (f : nat)
| Request (i : nat) (x y : Z).
Definition step (w : world) (o : op) : option world :=
  match o with
  | NewFst => Some (World (fsts w ++ [0]) (errs w) (lats w))
  | NewNode f => if Nat.ltb f (length (fsts w)) then Some (World (fsts w) (errs w ++ [(f, None)]) (lats w)) else None
  | NewLattice width height f e populate => new_lattice w width height f e populate
  | AddState f => option_map snd (add_state w f)
  | Request i x y => option_map snd (state w i x y)
  end.
(** Requests one after another *)
Fixpoint requests (w : world) (l : list (nat * Z * Z)) : option (list nat * world) :=
  match l with
  | [] => Some ([], w)
  | (i, x, y) :: r =>
    match state w i x y with
    | None => None
    | Some (s, w') => match requests w' r with Some (ss, w'') => Some (s :: ss, w'') | None => None end
    end
  end.
