(** Greedy merging (byte-pair encoding style) of a sequence of pieces. *)
From Verif Require Import Base.

(** A piece is a sequence of characters, each one a byte string. *)
Definition piece := list str.
Definition text (p : piece) : str := concat p.
Definition singles (chars : list str) : list piece := map (fun c => [c]) chars.

(** [w] is in the vocabulary and [r] its first position there. *)
Definition rank (vocab : list str) (w : str) (r : nat) : Prop :=
  nth_error vocab r = Some w /\ forall k, k < r -> nth_error vocab k <> Some w.

(** Merging the best ranked adjacent pair, the leftmost one of that rank. *)
Inductive merge_step (vocab : list str) : list piece -> list piece -> Prop :=
| step_at pre x y post r : rank vocab (text (x ++ y)) r ->
    (forall pre' x' y' post' r', pre ++ x :: y :: post = pre' ++ x' :: y' :: post' ->
       rank vocab (text (x' ++ y')) r' -> r < r' \/ (r = r' /\ length pre <= length pre')) ->
    merge_step vocab (pre ++ x :: y :: post) (pre ++ (x ++ y) :: post).

Inductive merges (vocab : list str) : list piece -> list piece -> Prop :=
| merges_refl s : merges vocab s s
| merges_step s t u : merge_step vocab s t -> merges vocab t u -> merges vocab s u.

(** No two neighbours form a vocabulary item. *)
Definition final (vocab : list str) (s : list piece) : Prop :=
  forall pre x y post, s = pre ++ x :: y :: post -> ~ In (text (x ++ y)) vocab.

(** The label of a piece: its own, or that of the unknown symbol. *)
Definition piece_label (find_piece : str -> option nat) (unk p : str) (l : nat) : Prop :=
  find_piece p = Some l \/ (find_piece p = None /\ find_piece unk = Some l).
