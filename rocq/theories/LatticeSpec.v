(** Vocabulary for the lattices of candidates. *)
From Coq Require Import Sorting.Sorted.
From Verif Require Import Base.

(** How many items come before item [i] when ordered by score, then position. *)
Definition rank (scores : list Z) (i : nat) : nat :=
  length (filter (fun j => ((nth j scores 0 <? nth i scores 0) || ((nth j scores 0 =? nth i scores 0) && (j <? i)%nat))%Z)
            (seq 0 (length scores))).
(** Among the first [k]; all but the very first also within the bound. *)
Definition chosen (scores : list Z) (k : nat) (bound : option Z) (i : nat) : Prop :=
  rank scores i < k /\ (rank scores i = 0 \/ match bound with None => True | Some b => (nth i scores 0 <= b)%Z end).
(** [out] are the items of [l] at the positions satisfying [P], in order. *)
Definition picks {A} (P : nat -> Prop) (l out : list A) : Prop :=
  exists positions, StronglySorted lt positions /\ Forall2 (fun i a => nth_error l i = Some a) positions out /\
    forall i, In i positions <-> i < length l /\ P i.

(** The arcs that remain at a position; a negative limit is no limit. *)
Definition pruned {A} (score : A -> Z) (k : Z) (bound : option Z) (l out : list A) : Prop :=
  if ((k <? 0) || (Z.of_nat (length l) <=? k))%Z then out = l
  else picks (chosen (map score l) (Z.to_nat k) bound) l out.

(** Lines of text. *)
Definition unlines (ls : list str) : str := concat (map (fun l => l ++ [10%N]) ls).
