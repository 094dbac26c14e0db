(** Candidates of a word without looking at caches. *)
From Verif Require Import Base.
Definition plain_cands (pair_lm : str -> nat -> list (str * Z)) (k : nat) (w : str) : list (str * Z) :=
  match pair_lm w k with [] => [(w, 0%Z)] | cs => cs end.
Definition parts (segment : str -> list str) (w : str) : list str := match segment w with _ :: _ :: _ => segment w | _ => [w] end.
Definition decoded (pair_lm : str -> nat -> list (str * Z)) (join : nat -> list (list (str * Z)) -> list (str * Z)) (segment : str -> list str) (w : str) (k : nat) : list (str * Z) :=
  match segment w with _ :: _ :: _ => join k (map (plain_cands pair_lm k) (segment w)) | _ => plain_cands pair_lm k w end.
