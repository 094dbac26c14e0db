(** Unicode canonical equivalence (UAX #15), for a decomposition table and a
    table of canonical combining classes.  Specification, not code: it is what
    the NFC grammars of nisaba/scripts/{brahmic,abjad_alphabet}/nfc.py are
    about. *)
From Verif Require Import Base.

Section Canon.
  (** One-step canonical decomposition mappings and combining classes;
      characters not listed have no mapping and class 0. *)
  Variable decomp : list (N * str).
  Variable ccc : list (N * N).

  Fixpoint class_of (l : list (N * N)) (c : N) : N :=
    match l with [] => 0%N | (d, k) :: l' => if N.eqb c d then k else class_of l' c end.

  (** Least congruence containing the mappings and the exchange of adjacent
      marks of different non-zero classes. *)
  Inductive canon : str -> str -> Prop :=
  | ca_refl s : canon s s
  | ca_sym s t : canon s t -> canon t s
  | ca_trans s t u : canon s t -> canon t u -> canon s u
  | ca_decomp a c d b : In (c, d) decomp -> canon (a ++ [c] ++ b) (a ++ d ++ b)
  | ca_swap a x y b : class_of ccc x <> 0%N -> class_of ccc y <> 0%N ->
      class_of ccc x <> class_of ccc y -> canon (a ++ [x; y] ++ b) (a ++ [y; x] ++ b).

  (** A decision aid: decompose (at most [fuel] times) and sort the marks. *)
  Fixpoint lookup (l : list (N * str)) (c : N) : option str :=
    match l with [] => None | (x, d) :: l' => if N.eqb c x then Some d else lookup l' c end.
  Fixpoint decompose (fuel : nat) (s : str) : str :=
    match fuel with
    | O => s
    | S k => decompose k (flat_map (fun c => match lookup decomp c with
                                             | Some d => d | None => [c] end) s)
    end.
  Fixpoint insert_mark (c : N) (s : str) : str :=
    match s with
    | [] => [c]
    | d :: s' =>
      if (negb (N.eqb (class_of ccc c) 0) && negb (N.eqb (class_of ccc d) 0) &&
          N.ltb (class_of ccc d) (class_of ccc c))
      then d :: insert_mark c s' else c :: s
    end.
  Definition sort_marks (s : str) : str := fold_right insert_mark [] s.
  Definition nfd (s : str) : str := sort_marks (decompose 4 s).
End Canon.
