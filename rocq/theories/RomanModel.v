(** Reversible romanization of Arabic script (abjad_alphabet/reversible_roman.py). *)
From Verif Require Import Base RuleModel.

Definition table := list (str * str).

(** The outputs of the closure of a string map for [s] and for every suffix of
    [s], longest first: an output for [s] is the value of a key that starts
    [s], followed by an output for the rest.  Rows with an empty key are left
    out; [star_fst] does not build such closures. *)
Fixpoint suffix_outs (tbl : table) (s : str) : list (list str) :=
  match s with
  | [] => [[[]]]
  | _ :: s' =>
    let rest := suffix_outs tbl s' in
    flat_map (fun row =>
      match fst row with
      | [] => []
      | _ :: k =>
        if prefixb (fst row) s
        then match nth_error rest (length k) with
             | Some outs => map (app (snd row)) outs
             | None => []
             end
        else []
      end) tbl :: rest
  end.

Definition star_outs (tbl : table) (s : str) : list str :=
  match suffix_outs tbl s with outs :: _ => outs | [] => [] end.

Definition has_empty_key (tbl : table) : bool :=
  existsb (fun row => match fst row with [] => true | _ => false end) tbl.

(** file.StringFile(..).star (utils/file.py:50-53): [None] when a key is empty,
    because a text then has infinitely many outputs. *)
Definition star_fst (tbl : table) : option fst_t :=
  if has_empty_key tbl then None else Some (star_outs tbl).

(** pynini invert(): the closure of the inverted string map. *)
Definition invert (tbl : table) : table := map (fun row => (snd row, fst row)) tbl.

(** reversible_roman.py:43-50, FROM_ARAB: ComposeFsts([nfc, roman]) *)
Definition from_arab (ns : fst_t -> nat) (nfc_rules : list rule) (tbl : table) (sigma : list N)
  : option fst_t :=
  match fst_from_rules ns nfc_rules sigma, star_fst tbl with
  | Some nfc, Some roman => compose_fsts compose ns (fun _ => []) [nfc; roman]
  | _, _ => None
  end.

(** reversible_roman.py:51, TO_ARAB *)
Definition to_arab (tbl : table) : option fst_t := star_fst (invert tbl).

(** pynini.cdrewrite(tau, "", "", sigma.star) for a transducer [tau] instead of a
    list of string pairs: scanning from the left, a position at which some
    non-empty stretch is in the domain of [tau] must be rewritten, any such
    stretch may be taken, and the scan goes on behind it; other characters are
    copied.  [obligatory_suffixes tau s] has the outputs for every suffix. *)
Definition stretches (tau : fst_t) (s : str) : list (str * nat) :=
  flat_map (fun n => map (fun o => (o, n)) (tau (firstn (S n) s))) (seq 0 (length s)).

Fixpoint obligatory_suffixes (tau : fst_t) (s : str) : list (list str) :=
  match s with
  | [] => [[[]]]
  | c :: s' =>
    let rest := obligatory_suffixes tau s' in
    match stretches tau s with
    | [] => match rest with outs :: _ => map (cons c) outs | [] => [] end
    | ps => flat_map (fun p => match nth_error rest (snd p) with
                               | Some outs => map (app (fst p)) outs
                               | None => []
                               end) ps
    end :: rest
  end.

(** abjad_alphabet/__init__.py:60-63 ToReversibleRoman: rewrite.Rewrite(FROM_ARAB).
    At the level of code points: by C07 byte mode matches on code-point
    boundaries only. *)
Definition to_reversible_roman (from : fst_t) : fst_t := fun s =>
  match obligatory_suffixes from s with outs :: _ => outs | [] => [] end.
