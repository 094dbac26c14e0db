(** Specification for files and their lines. *)
From Verif Require Import Base.

(** A text of lines that are ended by a newline, and what follows the last newline *)
Definition text_of (lines : list str) (last : str) : str := concat (map (fun l => l ++ [10%N]) lines) ++ last.
Definition one_line (l : str) : Prop := ~ In 10%N l.
Fixpoint not_empty (lines : list str) : list str :=
  match lines with
  | [] => []
  | [] :: lines' => not_empty lines'
  | l :: lines' => l :: not_empty lines'
  end.

(** [l'] is the line [l], with a zero as its byte number [m] if it has so many *)
Definition with_zero (m : Z) (l l' : str) : Prop :=
  length l' = length l /\
  forall i c, nth_error l i = Some c ->
    (Z.of_nat i + 1 = m -> nth_error l' i = Some 0%N)%Z /\
    (Z.of_nat i + 1 <> m -> nth_error l' i = Some c)%Z.

(** Reading gives some bytes unless at the end, and not more than asked for *)
Definition good_reader (gives : str -> Z -> nat) : Prop :=
  (forall n, gives [] n = 0) /\
  forall input n, input <> [] -> (0 < n)%Z ->
    0 < gives input n /\ (Z.of_nat (gives input n) <= n)%Z /\ gives input n <= length input.

(** Writing takes everything *)
Definition takes_all (takes : str -> str -> nat) : Prop := forall old new, length new <= takes old new.
