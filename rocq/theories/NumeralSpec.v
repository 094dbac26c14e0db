(** Numbers written with digits. *)
From Verif Require Import Base.

Definition digit_value (c : N) : N := (if c <=? 57 then c - 48 else c - 87)%N.
Definition is_digit (base c : N) : Prop := (48 <= c <= 57 \/ 97 <= c <= 102)%N /\ (digit_value c < base)%N.
(** [s] is [n] in that base, without needless zeros *)
Definition numeral (base : N) (s : str) (n : N) : Prop :=
  Forall (is_digit base) s /\ fold_left (fun a c => a * base + digit_value c)%N s 0%N = n /\ (s = [48%N] \/ exists c r, s = c :: r /\ c <> 48%N).
