(** Names of bytes and characters. *)
From Coq Require Import String Ascii.
From Verif Require Import Base.
Local Open Scope list_scope.
Local Open Scope N_scope.

Definition text (s : string) : str := map N_of_ascii (list_ascii_of_string s).
(** The value of a hexadecimal digit *)
Inductive digit : N -> N -> Prop :=
| decimal d : d < 10 -> digit (48 + d) d
| letter d : 10 <= d < 16 -> digit (97 + (d - 10)) d.
(** The value of a numeral *)
Inductive numeral : str -> N -> Prop :=
| no_digit : numeral [] 0
| one_more x n c d : numeral x n -> digit c d -> numeral (x ++ [c]) (16 * n + d).
(** 0x and as many digits *)
Definition hexadecimal (width : nat) (c : N) (name : str) : Prop :=
  exists ds, name = text "0x" ++ ds /\ length ds = width /\ numeral ds c.
(** The UTF-8 encoding of a number up to FFFF: groups of six bits *)
Inductive encoded : N -> str -> Prop :=
| one_byte c : c < 128 -> encoded c [c]
| two_bytes x y : 2 <= x < 32 -> y < 64 -> encoded (64 * x + y) [192 + x; 128 + y]
| three_bytes x y z : x < 16 -> y < 64 -> z < 64 -> 32 <= 64 * x + y -> encoded (4096 * x + 64 * y + z) [224 + x; 128 + y; 128 + z].

Definition control (c : N) : Prop := 0 < c < 32 \/ 127 <= c < 160.
Definition byte_called (c : N) (name : str) : Prop :=
  (c = 0 /\ name = text "<epsilon>") \/
  (32 < c < 127 /\ name = [c]) \/
  (0 < c < 256 /\ ~ 32 < c < 127 /\ hexadecimal 2 c name).
(** [white] tells which characters are white space. *)
Definition character_called (white : N -> Prop) (c : N) (name : str) : Prop :=
  (c = 0 /\ name = text "<epsilon>") \/
  (0 < c < 0x10000 /\ (control c \/ white c) /\ hexadecimal 4 c name) \/
  (0 < c < 0x10000 /\ ~ (control c \/ white c) /\ encoded c name).
(** White space: the characters at which Unicode text is split (C32), and one that was white space in older versions of Unicode *)
Definition white (splits : list N) (c : N) : Prop := In c splits \/ c = 0x180E.
