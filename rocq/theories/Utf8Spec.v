(** UTF-8 after the Unicode standard. *)
From Verif Require Import Base.
Local Open Scope N_scope.

(** D76: Unicode scalar values. *)
Definition scalar (c : N) : Prop := c < 0xD800 \/ (0xDFFF < c /\ c <= 0x10FFFF).

(** Table 3-7: well-formed byte sequences of one scalar value. *)
Definition in_range (a b x : N) : Prop := a <= x /\ x <= b.
Inductive wf_bytes : str -> Prop :=
| wf1 a : in_range 0x00 0x7F a -> wf_bytes [a]
| wf2 a b : in_range 0xC2 0xDF a -> in_range 0x80 0xBF b -> wf_bytes [a; b]
| wf3a b c : in_range 0xA0 0xBF b -> in_range 0x80 0xBF c -> wf_bytes [0xE0; b; c]
| wf3b a b c : in_range 0xE1 0xEC a -> in_range 0x80 0xBF b -> in_range 0x80 0xBF c -> wf_bytes [a; b; c]
| wf3c b c : in_range 0x80 0x9F b -> in_range 0x80 0xBF c -> wf_bytes [0xED; b; c]
| wf3d a b c : in_range 0xEE 0xEF a -> in_range 0x80 0xBF b -> in_range 0x80 0xBF c -> wf_bytes [a; b; c]
| wf4a b c d : in_range 0x90 0xBF b -> in_range 0x80 0xBF c -> in_range 0x80 0xBF d ->
    wf_bytes [0xF0; b; c; d]
| wf4b a b c d : in_range 0xF1 0xF3 a -> in_range 0x80 0xBF b -> in_range 0x80 0xBF c ->
    in_range 0x80 0xBF d -> wf_bytes [a; b; c; d]
| wf4c b c d : in_range 0x80 0x8F b -> in_range 0x80 0xBF c -> in_range 0x80 0xBF d ->
    wf_bytes [0xF4; b; c; d].

(** Table 3-6: the value of such a sequence, from the bits of its bytes: the
    lead byte contributes what is above its marker, every trail byte 6 bits. *)
Definition value (bs : str) : N :=
  match bs with
  | [a] => a
  | [a; b] => (a - 0xC0) * 64 + (b - 0x80)
  | [a; b; c] => ((a - 0xE0) * 64 + (b - 0x80)) * 64 + (c - 0x80)
  | [a; b; c; d] => (((a - 0xF0) * 64 + (b - 0x80)) * 64 + (c - 0x80)) * 64 + (d - 0x80)
  | _ => 0
  end.

(** [bs] encodes [c]. *)
Definition encodes (c : N) (bs : str) : Prop := wf_bytes bs /\ value bs = c.

(** [s] is the encoding of the text [cs], piece by piece [ps]. *)
Definition spells (cs : list N) (ps : list str) (s : str) : Prop :=
  Forall2 encodes cs ps /\ s = concat ps.

Definition well_formed_utf8 (s : str) : Prop := exists cs ps, spells cs ps s.
