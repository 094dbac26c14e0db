(** The words of a text. *)
From Verif Require Import Base Utf8Spec.
Local Open Scope N_scope.

(** The White_Space characters of Unicode. *)
Definition white_space (c : N) : Prop :=
  in_range 9 13 c \/ c = 0x20 \/ c = 0x85 \/ c = 0xA0 \/ c = 0x1680 \/ in_range 0x2000 0x200A c \/
  c = 0x2028 \/ c = 0x2029 \/ c = 0x202F \/ c = 0x205F \/ c = 0x3000.

(** [words_of ws text l]: [l] are the maximal non-empty stretches of [text]
    without separators, in order: white space, then a word up to the end or the
    next white space, and so on. *)
Inductive words_of (ws : N -> Prop) : list N -> list (list N) -> Prop :=
| words_none g : Forall ws g -> words_of ws g []
| words_cons g w rest l : Forall ws g -> w <> [] -> Forall (fun c => ~ ws c) w ->
    (rest = [] \/ exists c r, rest = c :: r /\ ws c) -> words_of ws rest l ->
    words_of ws (g ++ w ++ rest) (w :: l).

(** [bs] is the encoding of [cs]. *)
Definition encoding (cs : list N) (bs : str) : Prop := exists ps, spells cs ps bs.
