(** What a mode flag stands for. *)
From Coq Require Import String Ascii.
From Verif Require Import Base TesterSpec.

(** "byte", "utf8", or else the name of a file of symbols *)
Definition mode_kind {A B} (read_text : str -> option A) (mode : str)
    (bytes utf8 : B) (symbols : A -> B) (x : B) : Prop :=
  (mode = words "byte" /\ x = bytes) \/
  (mode = words "utf8" /\ x = utf8) \/
  (mode <> words "byte" /\ mode <> words "utf8" /\
   exists s, read_text mode = Some s /\ x = symbols s).
