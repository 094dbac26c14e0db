(** Specification for streams of messages. *)
From Verif Require Import Base FileModel.

(** The bytes put into a stream, in order *)
Fixpoint bytes_put (l : list call) : str :=
  match l with
  | [] => []
  | Put c :: l' => c :: bytes_put l'
  | _ :: l' => bytes_put l'
  end.
