(** What line normalization is meant to do. *)
From Verif Require Import Base TextModel.

(** A line cut into ignored characters and maximal words. *)
Inductive piece := Gap (c : N) | Word (w : str).
Definition text_of (g : piece) : str := match g with Gap c => [c] | Word w => w end.

Fixpoint words_apart (gs : list piece) : Prop :=
  match gs with
  | Word _ :: ((Word _ :: _) as gs') => False
  | _ :: gs' => words_apart gs'
  | [] => True
  end.

Definition cut (ignore line : str) (gs : list piece) : Prop :=
  line = flat_map text_of gs /\ words_apart gs /\
  Forall (fun g => match g with
                   | Gap c => In c ignore
                   | Word w => w <> [] /\ forall c, In c w -> ~ In c ignore
                   end) gs.

(** The line with every word replaced, if all of them have a result. *)
Inductive replaced (word : str -> res str) : list piece -> str -> Prop :=
| r_nil : replaced word [] []
| r_gap c gs t : replaced word gs t -> replaced word (Gap c :: gs) (c :: t)
| r_word w r gs t : word w = Ok r -> replaced word gs t -> replaced word (Word w :: gs) (r ++ t).

(** The first word that is rejected, and how. *)
Inductive rejected (word : str -> res str) : list piece -> error -> Prop :=
| j_gap c gs e : rejected word gs e -> rejected word (Gap c :: gs) e
| j_here w gs e : word w = Raise e -> rejected word (Word w :: gs) e
| j_later w r gs e : word w = Ok r -> rejected word gs e -> rejected word (Word w :: gs) e.

(** A word function for the examples. *)
Definition example_word (w : str) : res str :=
  if str_eqb w [120%N] then Raise IllFormedError else Ok (w ++ w).
