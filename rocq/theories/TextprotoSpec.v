(** The meaning of the modes, for a cascade given by its weighted outputs. *)
From Verif Require Import Base TextprotoModel.
From Coq Require Import Sorted.

Section Cascade.
  (** The outputs of the rules on an input, each once, with its weight. *)
  Variable outs : list str -> str -> list (str * Z).

  Definition lightest (rules : list str) (input o : str) : Prop :=
    exists w, In (o, w) (outs rules input) /\
      forall p v, In (p, v) (outs rules input) -> (w <= v)%Z.

  (** What an entry says in each mode. *)
  Definition holds_exact (e : entry) : Prop :=
    Permutation (map fst (outs (e_rules e) (e_input e))) (e_outputs e).
  Definition holds_subset (e : entry) : Prop :=
    NoDup (e_outputs e) /\
    forall o, In o (e_outputs e) -> In o (map fst (outs (e_rules e) (e_input e))).
  Definition holds_one_top (e : entry) : Prop :=
    exists o, e_outputs e = [o] /\
      forall p, lightest (e_rules e) (e_input e) p <-> p = o.

  (** A rule cascade with these outputs: the rewrites in some order, one of the
      lightest, and the lightest if there is only one. *)
  Definition cascade_of
      (rewrites : list str -> str -> option (list str))
      (top one_top : list str -> str -> option str) : Prop :=
    (forall r i, NoDup (map fst (outs r i))) /\
    (forall r i, match rewrites r i with
                 | None => outs r i = []
                 | Some l => outs r i <> [] /\ Permutation l (map fst (outs r i))
                 end) /\
    (forall r i, match top r i with
                 | None => outs r i = []
                 | Some o => lightest r i o
                 end) /\
    (forall r i o, one_top r i = Some o <-> forall p, lightest r i p <-> p = o).

  (** What an entry says: without outputs, that there is none; otherwise what
      its mode says.  In mode "top" the output is the one that is found. *)
  Definition entry_holds (top : list str -> str -> option str) (mode : str) (e : entry) : Prop :=
    (e_outputs e = [] /\ outs (e_rules e) (e_input e) = []) \/
    (e_outputs e <> [] /\
     ((mode = s_exact /\ holds_exact e) \/ (mode = s_subset /\ holds_subset e) \/
      (mode = s_one_top /\ holds_one_top e) \/
      (mode = s_top /\ exists o, e_outputs e = [o] /\ top (e_rules e) (e_input e) = Some o))).
End Cascade.

(** Number of times a string is listed. *)
Definition str_eq_dec : forall a b : str, {a = b} + {a <> b} := list_eq_dec N.eq_dec.
Definition times (x : str) (l : list str) : nat := count_occ str_eq_dec l x.

(** Order of byte strings, as of words in a dictionary. *)
Inductive before : str -> str -> Prop :=
| before_end y b : before [] (y :: b)
| before_head x y a b : (x < y)%N -> before (x :: a) (y :: b)
| before_tail x a b : before a b -> before (x :: a) (x :: b).

Definition sorted (l : list str) : Prop :=
  StronglySorted (fun a b => before a b \/ a = b) l.
