(** What an operation inventory should hold. *)
From Coq Require Import Ascii String.
From Verif Require Import Base ContainerModel InventoryModel InventorySpec OperationModel.
Local Open Scope list_scope.

(** The n-th number above [prefix] that is not a multiple of ten *)
Definition nth_index (prefix : N) (n : nat) : N := (prefix + N.of_nat n + 1 + N.of_nat n / 9)%N.

Definition op_methods : list str := map codes ["_make_operation"; "_next_index"]%string ++ method_names.
Definition usable (alias : str) : Prop := ~ In alias op_methods /\ ~ In alias op_attributes.

(** The four operations made for an argument *)
Definition variants (arg : str * Z) : list (str * Z) :=
  [(fst arg, snd arg); (codes "partial_" ++ fst arg, snd arg);
   (codes "unexpected_" ++ fst arg, snd arg + 750)%Z; (codes "unexpected_partial_" ++ fst arg, snd arg + 750)%Z].

Definition alias_at (s : op_inv) (id : nat) : option str := option_map o_alias (nth_error (ops s) id).
Definition link (f : operation -> nat) (s : op_inv) (id : nat) (alias : str) : Prop :=
  exists o o', nth_error (ops s) id = Some o /\ nth_error (ops s) (f o) = Some o' /\ o_alias o' = alias.
Definition is_item (s : op_inv) (id : nat) : Prop := In (op_obj id) (items_of (base s)).

(** The operations that are always there, with their costs in thousandths *)
Definition shipped_operations : list (string * Z) :=
  [("alignable", 0); ("boundary", 125); ("deletion", 1000); ("error", 100000); ("identity", 100);
   ("insertion", 1000); ("interchangeable", 100); ("punctuation", 250); ("substitution", 1250); ("unassigned", 10000)]%string%Z.
