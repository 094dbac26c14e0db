(** C81: lists of transducers. *)
From Verif Require Import Base RuleModel FstListModel FstListSpec FstListProofs.

(** A list holds the transducers among its arguments at all depths, and nothing else. *)
Theorem C81_add : forall F (accep : str -> F) items args, add accep items args = items ++ flat_map (flat accep) args.
Proof. exact @add_flat. Qed.
Print Assumptions C81_add.
Theorem C81_list : forall F (accep : str -> F) args, FstList accep args = flat_map (flat accep) args.
Proof. exact @list_flat. Qed.
Print Assumptions C81_list.
Theorem C81_accep : forall F (accep : str -> F) strings, accep_list accep strings = map accep strings.
Proof. exact @accep_list_items. Qed.
Print Assumptions C81_accep.

(** What the operations accept, with costs *)
Theorem C81_union : forall F accep rel no_fst union2 star cat composed EMPTY,
  @semantics F rel no_fst accep union2 star cat composed EMPTY -> forall items x y c,
  rel (union no_fst union2 items) x y c <-> exists f, In f items /\ rel f x y c.
Proof. exact @union_spec. Qed.
Print Assumptions C81_union.
Theorem C81_union_star : forall F accep rel no_fst union2 star cat composed EMPTY,
  @semantics F rel no_fst accep union2 star cat composed EMPTY -> forall items x y c,
  rel (union_star no_fst union2 star items) x y c <->
  exists fs, (forall f, In f fs -> In f items) /\ in_sequence (map rel fs) x y c.
Proof. exact @union_star_spec. Qed.
Print Assumptions C81_union_star.
Theorem C81_concat : forall F accep rel no_fst union2 star cat composed EMPTY,
  @semantics F rel no_fst accep union2 star cat composed EMPTY -> forall items x y c,
  rel (FstListModel.concat accep cat items) x y c <-> in_sequence (map rel items) x y c.
Proof. exact @concat_spec. Qed.
Print Assumptions C81_concat.
(** Whatever the numbers of states, which decide the order of composition; the list of
    no transducers accepts nothing, not everything. *)
Theorem C81_compose : forall F accep rel no_fst union2 star cat composed EMPTY num_states,
  @semantics F rel no_fst accep union2 star cat composed EMPTY -> forall items,
  exists f, compose composed num_states EMPTY items = Some f /\
    forall x y c, rel f x y c <-> items <> [] /\ in_turn (map rel items) x y c.
Proof. exact @compose_spec. Qed.
Print Assumptions C81_compose.
Theorem C81_semantics : exists (rel : relation -> relation) no_fst accep union2 star cat composed EMPTY,
  semantics rel no_fst accep union2 star cat composed EMPTY.
Proof. exact semantics_exists. Qed.
Print Assumptions C81_semantics.

(** make calls the maker for every tuple, but not for the tuples of a list, as in its
    documentation. *)
Theorem C81_make : forall F (accep : str -> F) (maker : list (value F) -> F) tuples,
  make accep maker (map VTuple tuples) = Some (map maker tuples).
Proof. exact @make_tuples. Qed.
Print Assumptions C81_make.
Theorem C81_make_refuted : exists (maker : list (value nat) -> nat) tuples,
  make (fun _ => 0) maker [VTuple (map VTuple tuples)] <> make (fun _ => 0) maker (map VTuple tuples).
Proof. exact make_documented. Qed.
Print Assumptions C81_make_refuted.

(** Nested arguments, with numbers for transducers and lengths for acceptors *)
Example C81_example : FstList (@length N) [AFst 7; AIter [AStr [97; 98]%N; AOther; AIter [AFst 8; AIter []]]; AStr []] = [7; 2; 8; 0] /\
  union 99 (fun l => length l) [7] = 7 /\ union 99 (fun l => length l) [] = 99 /\ union 99 (fun l => length l) [7; 8; 9] = 3 /\
  compose Nat.add (fun n => n) 99 [5; 1; 2] = Some 8 /\ compose Nat.add (fun n => n) 99 [] = Some 99.
Proof. vm_compute. repeat split. Qed.
Example C81_example_sequence : in_sequence [fun x y c => x = [97] /\ y = [98] /\ c = 2; fun x y c => x = [99] /\ y = [] /\ c = 3]%N [97; 99]%N [98]%N 5%N /\
  in_turn [fun x y c => x = [97] /\ y = [98] /\ c = 2; fun x y c => x = [98] /\ y = [] /\ c = 3]%N [97]%N [] 5%N.
Proof.
  split.
  - apply (seq_one _ _ [97]%N [98]%N 2%N [99]%N [] 3%N); [repeat split|].
    apply (seq_one _ _ [99]%N [] 3%N [] [] 0%N); [repeat split|constructor].
  - apply (turn_one _ _ _ [98]%N _ 2%N 3%N); [repeat split|]. apply (turn_one _ _ _ [] _ 3%N 0%N); [repeat split|constructor].
Qed.
