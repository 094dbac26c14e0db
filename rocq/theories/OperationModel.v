(** Model of operation inventories, nisaba/scripts/natural_translit/utils/operation.py.
    Operations are records in a list, referred to by position.  Costs are in
    thousandths.  [None] is an exception. *)
From Coq Require Import Ascii String.
From Verif Require Import Base ContainerModel InventoryModel.
Local Open Scope list_scope.

(** Operation.__init__, lines 93-101 *)
Record operation := Op {
  o_alias : str; o_cost : Z; o_index : N; o_match : nat; o_partial : nat; o_unexpected : nat
}.
Definition UNEXPECTED_PENALTY : Z := 750.

Record op_inv := OpInv { base : inv; prefix : N; index_dict : list (N * nat); ops : list operation }.

Definition op_class : N := 2.
Definition inv_class : N := 3.
Definition op_attributes : list str := base_attributes ++ map codes ["prefix"; "_index_dict"]%string.
(** Operation.Inventory.__init__ with no operations, lines 127-131; [ops]: the operations
    made so far, anywhere *)
Definition new_op_inv (ops : list operation) (prefix : N) : op_inv :=
  OpInv (new_inventory inv_class (Some [op_class]) op_attributes) prefix [] ops.

Definition op_obj (id : nat) : obj := Plain op_class (N.of_nat id).
Definition op_thing (id : nat) (alias : str) : thing := Thing (op_obj id) alias (op_obj id) [].

(** index_lookup, lines 133-134; [None]: Operation.COMMON.error *)
Fixpoint dict_get {A} (k : N) (d : list (N * A)) : option A :=
  match d with
  | [] => None
  | (k', v) :: r => if N.eqb k k' then Some v else dict_get k r
  end.
Fixpoint dict_set {A} (k : N) (v : A) (d : list (N * A)) : list (N * A) :=
  match d with
  | [] => [(k, v)]
  | (k', v') :: r => if N.eqb k k' then (k, v) :: r else (k', v') :: dict_set k v r
  end.
Definition index_lookup (s : op_inv) (index : N) : option nat := dict_get index (index_dict s).

(** max(self._index_dict.keys()): a ValueError if there are none *)
Definition max_key {A} (d : list (N * A)) : option N :=
  match map fst d with [] => None | k :: ks => Some (fold_left N.max ks k) end.

(** _next_index, lines 136-151 *)
Definition next_index (s : op_inv) : option N :=
  match items_of (base s) with
  | [] => Some (prefix s + 1)%N
  | [_] => Some (prefix s + 2)%N
  | _ =>
    match max_key (index_dict s) with
    | None => None
    | Some m => let index := (m + 1)%N in Some (if N.eqb (index mod 10) 0 then index + 1 else index)%N
    end
  end.

(** _make_operation, lines 153-159: the operation and the inventory afterwards *)
Definition make_operation (s : op_inv) (alias : str) (cost : Z) : option (nat * op_inv) :=
  if negb (method (base s) (codes "_make_operation")) || negb (method (base s) (codes "_next_index")) then None
  else
    match next_index s with
    | None => None
    | Some index =>
      let id := length (ops s) in
      let ops' := ops s ++ [Op alias cost index id id id] in
      match add_item [] (base s) (op_thing id alias) [] with
      | None => None
      | Some (added, b) =>
        Some (id, OpInv b (prefix s) (if added then dict_set index id (index_dict s) else index_dict s) ops')
      end
    end.

Definition set_match (o : operation) (m : nat) : operation := Op (o_alias o) (o_cost o) (o_index o) m (o_partial o) (o_unexpected o).
Definition set_partial (o : operation) (m : nat) : operation := Op (o_alias o) (o_cost o) (o_index o) (o_match o) m (o_unexpected o).
Definition set_unexpected (o : operation) (m : nat) : operation := Op (o_alias o) (o_cost o) (o_index o) (o_match o) (o_partial o) m.
Definition update (f : operation -> nat -> operation) (id target : nat) (s : op_inv) : op_inv :=
  OpInv (base s) (prefix s) (index_dict s)
    (match nth_error (ops s) id with Some o => replace (ops s) id (f o target) | None => ops s end).

(** from_args, lines 161-192 *)
Definition partial_alias (alias : str) : str := codes "partial_" ++ alias.
Definition unexpected_alias (alias : str) : str := codes "unexpected_" ++ alias.
Definition unexpected_partial_alias (alias : str) : str := codes "unexpected_partial_" ++ alias.
Definition add_arg (s : op_inv) (arg : str * Z) : option op_inv :=
  let '(alias, cost) := arg in
  match make_operation s alias cost with None => None | Some (match_, s1) =>
  match make_operation s1 (partial_alias alias) cost with None => None | Some (partial, s2) =>
  match make_operation s2 (unexpected_alias alias) (cost + UNEXPECTED_PENALTY)%Z with None => None | Some (unexpected, s3) =>
  match make_operation s3 (unexpected_partial_alias alias) (cost + UNEXPECTED_PENALTY)%Z with None => None | Some (unexpected_partial, s4) =>
  Some (update set_match unexpected_partial match_
       (update set_partial unexpected unexpected_partial
       (update set_match unexpected match_
       (update set_unexpected partial unexpected_partial
       (update set_match partial match_
       (update set_unexpected match_ unexpected
       (update set_partial match_ partial s4)))))))
  end end end end.
Definition from_args (ops : list operation) (prefix : N) (args : list (str * Z)) : option op_inv :=
  for_each add_arg (new_op_inv ops prefix) args.

(** Operation(alias, cost) made elsewhere, and add_operations, lines 194-196 *)
Definition foreign (s : op_inv) (alias : str) (cost : Z) (index : N) : op_inv :=
  let id := length (ops s) in OpInv (base s) (prefix s) (index_dict s) (ops s ++ [Op alias cost index id id id]).
Definition add_operation (s : op_inv) (id : nat) : option op_inv :=
  match nth_error (ops s) id with
  | None => None
  | Some o => option_map (fun r => OpInv (snd r) (prefix s) (index_dict s) (ops s)) (add_item [] (base s) (op_thing id (o_alias o)) [])
  end.

Inductive op_step :=
| MakeOp (alias : str) (cost : Z)
| MakeElsewhere (alias : str) (cost : Z) (index : N)
| AddOp (id : nat).
Definition op_do (s : op_inv) (o : op_step) : option op_inv :=
  match o with
  | MakeOp a c => option_map snd (make_operation s a c)
  | MakeElsewhere a c i => Some (foreign s a c i)
  | AddOp id => add_operation s id
  end.
Definition op_run (s : op_inv) (os : list op_step) : option op_inv := for_each op_do s os.

(** Operation.Inventory.__str__, lines 198-206: the operations shown *)
Definition shown (s : op_inv) : list str :=
  flat_map (fun x => match x with
                     | Plain _ i => match nth_error (ops s) (N.to_nat i) with
                                    | Some o => if Nat.eqb (o_match o) (N.to_nat i) then [o_alias o] else []
                                    | None => []
                                    end
                     | _ => []
                     end) (items_of (base s)).

(** Operation.COMMON, lines 211-224 *)
Definition COMMON : list (str * Z) :=
  [(codes "alignable", 0); (codes "boundary", 125); (codes "deletion", 1000); (codes "error", 100000); (codes "identity", 100);
   (codes "insertion", 1000); (codes "interchangeable", 100); (codes "punctuation", 250); (codes "substitution", 1250); (codes "unassigned", 10000)]%Z.
