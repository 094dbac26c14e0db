(** The rewrite manager, its rule cascade and its pushdown rules:
    nisaba/interim/grm2/rewrite/{parentheses,rewrite_manager,rule_cascade}.h.

    The type of FSTs is a parameter, and so are the operations of OpenFst: the
    pairs of labels on the arcs of each state, the three kinds of composition,
    the test for an FST without states, and the clean-up after composition
    (rewrite.h:51-65).  Sorting of arcs does not change what an FST means and
    is left out.  LOG(FATAL) ends the program: the value [Aborted]. *)
From Verif Require Import Base.
From Verif Require Import GrammarModel.

Inductive result (A : Type) : Type :=
| Returned (a : A)
| Refused
| Aborted.
Arguments Returned {A} a.
Arguments Refused {A}.
Arguments Aborted {A}.

(** ** Parentheses and assignments *)

Fixpoint mem (x : N) (l : list N) : bool :=
  match l with [] => false | y :: l' => if N.eqb x y then true else mem x l' end.

(** parentheses.h:41-72, the arcs of one state.  The set of seen labels is
    looked at and handed on. *)
Fixpoint parens_of_arcs (seen : list N) (arcs : list (N * N))
  (parens : list (N * N)) : result (list N * list (N * N)) :=
  match arcs with
  | [] => Returned (seen, parens)
  | (i, o) :: rest =>
    if N.eqb i 0 && N.eqb o 0 then parens_of_arcs seen rest parens
    else if N.eqb i 0 then parens_of_arcs seen rest parens
    else if N.eqb o 0 then parens_of_arcs seen rest parens
    else if mem i seen then Aborted
    else if mem o seen then Aborted
    else if N.eqb i o then Aborted
    else parens_of_arcs seen rest (parens ++ [(i, o)])
  end.

(** parentheses.h:32-74 MakeParenthesesVector *)
Fixpoint parens_of_states (seen : list N) (states : list (list (N * N)))
  (parens : list (N * N)) : result (list (N * N)) :=
  match states with
  | [] => Returned parens
  | arcs :: rest =>
    match parens_of_arcs seen arcs parens with
    | Returned (seen', parens') => parens_of_states seen' rest parens'
    | Refused => Refused
    | Aborted => Aborted
    end
  end.
Definition make_parentheses (states : list (list (N * N)))
  : result (list (N * N)) :=
  parens_of_states [] states [].

(** The map of assignments: the newest entry of a key is found first. *)
Fixpoint map_find (k : N) (m : list (N * N)) : option N :=
  match m with
  | [] => None
  | (k', v) :: m' => if N.eqb k k' then Some v else map_find k m'
  end.

(** parentheses.h:84-102 *)
Definition assign_arc (m : list (N * N)) (a : N * N) : list (N * N) :=
  let (i, o) := a in
  if N.eqb i 0 && N.eqb o 0 then m
  else if N.eqb i 0 then m
  else if N.eqb o 0 then m
  else (i, o) :: m.

(** parentheses.h:103-110 *)
Fixpoint assign_parens (m : list (N * N)) (parens : list (N * N))
  (assignments : list N) : result (list N) :=
  match parens with
  | [] => Returned assignments
  | (l, _) :: rest =>
    match map_find l m with
    | None => Aborted
    | Some v => assign_parens m rest (assignments ++ [v])
    end
  end.

(** parentheses.h:76-111 MakeAssignmentsVector *)
Definition make_assignments (states : list (list (N * N)))
  (parens : list (N * N)) : result (list N) :=
  assign_parens (fold_left (fun m arcs => fold_left assign_arc arcs m) states [])
    parens [].

Section Manager.

Variable F : Type.
Variable S : Type.
Variable input_symbols : F -> S.
Variable label_pairs : F -> list (list (N * N)).
Variable compose : F -> F -> F.
Variable pdt_compose : F -> F -> list (N * N) -> F.
Variable mpdt_compose : F -> F -> list (N * N) -> list N -> F.
Variable no_states : F -> bool.
Variable cleanup : F -> F.

(** ** The manager: rewrite_manager.h:171-172 *)

Record manager : Type := Manager { fsts : list (str * F); gensyms : option S }.

Definition empty_manager : manager := Manager [] None.

(** "*StringFstSymbolTable" *)
Definition symbol_key : str :=
  [42; 83; 116; 114; 105; 110; 103; 70; 115; 116; 83; 121; 109; 98; 111; 108;
   84; 97; 98; 108; 101]%N.

Fixpoint find_fst (m : list (str * F)) (name : str) : option F :=
  match m with
  | [] => None
  | (k, f) :: m' => if str_eqb k name then Some f else find_fst m' name
  end.
Fixpoint put_fst (m : list (str * F)) (name : str) (f : F) : list (str * F) :=
  match m with
  | [] => [(name, f)]
  | (k, g) :: m' =>
    if str_eqb k name then (k, f) :: m' else (k, g) :: put_fst m' name f
  end.

(** rewrite_manager.h:414-425 AddToMap *)
Definition add_to_map (mgr : manager) (e : str * F) : manager :=
  let (rule, f) := e in
  if str_eqb rule symbol_key then Manager (fsts mgr) (Some (input_symbols f))
  else Manager (put_fst (fsts mgr) rule f) (gensyms mgr).

(** rewrite_manager.h:175-188 Load from a file ([None]: it cannot be read) *)
Definition load_far (entries : option (list (str * F))) (mgr : manager)
  : bool * manager :=
  match entries with
  | None => (false, empty_manager)
  | Some l => (true, fold_left add_to_map l empty_manager)
  end.

(** rewrite_manager.h:200-205 GetFst *)
Definition mgr_get (mgr : manager) (rule : str) : option F :=
  find_fst (fsts mgr) rule.

(** rewrite_manager.h:214-222 SetFst *)
Definition mgr_set (mgr : manager) (rule : str) (f : F) : bool * manager :=
  match find_fst (fsts mgr) rule with
  | None => (false, mgr)
  | Some _ => (true, Manager (put_fst (fsts mgr) rule f) (gensyms mgr))
  end.

(** rewrite.h:51-65 *)
Definition checked (f : F) : result F :=
  if no_states f then Refused else Returned (cleanup f).

(** rewrite_manager.h:373-412 RewriteLattice *)
Definition mgr_rewrite (mgr : manager) (t : triple) (input : F) : result F :=
  match mgr_get mgr (main_rule t) with
  | None => Refused
  | Some rule =>
    match parens_rule t with
    | [] => checked (compose input rule)
    | p =>
      match mgr_get mgr p with
      | None => Refused
      | Some parens_fst =>
        match make_parentheses (label_pairs parens_fst) with
        | Refused => Refused
        | Aborted => Aborted
        | Returned parens =>
          match assign_rule t with
          | [] => checked (pdt_compose input rule parens)
          | a =>
            match mgr_get mgr a with
            | None => Refused
            | Some assign_fst =>
              match make_assignments (label_pairs assign_fst) parens with
              | Refused => Refused
              | Aborted => Aborted
              | Returned assignments =>
                checked (mpdt_compose input rule parens assignments)
              end
            end
          end
        end
      end
    end
  end.

(** ** The cascade *)

Definition has_rule (mgr : manager) (name : str) : bool :=
  match mgr_get mgr name with None => false | Some _ => true end.

(** rule_cascade.h:164-178, one triple.  The names in a rule definition
    (rule_cascade.h:58-75) are found as in the other cascade. *)
Definition validate_triple (mgr : manager) (t : triple) : bool :=
  if negb (has_rule mgr (main_rule t)) then false
  else if negb (match parens_rule t with [] => true | _ => false end)
          && negb (has_rule mgr (parens_rule t)) then false
  else if negb (match assign_rule t with [] => true | _ => false end)
          && negb (has_rule mgr (assign_rule t)) then false
  else true.

(** rule_cascade.h:158-181 ValidateRules *)
Definition validate_rules (mgr : manager) (triples : list triple) : bool :=
  match triples with
  | [] => false
  | _ => forallb (validate_triple mgr) triples
  end.

(** rule_cascade.h:124-129 SetRules: the old triples are dropped first; the
    new ones stay even if they are not valid *)
Definition set_rules (mgr : manager) (rules : list str) (old : list triple)
  : bool * list triple :=
  let triples := map parse_triple rules in (validate_rules mgr triples, triples).

(** rule_cascade.h:141-154 Rewrite *)
Fixpoint rules_rewrite (mgr : manager) (triples : list triple) (output : F)
  : result F :=
  match triples with
  | [] => Returned output
  | t :: rest =>
    match mgr_rewrite mgr t output with
    | Returned f => rules_rewrite mgr rest f
    | Refused => Refused
    | Aborted => Aborted
    end
  end.

End Manager.

Arguments Manager {F S}.
Arguments fsts {F S}.
Arguments gensyms {F S}.
Arguments empty_manager {F S}.
Arguments find_fst {F}.
Arguments put_fst {F}.
Arguments add_to_map {F S}.
Arguments load_far {F S}.
Arguments mgr_get {F S}.
Arguments mgr_set {F S}.
Arguments checked {F}.
Arguments mgr_rewrite {F S}.
Arguments has_rule {F S}.
Arguments validate_triple {F S}.
Arguments validate_rules {F S}.
Arguments set_rules {F S}.
Arguments rules_rewrite {F S}.
