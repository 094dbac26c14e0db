(** What a pushdown rule, a manager and a cascade should do. *)
From Verif Require Import Base.
From Verif Require Import GrammarModel ManagerModel.

(** Both labels of an arc are there. *)
Definition full_pair (a : N * N) : bool :=
  negb (N.eqb (fst a) 0) && negb (N.eqb (snd a) 0).

(** The pairs of all arcs, state by state *)
Definition full_pairs (states : list (list (N * N))) : list (N * N) :=
  filter full_pair (concat states).

(** The last full pair with left label k has right label v. *)
Definition assigned (states : list (list (N * N))) (k v : N) : Prop :=
  exists a b, full_pairs states = a ++ (k, v) :: b /\ ~ In k (map fst b).

(** The last entry with key k *)
Definition last_of {A : Type} (l : list (str * A)) (k : str) (f : A) : Prop :=
  exists a b, l = a ++ (k, f) :: b /\ ~ In k (map fst b).

(** No pair has the same label on both sides, and no label is used twice. *)
Definition proper_parens (ps : list (N * N)) : Prop :=
  NoDup (map fst ps ++ map snd ps).

(** The outcome of one step after another *)
Definition and_then {A : Type} (r : result A) (g : A -> result A) : result A :=
  match r with
  | Returned a => g a
  | Refused => Refused
  | Aborted => Aborted
  end.

(** A name that is empty or known *)
Definition known_or_empty {F S : Type} (mgr : manager F S) (name : str) : Prop :=
  name = [] \/ exists f, mgr_get mgr name = Some f.

Definition known_triple {F S : Type} (mgr : manager F S) (t : triple) : Prop :=
  (exists f, mgr_get mgr (main_rule t) = Some f) /\
  known_or_empty mgr (parens_rule t) /\ known_or_empty mgr (assign_rule t).

(** Composing an input with a rule: without parentheses, with the parentheses
    of another rule, or with assignments of parentheses to stacks, too *)
Inductive composed {F S : Type} (label_pairs : F -> list (list (N * N)))
  (compose : F -> F -> F) (pdt_compose : F -> F -> list (N * N) -> F)
  (mpdt_compose : F -> F -> list (N * N) -> list N -> F)
  (mgr : manager F S) (t : triple) (input : F) : F -> Prop :=
| composed_plain rule :
    mgr_get mgr (main_rule t) = Some rule -> parens_rule t = [] ->
    composed label_pairs compose pdt_compose mpdt_compose mgr t input
      (compose input rule)
| composed_pdt rule p :
    mgr_get mgr (main_rule t) = Some rule -> parens_rule t <> [] ->
    mgr_get mgr (parens_rule t) = Some p -> assign_rule t = [] ->
    (forall l r, In (l, r) (full_pairs (label_pairs p)) -> l <> r) ->
    composed label_pairs compose pdt_compose mpdt_compose mgr t input
      (pdt_compose input rule (full_pairs (label_pairs p)))
| composed_mpdt rule p a vs :
    mgr_get mgr (main_rule t) = Some rule -> parens_rule t <> [] ->
    mgr_get mgr (parens_rule t) = Some p -> assign_rule t <> [] ->
    mgr_get mgr (assign_rule t) = Some a ->
    (forall l r, In (l, r) (full_pairs (label_pairs p)) -> l <> r) ->
    Forall2 (fun (q : N * N) v => assigned (label_pairs a) (fst q) v)
      (full_pairs (label_pairs p)) vs ->
    composed label_pairs compose pdt_compose mpdt_compose mgr t input
      (mpdt_compose input rule (full_pairs (label_pairs p)) vs).
