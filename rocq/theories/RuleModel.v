(** Model of nisaba/scripts/utils/rule.py and nisaba/scripts/utils/rewrite.py. *)
From Verif Require Import Base.

(** rule.py:75  Rule = NamedTuple('Rule', [('lhs', str), ('rhs', str)]) *)
Record rule := Rule { lhs : str; rhs : str }.

(** NamedTuple equality, used by [p1 != p2] and by node identity (rule.py:120). *)
Definition rule_eqb (a b : rule) : bool :=
  str_eqb (lhs a) (lhs b) && str_eqb (rhs a) (rhs b).

Definition mem_rule (r : rule) (l : list rule) : bool := existsb (rule_eqb r) l.

(** rule.py:96-97 _match_lhs_in_lhs *)
Definition match_lhs_in_lhs (a b : rule) : bool := infixb (lhs a) (lhs b).

(** networkx DiGraph restricted to what partition_unordered uses: the node
    list in insertion order without repetition, and the edge list.
    (nx.DiGraph collapses parallel edges; only "out-degree is zero" is used, so
    keeping them does not matter.) *)
Record digraph := Digraph { nodes : list rule; edges : list (rule * rule) }.

(** DiGraph.add_nodes_from: a node already present is not added again. *)
Fixpoint add_nodes (acc : list rule) (rs : list rule) : list rule :=
  match rs with
  | [] => acc
  | r :: rs' => if mem_rule r acc then add_nodes acc rs' else add_nodes (acc ++ [r]) rs'
  end.

(** rule.py:119-120: the generator over it.product(rules, rules). *)
Definition lhs_edges (rs : list rule) : list (rule * rule) :=
  filter (fun e => negb (rule_eqb (fst e) (snd e)) && match_lhs_in_lhs (fst e) (snd e))
         (list_prod rs rs).

(** rule.py:117-120 *)
Definition build_graph (rs : list rule) : digraph :=
  Digraph (add_nodes [] rs) (lhs_edges rs).

Definition out_degree (g : digraph) (n : rule) : nat :=
  length (filter (fun e => rule_eqb (fst e) n) (edges g)).

(** rule.py:123 *)
Definition leaves (g : digraph) : list rule :=
  filter (fun n => Nat.eqb (out_degree g n) 0) (nodes g).

(** DiGraph.remove_nodes_from (rule.py:127): drops the nodes and every edge
    touching one of them. *)
Definition remove_nodes (g : digraph) (ls : list rule) : digraph :=
  Digraph (filter (fun n => negb (mem_rule n ls)) (nodes g))
          (filter (fun e => negb (mem_rule (fst e) ls) && negb (mem_rule (snd e) ls))
                  (edges g)).

(** Outcome of partition_unordered: a list of layers, the ValueError of
    rule.py:125, or (never, see RuleProofs) exhausted fuel. *)
Inductive pres := Layers (l : list (list rule)) | CycleError | OutOfFuel.

(** rule.py:121-128: while g.number_of_nodes() > 0. *)
Fixpoint peel (fuel : nat) (g : digraph) : pres :=
  match nodes g with
  | [] => Layers []
  | _ :: _ =>
    match fuel with
    | O => OutOfFuel
    | S f =>
      match leaves g with
      | [] => CycleError
      | ls => match peel f (remove_nodes g ls) with
              | Layers rest => Layers (ls :: rest)
              | e => e
              end
      end
    end
  end.

(** rule.py:100-128.  Each round removes a node, so the number of rules bounds
    the rounds. *)
Definition partition_unordered (rs : list rule) : pres :=
  peel (length rs) (build_graph rs).

(** ------------------------------------------------------------------ *)
(** Rewriting.  [pynini.cdrewrite(rule, left, right, sigma.star)] with the
    default direction "ltr" and mode "obl" (rewrite.py:24-28), for a rule that
    is a finite union of string pairs with non-empty inputs.

    [lc] tests the output produced so far (given in reverse), [rc] tests the
    input that remains after the matched left-hand side.  At a position where
    a pair matches in its context one of the matching pairs has to be applied
    and the matched input is skipped; otherwise the character is copied.  All
    possible outputs are listed.  Inputs containing a character that is not in
    [sigma] have no output. *)
Section Cdrewrite.
  Variable rs : list rule.
  Variable lc rc : str -> bool.

  Definition applicable (s : str) (r : rule) : bool :=
    prefixb (lhs r) s && rc (skipn (length (lhs r)) s).

  Fixpoint scan (outr : str) (skip : nat) (s : str) : list str :=
    match s with
    | [] => [rev outr]
    | c :: s' =>
      match skip with
      | S k => scan outr k s'
      | O =>
        match filter (applicable s) rs with
        | [] => scan (c :: outr) 0 s'
        | ms => if lc outr
                then flat_map (fun r => scan (rev (rhs r) ++ outr)
                                             (length (lhs r) - 1) s') ms
                else scan (c :: outr) 0 s'
        end
      end
    end.
End Cdrewrite.

Definition always (_ : str) : bool := true.

(** An FST given by the list of its outputs for each input. *)
Definition fst_t := str -> list str.

Definition over (sigma : list N) (s : str) : bool := forallb (fun c => memN c sigma) s.

(** rewrite.py:24-28 Rewrite(rule, sigma) for a union of string pairs. *)
Definition rewrite_ctx (rs : list rule) (sigma : list N) (lc rc : str -> bool) : fst_t :=
  fun s => if over sigma s then scan rs lc rc [] 0 s else [].

Definition rewrite (rs : list rule) (sigma : list N) : fst_t :=
  rewrite_ctx rs sigma always always.

(** f @ g *)
Definition compose (f g : fst_t) : fst_t := fun s => flat_map g (f s).

(** sigma.star (rewrite.py:53) *)
Definition sigma_star (sigma : list N) : fst_t :=
  fun s => if over sigma s then [s] else [].

(** rewrite.py:31-47.  The type of FSTs, composition-and-optimize and the
    state count are parameters: the heuristic looks only at state counts. *)
Section ComposeFsts.
  Context {F : Type}.
  Variable comp : F -> F -> F.
  Variable num_states : F -> nat.

  (** [a * b for a, b in zip(num_states, num_states[1:])] *)
  Fixpoint state_prods (l : list F) : list nat :=
    match l with
    | a :: ((b :: _) as l') => num_states a * num_states b :: state_prods l'
    | _ => []
    end.

  (** num_states_prod.index(min(num_states_prod)): the first index of a minimum. *)
  Fixpoint list_min (m : nat) (l : list nat) : nat :=
    match l with [] => m | x :: l' => list_min (Nat.min m x) l' end.
  Fixpoint index_of (x : nat) (l : list nat) : nat :=
    match l with [] => 0 | y :: l' => if Nat.eqb x y then 0 else S (index_of x l') end.
  Definition argmin (l : list nat) : nat :=
    match l with [] => 0 | x :: l' => index_of (list_min x l') l end.

  (** fsts[:i] + [fsts[i] @ fsts[i+1]] + fsts[i+2:] *)
  Fixpoint merge_at (i : nat) (l : list F) : list F :=
    match i, l with
    | O, a :: b :: l' => comp a b :: l'
    | S i', a :: l' => a :: merge_at i' l'
    | _, _ => l
    end.

  (** None = out of fuel; proved not to happen with fuel >= length. *)
  Fixpoint compose_fsts_fuel (fuel : nat) (dflt : F) (l : list F) : option F :=
    match l with
    | [] => Some dflt
    | [a] => Some a
    | _ :: _ :: _ =>
      match fuel with
      | O => None
      | S f => compose_fsts_fuel f dflt (merge_at (argmin (state_prods l)) l)
      end
    end.

  Definition compose_fsts (dflt : F) (l : list F) : option F :=
    compose_fsts_fuel (length l) dflt l.
End ComposeFsts.

(** rewrite.py:50-53 RewriteAndComposeFsts *)
Definition rewrite_and_compose (ns : fst_t -> nat) (layers : list (list rule))
    (sigma : list N) : option fst_t :=
  compose_fsts compose ns (sigma_star sigma) (map (fun rs => rewrite rs sigma) layers).

(** rule.py:131-144 fst_from_rules; [None] for the ValueError of
    partition_unordered. *)
Definition fst_from_rules (ns : fst_t -> nat) (rs : list rule) (sigma : list N)
  : option fst_t :=
  match partition_unordered rs with
  | Layers ls => rewrite_and_compose ns ls sigma
  | _ => None
  end.

(** rule.py:163-175 _fst_from_cascading_rules *)
Definition fst_from_cascading (ns : fst_t -> nat) (rs : list rule) (sigma : list N)
  : option fst_t :=
  rewrite_and_compose ns (map (fun r => [r]) rs) sigma.
