(** C60: the rewrite manager, its cascade and its pushdown rules. *)
From Verif Require Import Base.
From Verif Require Import GrammarModel ManagerModel ManagerSpec ManagerProofs.

(** The parentheses are the pairs of labels on the arcs, in order, unless some
    pair has the same label twice: then the program ends. *)
Theorem C60_parentheses :
  forall states,
  (make_parentheses states = Returned (full_pairs states) /\
   forall l r, In (l, r) (full_pairs states) -> l <> r) \/
  (make_parentheses states = Aborted /\
   exists l, In (l, l) (full_pairs states)).
Proof. exact parens_spec. Qed.
Print Assumptions C60_parentheses.

(** A label that is used twice is not noticed: nothing is ever put into the
    set of seen labels. *)
Theorem C60_reuse_noticed_refuted :
  exists states ps, make_parentheses states = Returned ps /\ ~ proper_parens ps.
Proof. exact parens_reuse. Qed.
Print Assumptions C60_reuse_noticed_refuted.

(** One assignment for each pair of parentheses: the last one of its left
    label.  If there is none the program ends. *)
Theorem C60_assignments :
  forall states parens,
  (exists vs, make_assignments states parens = Returned vs /\
     Forall2 (fun (p : N * N) v => assigned states (fst p) v) parens vs) \/
  (make_assignments states parens = Aborted /\
     exists p, In p parens /\ forall v, ~ assigned states (fst p) v).
Proof. exact assignments_spec. Qed.
Print Assumptions C60_assignments.

(** After loading, a name stands for its last entry; the entry with the table
    of generated symbols is not a rule.  Nothing is left of what was there. *)
Theorem C60_load :
  forall (F S : Type) (input_symbols : F -> S) entries (mgr : manager F S),
  exists mgr', load_far input_symbols (Some entries) mgr = (true, mgr') /\
  (forall k f, mgr_get mgr' k = Some f <->
     k <> symbol_key /\ last_of entries k f) /\
  (forall s, gensyms mgr' = Some s <->
     exists f, last_of entries symbol_key f /\ s = input_symbols f).
Proof. exact load_spec. Qed.
Print Assumptions C60_load.

Theorem C60_load_failure :
  forall (F S : Type) (input_symbols : F -> S) (mgr : manager F S),
  load_far input_symbols None mgr = (false, empty_manager).
Proof. exact load_failure. Qed.
Print Assumptions C60_load_failure.

(** SetFst replaces a rule that is there, and nothing else. *)
Theorem C60_set :
  forall (F S : Type) (mgr : manager F S) k f,
  exists b mgr', mgr_set mgr k f = (b, mgr') /\
  (b = true <-> exists g, mgr_get mgr k = Some g) /\
  (forall k', mgr_get mgr' k' =
     if b && str_eqb k k' then Some f else mgr_get mgr k') /\
  gensyms mgr' = gensyms mgr.
Proof. exact set_spec. Qed.
Print Assumptions C60_set.

(** SetRules forgets the old rules; it is content if there are rules and all
    their names are known. *)
Theorem C60_set_rules :
  forall (F S : Type) (mgr : manager F S) rules old,
  exists b, set_rules mgr rules old = (b, map parse_triple rules) /\
  (b = true <->
   rules <> [] /\ Forall (fun r => known_triple mgr (parse_triple r)) rules).
Proof. exact set_rules_spec. Qed.
Print Assumptions C60_set_rules.

(** A cascade of two parts is one part after the other. *)
Theorem C60_split :
  forall (F S : Type) label_pairs compose pdt_compose mpdt_compose no_states
    cleanup (mgr : manager F S) a b input,
  rules_rewrite label_pairs compose pdt_compose mpdt_compose no_states cleanup
    mgr (a ++ b) input
  = and_then
      (rules_rewrite label_pairs compose pdt_compose mpdt_compose no_states
         cleanup mgr a input)
      (rules_rewrite label_pairs compose pdt_compose mpdt_compose no_states
         cleanup mgr b).
Proof. exact rules_app. Qed.
Print Assumptions C60_split.

(** A rule with known names is refused only if the composition is empty. *)
Theorem C60_known_rules :
  forall (F S : Type) label_pairs compose pdt_compose mpdt_compose no_states
    cleanup (mgr : manager F S) t input,
  known_triple mgr t -> (forall f, no_states f = false) ->
  mgr_rewrite label_pairs compose pdt_compose mpdt_compose no_states cleanup
    mgr t input <> Refused.
Proof. exact known_refused. Qed.
Print Assumptions C60_known_rules.

(** One rule gives the cleaned composition of the input with it: with its
    parentheses and assignments, exactly if it has some. *)
Theorem C60_rewrite :
  forall (F S : Type) label_pairs compose pdt_compose mpdt_compose no_states
    cleanup (mgr : manager F S) t input g,
  mgr_rewrite label_pairs compose pdt_compose mpdt_compose no_states cleanup
    mgr t input = Returned g <->
  exists c, composed label_pairs compose pdt_compose mpdt_compose mgr t input c /\
    no_states c = false /\ g = cleanup c.
Proof. exact rewrite_composed. Qed.
Print Assumptions C60_rewrite.

(** The program ends exactly if a known rule has known parentheses with the
    same label twice, or without an assignment. *)
Theorem C60_rewrite_aborts :
  forall (F S : Type) label_pairs compose pdt_compose mpdt_compose no_states
    cleanup (mgr : manager F S) t input,
  mgr_rewrite label_pairs compose pdt_compose mpdt_compose no_states cleanup
    mgr t input = Aborted <->
  exists r p, mgr_get mgr (main_rule t) = Some r /\ parens_rule t <> [] /\
    mgr_get mgr (parens_rule t) = Some p /\
    ((exists l, In (l, l) (full_pairs (label_pairs p))) \/
     (forall l r, In (l, r) (full_pairs (label_pairs p)) -> l <> r) /\
     assign_rule t <> [] /\
     exists a q, mgr_get mgr (assign_rule t) = Some a /\
       In q (full_pairs (label_pairs p)) /\
       forall v, ~ assigned (label_pairs a) (fst q) v).
Proof. exact rewrite_aborts. Qed.
Print Assumptions C60_rewrite_aborts.

(** Rules that SetRules refused can still rewrite. *)
Theorem C60_refused_rules_fail_refuted :
  forall (F S : Type) label_pairs compose pdt_compose mpdt_compose no_states
    cleanup (f : F),
  no_states (compose f f) = false ->
  exists (mgr : manager F S) rules,
    fst (set_rules mgr rules []) = false /\
    rules_rewrite label_pairs compose pdt_compose mpdt_compose no_states
      cleanup mgr (snd (set_rules mgr rules [])) f
    = Returned (cleanup (compose f f)).
Proof. exact invalid_rewrites. Qed.
Print Assumptions C60_refused_rules_fail_refuted.

(** An empty cascade is refused by SetRules; as a rewrite it is the identity. *)
Theorem C60_no_rules :
  forall (F S : Type) label_pairs compose pdt_compose mpdt_compose no_states
    cleanup (mgr : manager F S) old f,
  set_rules mgr [] old = (false, []) /\
  rules_rewrite label_pairs compose pdt_compose mpdt_compose no_states cleanup
    mgr [] f = Returned f.
Proof. exact no_rules_identity. Qed.
Print Assumptions C60_no_rules.

Example C60_example_parens :
  make_parentheses [[(300, 301); (0, 5)]; []; [(302, 303)]]%N
  = Returned [(300, 301); (302, 303)]%N /\
  make_parentheses [[(300, 300)]]%N = Aborted /\
  make_assignments [[(300, 1); (302, 2)]; [(300, 2)]]%N
    [(300, 301); (302, 303)]%N = Returned [2; 2]%N /\
  make_assignments [[(300, 1)]]%N [(300, 301); (302, 303)]%N = Aborted.
Proof. repeat split. Qed.

(** FSTs as lists of labels here; composition appends. *)
Example C60_example_cascade :
  let mgr := snd (load_far (fun f : list N => f)
                    (Some [([97], [1]); (symbol_key, [9]); ([98], [2]); ([97], [3])]%N)
                    empty_manager) in
  gensyms mgr = Some [9]%N /\
  set_rules mgr [[97]; [98; 36; 97]]%N [] =
    (true, [Triple [97] [] []; Triple [98] [97] []]%N) /\
  rules_rewrite (fun _ => [[(300, 301)]]%N) (fun a b => a ++ b)
    (fun a b p => a ++ b ++ map fst p) (fun a b p v => a ++ b ++ v)
    (fun f => match f with [] => true | _ => false end) (fun f => f)
    mgr [Triple [97] [] []; Triple [98] [97] []]%N [5]%N
  = Returned [5; 3; 2; 300]%N.
Proof. vm_compute. repeat split. Qed.

(** With parentheses and assignments *)
Example C60_example_stacks :
  mgr_rewrite (fun f => [map (fun n => (n, n + 1)) f]%N) (fun a b => a ++ b)
    (fun a b p => a ++ b ++ map fst p) (fun a b p v => a ++ b ++ map fst p ++ v)
    (fun _ => false) (fun f => f)
    (Manager [([97], [1]); ([98], [300]); ([99], [300])]%N (@None Datatypes.unit))
    (Triple [97] [98] [99])%N [5]%N = Returned [5; 1; 300; 301]%N.
Proof. vm_compute. reflexivity. Qed.
