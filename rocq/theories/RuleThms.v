(** C01, C02, C03, C05, C06: rule files (rule.py, rewrite.py). *)
From Verif Require Import Base RuleModel RuleSpec RuleProofs RewriteProofs IdemProofs.

(** ** C01 *)
Theorem C01_layers_sound : forall rs ls, partition_unordered rs = Layers ls ->
  NoDup (concat ls) /\
  (forall r, In r (concat ls) <-> In r rs) /\
  Forall (fun l => l <> []) ls /\
  Forall antichain ls /\
  (forall a b, In a rs -> In b rs -> a <> b -> is_infix (lhs a) (lhs b) ->
               strictly_before ls b a).
Proof. exact partition_sound. Qed.
Print Assumptions C01_layers_sound.

Theorem C01_layers_total : forall rs,
  (exists ls, partition_unordered rs = Layers ls) \/ partition_unordered rs = CycleError.
Proof. exact partition_total. Qed.
Print Assumptions C01_layers_total.

Theorem C01_error_iff_conflict : forall rs,
  partition_unordered rs = CycleError <->
  exists a b, In a rs /\ In b rs /\ lhs a = lhs b /\ rhs a <> rhs b.
Proof. exact partition_error_iff. Qed.
Print Assumptions C01_error_iff_conflict.

Example C01_example_layers :
  partition_unordered [Rule [1%N] [9%N]; Rule [1%N; 2%N] [8%N]; Rule [3%N] [7%N];
                       Rule [0%N; 1%N; 2%N] []; Rule [1%N] [9%N]]
  = Layers [[Rule [3%N] [7%N]; Rule [0%N; 1%N; 2%N] []]; [Rule [1%N; 2%N] [8%N]];
            [Rule [1%N] [9%N]]].
Proof. vm_compute. reflexivity. Qed.

Example C01_example_error :
  partition_unordered [Rule [1%N] [9%N]; Rule [2%N] []; Rule [1%N] [8%N]] = CycleError.
Proof. vm_compute. reflexivity. Qed.

(** ** C02 *)
Theorem C02_total_functional : forall ns rs sigma,
  nonempty_lhs rs -> (forall r, In r rs -> over sigma (rhs r) = true) ->
  match partition_unordered rs with
  | Layers ls =>
    exists f, fst_from_rules ns rs sigma = Some f /\
      (forall s, over sigma s = true ->
         exists t, f s = [t] /\ over sigma t = true /\ passes ls s t /\
                   forall t', passes ls s t' -> t' = t) /\
      (forall s, over sigma s = false -> f s = [])
  | _ => fst_from_rules ns rs sigma = None
  end.
Proof. exact fst_from_rules_spec. Qed.
Print Assumptions C02_total_functional.

Example C02_example :
  let rs := [Rule [1%N] [9%N]; Rule [1%N; 2%N] [8%N]] in
  let sigma := [1; 2; 8; 9]%N in
  nonempty_lhs rs /\ (forall r, In r rs -> over sigma (rhs r) = true) /\
  match fst_from_rules (fun _ => 1) rs sigma with
  | Some f => f [1; 1; 2; 2]%N = [[9; 8; 2]%N] /\ f [7%N] = []
  | None => False
  end.
Proof.
  vm_compute. split; [|split].
  - intros r [<-|[<-|[]]]; discriminate.
  - intros r [<-|[<-|[]]]; reflexivity.
  - auto.
Qed.

(** ** C03 *)
Theorem C03_pass_obligatory : forall layer sigma s,
  nonempty_lhs layer -> prefix_free layer -> over sigma s = true ->
  exists gs, rewrite layer sigma s = [outs gs] /\ ins gs = s /\
    (forall r, In (Sub r) gs -> In r layer) /\
    (forall r x y, In r layer -> s = x ++ lhs r ++ y ->
       exists g1 r' g2, gs = g1 ++ Sub r' :: g2 /\
         length (ins g1) < length x + length (lhs r) /\
         length x < length (ins g1) + length (lhs r')) /\
    (forall g1 c g2 r, gs = g1 ++ Copy c :: g2 -> In r layer ->
       ~ is_prefix (lhs r) (ins (Copy c :: g2))).
Proof. exact rewrite_pass_spec. Qed.
Print Assumptions C03_pass_obligatory.

Theorem C03_no_match_identity : forall ns rs sigma f,
  nonempty_lhs rs -> (forall r, In r rs -> over sigma (rhs r) = true) ->
  fst_from_rules ns rs sigma = Some f ->
  forall s, over sigma s = true -> (forall r, In r rs -> ~ is_infix (lhs r) s) -> f s = [s].
Proof. exact no_lhs_identity. Qed.
Print Assumptions C03_no_match_identity.

Example C03_example :
  let layer := [Rule [1; 1]%N [9%N]; Rule [1; 2]%N [8%N]] in
  nonempty_lhs layer /\ prefix_free layer /\
  rewrite layer [1; 2; 8; 9]%N [1; 1; 2; 1; 2]%N = [[9; 2; 8]%N].
Proof.
  cbv zeta. split; [|split].
  - intros r [<-|[<-|[]]]; discriminate.
  - split.
    + repeat constructor; simpl; intuition congruence.
    + intros a b [<-|[<-|[]]] [<-|[<-|[]]] H [t E]; simpl in E; congruence.
  - vm_compute. reflexivity.
Qed.

Example C03_identity_example :
  match fst_from_rules (fun _ => 1) [Rule [1; 2]%N [3%N]] [1; 2; 3]%N with
  | Some f => f [2; 1; 3; 2]%N = [[2; 1; 3; 2]%N]
  | None => False
  end /\ ~ is_infix [1; 2]%N [2; 1; 3; 2]%N.
Proof.
  split; [vm_compute; reflexivity|]. apply infixb_false. vm_compute. reflexivity.
Qed.

(** ** C05.  [comp] is any composition operation with the right denotation
    [den], [num_states] any state counts. *)
Theorem C05_heuristic_irrelevant :
  forall (F X : Type) (comp : F -> F -> F) (num_states : F -> nat)
         (den : F -> X -> X -> Prop),
  (forall f g x z, den (comp f g) x z <-> exists y, den f x y /\ den g y z) ->
  forall dflt l, l <> [] ->
  exists f, compose_fsts comp num_states dflt l = Some f /\
            forall x z, den f x z <-> chain den l x z.
Proof. exact @compose_fsts_chain. Qed.
Print Assumptions C05_heuristic_irrelevant.

Theorem C05_small_lists : forall (F : Type) comp (num_states : F -> nat) dflt,
  compose_fsts comp num_states dflt [] = Some dflt /\
  forall a, compose_fsts comp num_states dflt [a] = Some a.
Proof. intros. split; reflexivity. Qed.
Print Assumptions C05_small_lists.

(** Transducers as lists of numbers, composition as concatenation, state
    count as length: the middle pair is merged first, the order is kept. *)
Example C05_example :
  compose_fsts (@app nat) (@length nat) [] [[1; 2; 3]; [4]; [5]; [6; 7; 8]]
  = Some [1; 2; 3; 4; 5; 6; 7; 8] /\
  argmin (state_prods (@length nat) [[1; 2; 3]; [4]; [5]; [6; 7; 8]]) = 1.
Proof. vm_compute. auto. Qed.

(** ** C06 *)
Theorem C06_cascade_is_successive_replacement : forall ns rs sigma,
  nonempty_lhs rs -> (forall r, In r rs -> over sigma (rhs r) = true) ->
  exists f, fst_from_cascading ns rs sigma = Some f /\
    forall s, f s = if over sigma s then [cascade rs s] else [].
Proof. exact cascading_spec. Qed.
Print Assumptions C06_cascade_is_successive_replacement.

Theorem C06_cascade_split : forall ns rs1 rs2 sigma,
  nonempty_lhs (rs1 ++ rs2) -> (forall r, In r (rs1 ++ rs2) -> over sigma (rhs r) = true) ->
  exists f f1 f2,
    fst_from_cascading ns (rs1 ++ rs2) sigma = Some f /\
    fst_from_cascading ns rs1 sigma = Some f1 /\
    fst_from_cascading ns rs2 sigma = Some f2 /\
    forall s, f s = flat_map f2 (f1 s).
Proof. exact cascading_split. Qed.
Print Assumptions C06_cascade_split.

Example C06_example :
  let ab := Rule [1%N] [2%N; 2%N] in let bc := Rule [2%N] [3%N] in
  cascade [ab; bc] [1; 2]%N = [3; 3; 3]%N /\ cascade [bc; ab] [1; 2]%N = [2; 2; 3]%N /\
  match fst_from_cascading (fun _ => 1) [ab; bc] [1; 2; 3]%N with
  | Some f => f [1; 2]%N = [[3; 3; 3]%N]
  | None => False
  end.
Proof. vm_compute. auto. Qed.
