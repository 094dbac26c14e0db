(** What rule partitioning and rewriting are meant to do, stated without the
    functions of RuleModel (only the type of rules is used). *)
From Verif Require Import Base RuleModel.

(** ** Ordering of rules *)

(** No left-hand side of a layer contains another one of that layer. *)
Definition antichain (l : list rule) : Prop :=
  forall a b, In a l -> In b l -> a <> b -> ~ is_infix (lhs a) (lhs b).

(** [before ls b a]: [b] is in a strictly earlier layer than [a]. *)
Definition strictly_before (ls : list (list rule)) (b a : rule) : Prop :=
  exists pre mid post lb la,
    ls = pre ++ lb :: mid ++ la :: post /\ In b lb /\ In a la.

(** ** Conditions on rule lists *)

Definition nonempty_lhs (rs : list rule) : Prop := forall r, In r rs -> lhs r <> [].

Definition prefix_free (rs : list rule) : Prop :=
  NoDup rs /\ forall a b, In a rs -> In b rs -> a <> b -> ~ is_prefix (lhs a) (lhs b).

(** ** Specification: cutting the input into copied characters and spans *)

Inductive seg := Copy (c : N) | Sub (r : rule).
Definition seg_in (g : seg) : str := match g with Copy c => [c] | Sub r => lhs r end.
Definition seg_out (g : seg) : str := match g with Copy c => [c] | Sub r => rhs r end.
Definition ins (gs : list seg) : str := flat_map seg_in gs.
Definition outs (gs : list seg) : str := flat_map seg_out gs.

(** One left-to-right pass with contexts: a character is copied only if no
    rule applies where it stands. *)
Inductive ctx_cut (rs : list rule) (lc rc : str -> bool) : str -> str -> list seg -> Prop :=
| cc_nil o : ctx_cut rs lc rc o [] []
| cc_copy o c s gs :
    lc o = false \/ (forall r t, In r rs -> c :: s = lhs r ++ t -> rc t = false) ->
    ctx_cut rs lc rc (c :: o) s gs ->
    ctx_cut rs lc rc o (c :: s) (Copy c :: gs)
| cc_sub o r s gs :
    In r rs -> lc o = true -> rc s = true ->
    ctx_cut rs lc rc (rev (rhs r) ++ o) s gs ->
    ctx_cut rs lc rc o (lhs r ++ s) (Sub r :: gs).

(** The same without contexts. *)
Inductive leftmost_cut (rs : list rule) : str -> list seg -> Prop :=
| lm_nil : leftmost_cut rs [] []
| lm_copy c s gs :
    (forall r, In r rs -> ~ is_prefix (lhs r) (c :: s)) ->
    leftmost_cut rs s gs -> leftmost_cut rs (c :: s) (Copy c :: gs)
| lm_sub r s gs :
    In r rs -> leftmost_cut rs s gs -> leftmost_cut rs (lhs r ++ s) (Sub r :: gs).

(** One pass per layer, in order. *)
Fixpoint passes (layers : list (list rule)) (s t : str) : Prop :=
  match layers with
  | [] => t = s
  | rs :: rest => exists gs, leftmost_cut rs s gs /\ passes rest (outs gs) t
  end.

(** ** Composition and cascades *)

(** The relation obtained by going through a list of relations in order. *)
Fixpoint chain {F X : Type} (den : F -> X -> X -> Prop) (l : list F) (x z : X) : Prop :=
  match l with
  | [] => z = x
  | f :: l' => exists y, den f x y /\ chain den l' y z
  end.

(** Python's [s.replace(l, r)] for non-empty [l]: scan from the left, replace
    each occurrence found and go on after it. *)
Fixpoint replace_from (l r : str) (skip : nat) (s : str) : str :=
  match s with
  | [] => []
  | c :: s' =>
    match skip with
    | S k => replace_from l r k s'
    | O => if prefixb l s then r ++ replace_from l r (length l - 1) s'
           else c :: replace_from l r 0 s'
    end
  end.
Definition replace_all (l r s : str) : str := replace_from l r 0 s.

(** One whole-text replacement after the other. *)
Definition cascade (rs : list rule) (s : str) : str :=
  fold_left (fun u r => replace_all (lhs r) (rhs r) u) rs s.

(** [u] and [v] never share a position: wherever both occur in one text, one
    of the occurrences ends before the other begins. *)
Definition never_share (u v : str) : Prop :=
  forall x y a b, x ++ u ++ y = a ++ v ++ b ->
    length x + length u <= length a \/ length a + length v <= length x.
