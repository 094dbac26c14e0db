(** Texts, rules and tables that have a UTF-8 encoding without the byte 0. *)
From Verif Require Import Base RuleModel ScriptData RegexModel WellformedModel Utf8Spec.

(** [t] is the UTF-8 encoding of [s]. *)
Definition utf8 (s t : str) : Prop := exists ps, spells s ps t.

Definition plain (s : str) : Prop := Forall (fun c => scalar c /\ c <> 0%N) s.

Definition plain_rules (rs : list rule) : Prop :=
  forall r, In r rs -> plain (lhs r) /\ plain (rhs r) /\ lhs r <> [].

Definition plain_sigma (sigma : list N) : Prop := Forall (fun c => scalar c /\ c <> 0%N) sigma.

(** All strings of an expression. *)
Fixpoint re_plain (r : re) : Prop :=
  match r with
  | Strs l => Forall plain l
  | Cat a b | Alt a b => re_plain a /\ re_plain b
  | Ques a | Star a => re_plain a
  end.
