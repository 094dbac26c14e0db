(** What rules for letters within, at the end of, and alone in a word are meant to do. *)
From Verif Require Import Base RuleModel.

(** What a letter becomes *)
Definition becomes (rs : list rule) (c : N) (t : str) : Prop :=
  In (Rule [c] t) rs \/ t = [c] /\ ~ exists u, In (Rule [c] u) rs.
Inductive letterwise (rs : list rule) : str -> str -> Prop :=
| lw_nil : letterwise rs [] []
| lw_cons c t s u : becomes rs c t -> letterwise rs s u -> letterwise rs (c :: s) (t ++ u).
(** All letters but the last *)
Definition all_but_last (rs : list rule) (s t : str) : Prop :=
  s = [] /\ t = [] \/ exists a c u, s = a ++ [c] /\ letterwise rs a u /\ t = u ++ [c].
(** The last letter of a longer word *)
Definition last_only (rs : list rule) (s t : str) : Prop :=
  (length s <= 1)%nat /\ t = s \/ exists a c u, a <> [] /\ s = a ++ [c] /\ becomes rs c u /\ t = a ++ u.
(** Whole words *)
Definition whole_word (rs : list rule) (s t : str) : Prop :=
  In (Rule s t) rs \/ t = s /\ ~ exists u, In (Rule s u) rs.
(** Rules for single letters, one for each *)
Definition single_letters (rs : list rule) : Prop := forall r, In r rs -> exists c, lhs r = [c].
Definition functional (rs : list rule) : Prop := forall l a b, In (Rule l a) rs -> In (Rule l b) rs -> a = b.
