(** Expressions that stand for anything and for nothing: one-element wrappers do not matter,
    and an alignment does so only if both of its sides do. *)
From Verif Require Import Base ExpressionModel.

Inductive anything : item -> Prop :=
| an_any : anything IAny
| an_cat x : anything x -> anything (ICat [x])
| an_or x : anything x -> anything (IOr [x])
| an_alg l r : anything l -> anything r -> anything (IAlg l r).
Inductive nothing : item -> Prop :=
| no_sym : nothing (ISym Nor)
| no_atm : nothing (IAtm Nor)
| no_alg l r : nothing l -> nothing r -> nothing (IAlg l r).
