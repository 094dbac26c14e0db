(** The weighted relation of an expression, and best pairs. *)
From Verif Require Import Base RuleModel VisualModel ScriptData IsoModel.

Inductive rel : wt -> str -> str -> N -> Prop :=
| R_pairs : forall l i o, In (i, o) l -> rel (WPairs l) i o 0
| R_eps : forall w, rel (WEps w) [] [] w
| R_cat : forall a b i o w i' o' w', rel a i o w -> rel b i' o' w' -> rel (WCat a b) (i ++ i') (o ++ o') (w + w')
| R_alt1 : forall a b i o w, rel a i o w -> rel (WAlt a b) i o w
| R_alt2 : forall a b i o w, rel b i o w -> rel (WAlt a b) i o w
| R_stop : forall a, rel (WStar a) [] [] 0
| R_more : forall a i o w i' o' w', rel a i o w -> rel (WStar a) i' o' w' -> rel (WStar a) (i ++ i') (o ++ o') (w + w').
(** [o] is an output of least cost for [i] *)
Definition best (r : wt) (i o : str) (w : N) : Prop := rel r i o w /\ forall o' w', rel r i o' w' -> (w <= w')%N.
