(** The ISO romanization grammar. *)
From Verif Require Import Base RuleModel VisualModel ScriptData ScriptTables IsoModel IsoSpec IsoProofs IsoPieceSpec IsoPieces.
Local Open Scope N_scope.

(** ** C38 *)
(** Romanizing piece by piece is a romanization of the whole text, for any tables. *)
Theorem C38_piecewise : forall d i o w i' o' w', rel (iso_wt d) i o w -> rel (iso_wt d) i' o' w' -> rel (iso_wt d) (i ++ i') (o ++ o') (w + w').
Proof. exact iso_piecewise. Qed.
Print Assumptions C38_piecewise.
(** A romanization is one of a sequence of syllables, vowels and signs, and nothing else. *)
Theorem C38_units : forall d i o w, rel (iso_wt d) i o w <-> in_pieces d i o w.
Proof. exact iso_pieces. Qed.
Print Assumptions C38_units.
Example C38_units_example : rel (iso_wt data_Deva) [2325] [107; 97] 1 /\ rel (iso_wt data_Deva) [2325; 2311] [107; 97; 46; 105] 0 /\ rel (iso_wt data_Deva) [2325; 2381] [107] 1 /\
  rel (iso_wt data_Deva) [2367] [45; 105] 1 /\ ~ rel (iso_wt data_Deva) [2325] [107] 0.
Proof. exact units_example. Qed.
Theorem C38_empty : forall d, outs (iso_wt d) [] = [([], 0%N)] /\ outs (w_invert (iso_wt d)) [] = [([], 0%N)] /\ rel (iso_wt d) [] [] 0.
Proof. exact iso_empty. Qed.
Print Assumptions C38_empty.
(** The other direction has exactly the same pairs and costs. *)
Theorem C38_inverse : forall d i o w, rel (w_invert (iso_wt d)) o i w <-> rel (iso_wt d) i o w.
Proof. exact iso_inverse. Qed.
Print Assumptions C38_inverse.
(** The same for the outputs that are computed, when no closure repeats the empty string. *)
Theorem C38_inverse_outs : forall d i o w, star_ok (iso_wt d) = true -> star_ok (w_invert (iso_wt d)) = true ->
  (In (o, w) (outs (iso_wt d) i) <-> In (i, w) (outs (w_invert (iso_wt d)) o)).
Proof. exact iso_inverse_outs. Qed.
Print Assumptions C38_inverse_outs.
Theorem C38_computed : forall r s o w, star_ok r = true -> (In (o, w) (outs r s) <-> rel r s o w).
Proof. exact outs_rel. Qed.
Print Assumptions C38_computed.
Theorem C38_best : forall r s o, star_ok r = true -> (In o (best_outs r s) <-> exists w, best r s o w).
Proof. exact best_outs_best. Qed.
Print Assumptions C38_best.
Theorem C38_cost : forall d i i' w w', star_ok (iso_wt d) = true -> best_cost (iso_wt d) i = Some w -> best_cost (iso_wt d) i' = Some w' ->
  exists m, best_cost (iso_wt d) (i ++ i') = Some m /\ (m <= w + w')%N.
Proof. exact iso_cost. Qed.
Print Assumptions C38_cost.
Theorem C38_cost_back : forall d o o' w w', star_ok (w_invert (iso_wt d)) = true -> best_cost (w_invert (iso_wt d)) o = Some w -> best_cost (w_invert (iso_wt d)) o' = Some w' ->
  exists m, best_cost (w_invert (iso_wt d)) (o ++ o') = Some m /\ (m <= w + w')%N.
Proof. exact iso_cost_back. Qed.
Print Assumptions C38_cost_back.
(** The tables that nisaba ships meet the condition in both directions. *)
Theorem C38_shipped : forall d, In d all_scripts -> star_ok (iso_wt d) = true /\ star_ok (w_invert (iso_wt d)) = true.
Proof. exact shipped_star_ok. Qed.
Print Assumptions C38_shipped.
(** brahmic/testdata/iso.textproto: the end of a Bengali word and its romanization, both ways *)
Example C38_example_beng :
  nodup (list_eq_dec N.eq_dec) (best_outs (iso_wt data_Beng) [2489; 2509; 2478; 2496; 2453; 2503]) = [[104; 109; 299; 107; 275]] /\
  nodup (list_eq_dec N.eq_dec) (best_outs (w_invert (iso_wt data_Beng)) [104; 109; 299; 107; 275]) = [[2489; 2509; 2478; 2496; 2453; 2503]] /\
  best_cost (iso_wt data_Beng) [2489; 2509; 2478; 2496; 2453; 2503] = Some 1%N.
Proof. vm_compute. repeat split. Qed.
(** The cost of a whole can be less than that of its parts: a consonant and a vowel sign *)
Example C38_example_cost :
  best_cost (iso_wt data_Deva) [2325] = Some 1%N /\ best_cost (iso_wt data_Deva) [2366] = Some 1%N /\ best_cost (iso_wt data_Deva) [2325; 2366] = Some 0%N /\
  nodup (list_eq_dec N.eq_dec) (best_outs (iso_wt data_Deva) [2325]) = [[107; 97]] /\ nodup (list_eq_dec N.eq_dec) (best_outs (iso_wt data_Deva) [2366]) = [[45; 257]] /\ nodup (list_eq_dec N.eq_dec) (best_outs (iso_wt data_Deva) [2325; 2366]) = [[107; 257]].
Proof. vm_compute. repeat split. Qed.
