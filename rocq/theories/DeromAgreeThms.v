(** C69: the deromanizers agree with the romanization grammars. *)
From Coq Require Import String.
From Verif Require Import Base ScriptData ScriptTables IsoModel IsoFullModel Utf8Spec NatModel DeromModel DeromChain.
Local Open Scope list_scope.

(** The ISO 15919 text of a word is the romanization of its native text, and the native text
    is the reading of its ISO 15919 text; [x] and [y] are the code points of the texts *)
Theorem C69_hindi : forall ns w b i, In b (HI_DEVA w) -> In i (HI_ISO w) ->
  exists x y r r', (exists ps, spells x ps b) /\ (exists ps, spells y ps i) /\
  from_script ns data_Deva x = Some r /\ (forall z, In z (best_among r) <-> z = y) /\
  to_script ns data_Deva y = Some r' /\ forall z, In z (best_among r') <-> z = x.
Proof. exact hi_agree. Qed.
Print Assumptions C69_hindi.

Example C69_hindi_example : HI_DEVA (bytes "maie") = [bytes "मैए"] /\ HI_ISO (bytes "maie") = [bytes "mai.ē"] /\
  nodup (list_eq_dec N.eq_dec) (best_outs (iso_wt data_Deva) [2350; 2376; 2319]%N) = [[109; 97; 105; 46; 275]]%N.
Proof. vm_compute. repeat split. Qed.

Theorem C69_tamil : forall ns w b i, In b (TA_TAML w) -> In i (TA_ISO w) ->
  exists x y r r', (exists ps, spells x ps b) /\ (exists ps, spells y ps i) /\
  from_script ns data_Taml x = Some r /\ (forall z, In z (best_among r) <-> z = y) /\
  to_script ns data_Taml y = Some r' /\ forall z, In z (best_among r') <-> z = x.
Proof. exact ta_agree. Qed.
Print Assumptions C69_tamil.

Example C69_tamil_example : TA_TAML (bytes "fiz") = [bytes "ஃபிஃஜ்"] /\ TA_ISO (bytes "fiz") = [bytes "fiz"] /\
  nodup (list_eq_dec N.eq_dec) (best_outs (iso_wt data_Taml) [2947; 2986; 3007; 2947; 2972; 3021]%N) = [[102; 105; 122]]%N.
Proof. vm_compute. repeat split. Qed.
