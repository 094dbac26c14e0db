(** C85: which texts visual normalization leaves alone the second time. *)
From Verif Require Import Base RuleModel VisualModel VisualSpec ScriptData ScriptTables ScriptModel
  WellformedModel MarkTables StableSpec StableProofs.

(** Text without joiners in which no rule applies and no mark is doubled is
    left alone. *)
Theorem C85_settled : forall ns d f, In d all_scripts ->
  script_visual_norm ns is_mark d = Some f ->
  forall t, over (script_sigma d) t = true -> joiner_free t -> settled d t -> f t = [t].
Proof. exact settled_fixed. Qed.
Print Assumptions C85_settled.

(** In 13 scripts one application settles every text without joiners. *)
Theorem C85_plain : forall ns d f, In d settling_scripts ->
  script_visual_norm ns is_mark d = Some f ->
  forall s, over (script_sigma d) s = true -> joiner_free s ->
  exists t, f s = [t] /\ f t = [t] /\ settled d t.
Proof. exact plain_stable. Qed.
Print Assumptions C85_plain.

(** In the other seven it does not. *)
Theorem C85_plain_refuted : forall d,
  In d [data_Deva; data_Gujr; data_Knda; data_Newa; data_Orya; data_Taml; data_Telu] ->
  exists s t u, over (script_sigma d) s = true /\ joiner_free s /\ t <> u /\
    forall ns f, script_visual_norm ns is_mark d = Some f -> f s = [t] /\ f t = [u].
Proof. exact plain_unstable. Qed.
Print Assumptions C85_plain_refuted.

(** But a well-formed result is settled in all scripts except Devanagari and
    Tamil. *)
Theorem C85_well_formed_result : forall ns d f, In d careful_scripts ->
  script_visual_norm ns is_mark d = Some f ->
  forall s t, over (script_sigma d) s = true -> joiner_free s -> In t (f s) ->
  well_formed d t = true -> f t = [t] /\ settled d t.
Proof. exact well_formed_result_stable. Qed.
Print Assumptions C85_well_formed_result.

Theorem C85_well_formed_result_refuted : forall d, In d [data_Deva; data_Taml] ->
  exists s t u, over (script_sigma d) s = true /\ joiner_free s /\ well_formed d t = true /\ t <> u /\
    forall ns f, script_visual_norm ns is_mark d = Some f -> f s = [t] /\ f t = [u].
Proof. exact well_formed_unstable. Qed.
Print Assumptions C85_well_formed_result_refuted.

(** In 13 scripts well-formed text without joiners is left alone altogether;
    in the other seven some is changed. *)
Theorem C85_well_formed : forall ns d f, In d settled_scripts ->
  script_visual_norm ns is_mark d = Some f ->
  forall t, over (script_sigma d) t = true -> joiner_free t ->
  well_formed d t = true -> f t = [t] /\ settled d t.
Proof. exact well_formed_fixed. Qed.
Print Assumptions C85_well_formed.

Theorem C85_well_formed_refuted : forall d,
  In d [data_Deva; data_Gujr; data_Guru; data_Mlym; data_Orya; data_Taml; data_Tirh] ->
  exists s t, over (script_sigma d) s = true /\ joiner_free s /\ well_formed d s = true /\ s <> t /\
    forall ns f, script_visual_norm ns is_mark d = Some f -> f s = [t].
Proof. exact well_formed_changed. Qed.
Print Assumptions C85_well_formed_refuted.

(** A joiner between two characters hides them from the rules until it is
    deleted, so in every script some text with a joiner takes two rounds. *)
Theorem C85_joiners_refuted : forall d, In d all_scripts ->
  exists s t u, over (script_sigma d) s = true /\ t <> u /\
    forall ns f, script_visual_norm ns is_mark d = Some f -> f s = [t] /\ f t = [u].
Proof. exact joiners_unstable. Qed.
Print Assumptions C85_joiners_refuted.

(** In six of them with a well-formed result. *)
Theorem C85_joiners_well_formed_refuted : forall d,
  In d [data_Deva; data_Gujr; data_Mlym; data_Orya; data_Taml; data_Tirh] ->
  exists s t u, over (script_sigma d) s = true /\ well_formed d t = true /\ t <> u /\
    forall ns f, script_visual_norm ns is_mark d = Some f -> f s = [t] /\ f t = [u].
Proof. exact deleted_joiner_unstable. Qed.
Print Assumptions C85_joiners_well_formed_refuted.

(** Every shipped script has a visual normalizer to speak of. *)
Theorem C85_all_exist : forall ns d, In d all_scripts ->
  exists f, script_visual_norm ns is_mark d = Some f.
Proof. exact shipped_norm_exists. Qed.
Print Assumptions C85_all_exist.

(** Bengali A + AA becomes AA at once, and AA stays; with ZWS between them it
    takes two rounds.  The scripts of the theorems above are the shipped ones. *)
Example C85_example :
  match script_visual_norm (fun _ => 1) is_mark data_Beng with
  | Some f => f [2437; 2494; 2453]%N = [[2438; 2453]%N] /\ f [2438; 2453]%N = [[2438; 2453]%N] /\
              f [2437; 8203; 2494]%N = [[2437; 2494]%N] /\ f [2437; 2494]%N = [[2438]%N]
  | None => False
  end /\
  (length settling_scripts = 13 /\ length settled_scripts = 13 /\
   length careful_scripts = 18 /\ length all_scripts = 20)%nat /\
  well_formed data_Beng [2438; 2453]%N = true /\ is_mark 2509 = true /\ is_mark 2494 = false.
Proof. vm_compute. repeat split. Qed.
