(** C86: normalization keeps text well-formed. *)
From Verif Require Import Base RuleModel VisualModel ScriptData ScriptTables ScriptModel
  WellformedModel MarkTables StableSpec KeepSpec KeepProofs.

(** NFC *)
Theorem C86_nfc : forall ns d f, In d faithful_scripts -> script_nfc ns d = Some f ->
  forall s t, over (script_sigma d) s = true -> well_formed d s = true -> In t (f s) ->
  well_formed d t = true.
Proof. exact nfc_keeps. Qed.
Print Assumptions C86_nfc.

(** Reading normalization *)
Theorem C86_reading : forall ns d f, In d faithful_scripts -> script_reading_norm ns d = Some f ->
  forall s t, over (script_sigma d) s = true -> well_formed d s = true -> In t (f s) ->
  well_formed d t = true.
Proof. exact reading_keeps. Qed.
Print Assumptions C86_reading.

(** Visual normalization *)
Theorem C86_visual : forall ns d f, In d faithful_scripts ->
  script_visual_norm ns is_mark d = Some f ->
  forall s t, over (script_sigma d) s = true -> well_formed d s = true -> In t (f s) ->
  well_formed d t = true.
Proof. exact visual_norm_keeps. Qed.
Print Assumptions C86_visual.

(** Not in Malayalam. *)
Theorem C86_nfc_refuted : exists s t, over (script_sigma data_Mlym) s = true /\ joiner_free s /\
  well_formed data_Mlym s = true /\ well_formed data_Mlym t = false /\
  (forall ns f, script_nfc ns data_Mlym = Some f -> f s = [t]) /\
  (forall ns f, script_visual_norm ns is_mark data_Mlym = Some f -> f s = [t]).
Proof. exact mlym_nfc. Qed.
Print Assumptions C86_nfc_refuted.

Theorem C86_reading_refuted : exists s t, over (script_sigma data_Mlym) s = true /\ joiner_free s /\
  well_formed data_Mlym s = true /\ well_formed data_Mlym t = false /\
  forall ns f, script_reading_norm ns data_Mlym = Some f -> f s = [t].
Proof. exact mlym_reading. Qed.
Print Assumptions C86_reading_refuted.

(** In Devanagari, RA VIRAMA I becomes II, also after KA VIRAMA; NA NUKTA I,
    which is not well-formed, becomes NNNA I, which is.  A joiner goes (KA VIRAMA
    ZWNJ RA VIRAMA I) or stays (KA VIRAMA ZWNJ KA). *)
Example C86_example :
  match script_visual_norm (fun _ => 1) is_mark data_Deva with
  | Some f => f [2352; 2381; 2311]%N = [[2312]%N] /\
              f [2325; 2381; 2352; 2381; 2311]%N = [[2325; 2381; 2312]%N] /\
              f [2344; 2364; 2367]%N = [[2345; 2367]%N] /\
              f [2325; 2381; 8204; 2352; 2381; 2311]%N = [[2325; 2381; 2312]%N] /\
              f [2325; 2381; 8204; 2325]%N = [[2325; 2381; 8204; 2325]%N]
  | None => False
  end /\
  map (well_formed data_Deva)
    [[2352; 2381; 2311]; [2312]; [2325; 2381; 2352; 2381; 2311]; [2325; 2381; 2312];
     [2344; 2364; 2367]; [2345; 2367]; [2312; 2381]; [2325; 2381; 8204; 2352; 2381; 2311];
     [2325; 2381; 8204; 2325]; [2325; 2381; 8204; 2312]]%N
  = [true; true; true; true; false; true; false; true; true; false] /\
  length faithful_scripts = 19%nat.
Proof. vm_compute. repeat split. Qed.
