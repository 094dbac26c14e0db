(** The shipped ISO romanizations can be read back. *)
From Verif Require Import Base RuleModel VisualModel ScriptData ScriptTables ScriptModel IsoModel IsoSpec IsoFullModel IsoRoundSpec IsoRound IsoFull.
Local Open Scope N_scope.

(** ** C55 *)
(** A native text has at most one romanization of least cost, in each of the 20 scripts. *)
Theorem C55_one_romanization : forall d, In d all_scripts -> forall x o o', In o (best_outs (iso_wt d) x) -> In o' (best_outs (iso_wt d) x) -> o = o'.
Proof. exact one_romanization. Qed.
Print Assumptions C55_one_romanization.
(** A Latin text has at most one native text of least cost, in every script but Gurmukhi. *)
Theorem C55_one_reading : forall d, In d one_reading_scripts -> forall y z z', In z (best_outs (w_invert (iso_wt d)) y) -> In z' (best_outs (w_invert (iso_wt d)) y) -> z = z'.
Proof. exact one_reading. Qed.
Print Assumptions C55_one_reading.
(** Reading a romanization back gives the native text it was made from, and nothing else. *)
Theorem C55_round_trip : forall d, In d one_reading_scripts -> forall x y z, In y (best_outs (iso_wt d) x) -> (In z (best_outs (w_invert (iso_wt d)) y) <-> z = x).
Proof. exact round_trip. Qed.
Print Assumptions C55_round_trip.
(** Different texts have different romanizations. *)
Theorem C55_no_clash : forall d, In d one_reading_scripts -> forall x x' y, In y (best_outs (iso_wt d) x) -> In y (best_outs (iso_wt d) x') -> x = x'.
Proof. exact no_clash. Qed.
Print Assumptions C55_no_clash.
(** Gurmukhi: readings differ only in the spelling of SHA. *)
Theorem C55_guru_one_reading : forall y z z', In z (best_outs (w_invert (iso_wt data_Guru)) y) -> In z' (best_outs (w_invert (iso_wt data_Guru)) y) -> sha_split z = sha_split z'.
Proof. exact guru_one_reading. Qed.
Print Assumptions C55_guru_one_reading.
Theorem C55_guru_round_trip : forall x y, sha_split x = x -> In y (best_outs (iso_wt data_Guru) x) ->
  In x (best_outs (w_invert (iso_wt data_Guru)) y) /\ forall z, In z (best_outs (w_invert (iso_wt data_Guru)) y) -> sha_split z = x.
Proof. exact guru_round_trip. Qed.
Print Assumptions C55_guru_round_trip.
(** The exported FROM and TO of all 20 scripts: back after forth is the NFC form of the text, and nothing else. *)
Theorem C55_exported_round_trip : forall ns d, In d all_scripts -> forall x l y, over (script_sigma d) x = true -> from_script ns d x = Some l -> In y (best_among l) ->
  exists nfc t l', script_nfc ns d = Some nfc /\ nfc x = [t] /\ to_script ns d y = Some l' /\ forall z, In z (best_among l') <-> z = t.
Proof. exact full_round_trip. Qed.
Print Assumptions C55_exported_round_trip.
(** Texts with one romanization have one NFC form. *)
Theorem C55_exported_no_clash : forall ns d, In d all_scripts -> forall x x' l l' y, over (script_sigma d) x = true -> over (script_sigma d) x' = true ->
  from_script ns d x = Some l -> from_script ns d x' = Some l' -> In y (best_among l) -> In y (best_among l') ->
  exists nfc, script_nfc ns d = Some nfc /\ nfc x = nfc x'.
Proof. exact full_no_clash. Qed.
Print Assumptions C55_exported_no_clash.
(** Without NFC this fails in Gurmukhi, as the TODO in iso.py says: SHA and SA with NUKTA. *)
Theorem C55_guru_refuted : exists y z z', In z (best_outs (w_invert (iso_wt data_Guru)) y) /\ In z' (best_outs (w_invert (iso_wt data_Guru)) y) /\ z <> z'.
Proof. exact guru_two_readings. Qed.
Print Assumptions C55_guru_refuted.
(** The other way round fails: a text read from Latin may have a better romanization. *)
Theorem C55_forth_after_back_refuted : exists y z, In z (best_outs (w_invert (iso_wt data_Deva)) y) /\ best_outs (iso_wt data_Deva) z <> [] /\ ~ In y (best_outs (iso_wt data_Deva) z).
Proof. exact deva_not_back. Qed.
Print Assumptions C55_forth_after_back_refuted.
(** brahmic/testdata/iso.textproto: a Devanagari word, both ways *)
Example C55_example_deva :
  In [98; 114; 257; 104; 109; 105; 107; 97] (best_outs (iso_wt data_Deva) [2348; 2381; 2352; 2366; 2361; 2381; 2350; 2367; 2325]) /\
  In [2348; 2381; 2352; 2366; 2361; 2381; 2350; 2367; 2325] (best_outs (w_invert (iso_wt data_Deva)) [98; 114; 257; 104; 109; 105; 107; 97]).
Proof. vm_compute. split; tauto. Qed.
(** SHA of Gurmukhi comes back as SA with NUKTA *)
Example C55_example_guru :
  match from_script (fun _ => 0%nat) data_Guru [2614], to_script (fun _ => 0%nat) data_Guru [347; 97] with
  | Some l, Some l' => nodup (list_eq_dec N.eq_dec) (best_among l) = [[347; 97]] /\ nodup (list_eq_dec N.eq_dec) (best_among l') = [[2616; 2620]]
  | _, _ => False
  end.
Proof. vm_compute. split; reflexivity. Qed.
