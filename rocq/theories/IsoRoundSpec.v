(** Scripts whose tables give each romanization one native text.  In Gurmukhi two texts
    have the same romanization; NFC makes them equal. *)
From Verif Require Import Base ScriptData ScriptTables.

Definition one_reading_scripts : list script_data :=
  [data_Beng; data_Bugi; data_Deva; data_Gujr; data_Knda; data_Lepc; data_Limb; data_Mlym; data_Mtei; data_Newa; data_Orya; data_Sinh;
   data_Sylo; data_Takr; data_Taml; data_Telu; data_Tglg; data_Thaa; data_Tirh].
(** SHA as SA and NUKTA, Gurmukhi *)
Definition sha_split (s : str) : str := flat_map (fun c => if N.eqb c 2614 then [2616; 2620]%N else [c]) s.
