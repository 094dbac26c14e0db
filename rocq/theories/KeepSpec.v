(** Scripts whose normalizers keep text well-formed. *)
From Verif Require Import Base ScriptData ScriptTables.

(** All shipped scripts but Malayalam *)
Definition faithful_scripts : list script_data :=
  [data_Beng; data_Bugi; data_Deva; data_Gujr; data_Guru; data_Knda; data_Lepc; data_Limb;
   data_Mtei; data_Newa; data_Orya; data_Sinh; data_Sylo; data_Takr; data_Taml; data_Telu;
   data_Tglg; data_Thaa; data_Tirh].
