(** Stability of visual normalization: what it means for a text to be settled. *)
From Verif Require Import Base RuleModel VisualModel VisualSpec ScriptData ScriptTables MarkTables.

(** The text has no ZWNJ, ZWJ or ZWS. *)
Definition joiner_free (s : str) : Prop := forall c, In c s -> ~ In c joiners.

(** No rule of the script applies anywhere and no mark is doubled. *)
Definition settled (d : script_data) (t : str) : Prop :=
  (forall r, In r (sd_nfc d) -> ~ is_infix (lhs r) t) /\
  (forall r, In r (sd_visual_rewrite d) -> ~ is_infix (lhs r) t) /\
  (forall c, In c (script_chars d) -> is_mark c = true -> ~ is_infix [c; c] t).

(** The scripts whose visual normalization settles every text without joiners. *)
Definition settling_scripts : list script_data :=
  [data_Beng; data_Bugi; data_Guru; data_Lepc; data_Limb; data_Mlym; data_Mtei;
   data_Sinh; data_Sylo; data_Takr; data_Tglg; data_Thaa; data_Tirh].

(** Those in which well-formed text without joiners is settled. *)
Definition settled_scripts : list script_data :=
  [data_Beng; data_Bugi; data_Knda; data_Lepc; data_Limb; data_Mtei; data_Newa; data_Sinh;
   data_Sylo; data_Takr; data_Telu; data_Tglg; data_Thaa].

(** Those in which a well-formed result is stable. *)
Definition careful_scripts : list script_data :=
  [data_Beng; data_Bugi; data_Gujr; data_Guru; data_Knda; data_Lepc; data_Limb; data_Mlym;
   data_Mtei; data_Newa; data_Orya; data_Sinh; data_Sylo; data_Takr; data_Telu; data_Tglg;
   data_Thaa; data_Tirh].
