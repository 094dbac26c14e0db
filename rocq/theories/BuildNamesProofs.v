(** The names in the shipped archives. *)
From Coq Require Import String.
From Verif Require Import Base GrammarModel GrammarSpec FarModel FarSpec BuildModel BuildSpec.
Local Open Scope list_scope.

Lemma shipped_names : forall fst_of : str * str -> wfst,
  option_map (map fst) (aggregated brahmic_export fst_of visual_script_langs) =
    Some (map letters_of ["AS"; "BENG"; "BN"; "BUGI"; "DEVA"; "GUJR"; "GURU"; "KNDA"; "LEPC"; "LIMB"; "MLYM"; "MTEI"; "NEWA"; "ORYA"; "SINH";
      "SYLO"; "TAKR"; "TAML"; "TELU"; "TGLG"; "THAA"; "TIRH"]%string) /\
  option_map (map fst) (aggregated brahmic_export fst_of READING_NORM_LANGS) = Some (map letters_of ["BENG"; "HI"; "LEPC"; "MLYM"]%string) /\
  option_map (map fst) (aggregated abjad_export fst_of NORM_SCRIPT_LANGS) =
    Some (map letters_of ["AR"; "AZB"; "BAL"; "CKB"; "FA"; "KS"; "MS"; "PA"; "PRS"; "PS"; "SD"; "UG"; "UR"; "UZ"]%string).
Proof. intro fst_of. repeat split; vm_compute; reflexivity. Qed.
