(** ISO 15919 romanization, piece by piece: what a reader is told about the scripts, in terms
    of the rows of the script tables only. *)
From Verif Require Import Base VisualModel ScriptData.

(** A letter and its romanization: a row with one column stands for itself *)
Definition row (f : string_file) (i o : str) : Prop := In (i, Some o) f \/ In (i, None) f /\ o = i.
(** A consonant, possibly with a subjoined consonant *)
Inductive consonant_piece (d : script_data) : str -> str -> Prop :=
| cp_one i o : row (sd_consonant d) i o -> consonant_piece d i o
| cp_two i o i' o' : row (sd_consonant d) i o -> row (sd_subjoined_consonant d) i' o' -> consonant_piece d (i ++ i') (o ++ o').
(** What becomes of the inherent vowel: replaced by a vowel sign, kept and written out, or killed *)
Inductive nucleus (d : script_data) : str -> str -> N -> Prop :=
| nu_sign i o : row (sd_vowel_sign d) i o -> nucleus d i o 0
| nu_inherent v c : In (v, c) (sd_inherent_vowel d) -> nucleus d [] v 1
| nu_virama v c : In (v, c) (sd_virama d) -> nucleus d v [] 1.
(** Independent vowels that follow something; each is separated by a dot *)
Inductive hiatus (d : script_data) : nat -> str -> str -> Prop :=
| hi_none : hiatus d 0 [] []
| hi_more n i o i' o' : row (sd_vowel d) i o -> hiatus d n i' o' -> hiatus d (S n) (i ++ i') ((46%N :: o) ++ o').
(** A piece of native text, its romanization and its cost *)
Inductive piece (d : script_data) : str -> str -> N -> Prop :=
| pc_syllable i o i' o' w n h h' : consonant_piece d i o -> nucleus d i' o' w -> hiatus d n h h' ->
    piece d (i ++ i' ++ h) (o ++ o' ++ h') (match n with O => w | _ => 0 end)
| pc_vowel i o n h h' : row (sd_vowel d) i o -> hiatus d n h h' -> piece d (i ++ h) (o ++ h') 1
| pc_coda i o : row (sd_coda d) i o -> piece d i o 1
| pc_dead i o : row (sd_dead_consonant d) i o -> piece d i o 0
| pc_length i o : row (sd_vowel_length_sign d) i o -> piece d i o 0
| pc_standalone i o : row (sd_standalone d) i o -> piece d i o 1
| pc_dangling_sign i o n h h' : row (sd_vowel_sign d) i o -> hiatus d n h h' -> piece d (i ++ h) (45%N :: o ++ h') 1
| pc_dangling_virama v c : In (v, c) (sd_virama d) -> piece d v [728%N] 2
| pc_non_joiner : piece d [8204%N] [124%N] 0
| pc_joiner : piece d [8205%N] [43%N] 0.
(** A text cut into pieces *)
Inductive in_pieces (d : script_data) : str -> str -> N -> Prop :=
| ip_end : in_pieces d [] [] 0
| ip_more i o w i' o' w' : piece d i o w -> in_pieces d i' o' w' -> in_pieces d (i ++ i') (o ++ o') (w + w').
