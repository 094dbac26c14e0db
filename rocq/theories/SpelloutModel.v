(** Spelling out English letters in South Asian languages,
    nisaba/scripts/natural_translit/brahmic/en_spellout.py. *)
From Coq Require Import String.
From Verif Require Import Base RuleModel IsoModel ByteModel SpelloutTables.
Local Open Scope string_scope.
Local Open Scope list_scope.

(** en_spellout.py:27-42 Language and 46-59 Script with their values *)
Inductive language := BN | GU | HI | KN | ML | MR | OR | PA | SD | SI | TA | TE | UR.
Inductive script := BENG | DEVA | GUJR | GURU | ORYA | SINH | KNDA | MLYM | TAML | TELU | ARAB.
Definition language_value (l : language) : string :=
  match l with
  | BN => "bn" | GU => "gu" | HI => "hi" | KN => "kn" | ML => "ml" | MR => "mr" | OR => "or"
  | PA => "pa" | SD => "sd" | SI => "si" | TA => "ta" | TE => "te" | UR => "ur"
  end.
Definition script_value (s : script) : string :=
  match s with
  | BENG => "beng" | DEVA => "deva" | GUJR => "gujr" | GURU => "guru" | ORYA => "orya" | SINH => "sinh"
  | KNDA => "knda" | MLYM => "mlym" | TAML => "taml" | TELU => "telu" | ARAB => "arab"
  end.

(** en_spellout.py:98-100 Separator *)
Definition SPACE : N := 32.
Definition ZWNJ : N := 8204.

(** deromanization/en_spellout.py:40-41 default_token_type: a string is compiled into its code points or into its UTF-8 bytes. *)
Inductive token_type := Utf8 | Byte.
Definition compile (t : token_type) (s : str) : str := match t with Utf8 => s | Byte => bytes s end.

(** getattr(letter, name, default) *)
Fixpoint getattr (l : list (string * str)) (name : string) (default : str) : str :=
  match l with
  | [] => default
  | (k, v) :: r => if String.eqb k name then v else getattr r name default
  end.
(** en_spellout.py:531-537 _get_spellout *)
Definition get_spellout (letter : N * list (string * str)) (l : language) (s : script) : str :=
  let spellout := getattr (snd letter) (language_value l ++ "_" ++ script_value s)%string [fst letter] in
  match s with ARAB => spellout ++ [SPACE] | _ => spellout end.

(** str.upper of a letter a-z *)
Definition upper (c : N) : N := (c - 32)%N.

(** [EOS] as right context *)
Definition at_end (s : str) : bool := match s with [] => true | _ => false end.

(** en_spellout.py:540-553 _separated: deletes a separator at the end of the word.  The sigma of cdrewrite is the closure of the characters; each has its labels. *)
Definition separated (t : token_type) (f : fst_t) (spellouts : list (N * str)) (separator : N) : fst_t :=
  let sigma := nodup N.eq_dec (flat_map snd spellouts) in
  let sigma_star x := map fst (outs (WStar (WPairs (map (fun c => (compile t [c], compile t [c])) sigma))) x) in
  compose f (compose sigma_star (scan [Rule (compile t [separator]) []] always at_end [] 0)).

(** en_spellout.py:556-573 speller; optimize() keeps the relation. *)
Definition speller (t : token_type) (l : language) (s : script) : fst_t :=
  let spellouts := map (fun letter => (fst letter, get_spellout letter l s)) spellouts in
  let f x := map fst (outs (WStar (WPairs (flat_map (fun r =>
    [(compile t [fst r], compile t (snd r)); (compile t [upper (fst r)], compile t (snd r))]) spellouts))) x) in
  match s with
  | ARAB => separated t f spellouts SPACE
  | KNDA | MLYM | TELU => separated t f spellouts ZWNJ
  | _ => f
  end.

(** deromanization/en_spellout.py:20-34 _LANG_SCRIPTS *)
Definition lang_scripts : list (language * script) :=
  [(BN, BENG); (GU, GUJR); (HI, DEVA); (KN, KNDA); (ML, MLYM); (MR, DEVA); (OR, ORYA); (PA, GURU); (SD, ARAB); (SI, SINH); (TA, TAML); (TE, TELU); (UR, ARAB)].
