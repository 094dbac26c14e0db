(** English words spelled out letter by letter: the names of the letters are read off the
    table, put one after the other, with a space between them in the Arabic script and
    without the joiner of the last one. *)
From Coq Require Import String.
From Verif Require Import Base SpelloutTables SpelloutModel.
Local Open Scope string_scope.
Local Open Scope list_scope.

(** The letters of English, in either case *)
Definition letters (w : str) : Prop := Forall (fun c => (97 <= c <= 122 \/ 65 <= c <= 90)%N) w.
Definition lower (c : N) : N := if (c <=? 90)%N then (c + 32)%N else c.

Definition column (l : language) (s : script) : string :=
  match l, s with
  | BN, BENG => "bn_beng" | GU, GUJR => "gu_gujr" | HI, DEVA => "hi_deva" | KN, KNDA => "kn_knda"
  | ML, MLYM => "ml_mlym" | MR, DEVA => "mr_deva" | OR, ORYA => "or_orya" | PA, GURU => "pa_guru"
  | SD, ARAB => "sd_arab" | SI, SINH => "si_sinh" | TA, TAML => "ta_taml" | TE, TELU => "te_telu"
  | UR, ARAB => "ur_arab" | _, _ => ""
  end.
(** The name of the letter [c]: a language and a script that do not go together have no names,
    the letter stands for itself. *)
Definition name (l : language) (s : script) (c : N) : str :=
  match find (fun r => N.eqb (fst r) (lower c)) spellouts with
  | None => []
  | Some r =>
    match find (fun k => String.eqb (fst k) (column l s)) (snd r) with
    | Some k => snd k
    | None => [lower c]
    end
  end.

Definition between (s : script) : str := match s with ARAB => [32%N] | _ => [] end.
(** without a zero width non-joiner at the end *)
Fixpoint bare (x : str) : str :=
  match x with
  | [] => []
  | [c] => if N.eqb c 8204 then [] else [c]
  | c :: r => c :: bare r
  end.
Fixpoint written (l : language) (s : script) (w : str) : str :=
  match w with
  | [] => []
  | [c] => bare (name l s c)
  | c :: r => name l s c ++ between s ++ written l s r
  end.

(** Letters whose names are the same *)
Definition same_names (l : language) (s : script) : list (string * string) :=
  match l, s with
  | SD, ARAB => [("a", "e"); ("g", "j")]
  | TA, TAML => [("b", "p"); ("d", "t")]
  | _, _ => []
  end.
Definition letter_code (x : string) : N := match list_ascii_of_string x with a :: _ => Ascii.N_of_ascii a | [] => 0%N end.
Definition alike (l : language) (s : script) (c d : N) : Prop :=
  lower c = lower d \/
  exists p, In p (same_names l s) /\
    ((lower c = letter_code (fst p) /\ lower d = letter_code (snd p)) \/ (lower d = letter_code (fst p) /\ lower c = letter_code (snd p))).

(** The Unicode blocks of the scripts *)
Definition block (s : script) (c : N) : Prop :=
  match s with
  | DEVA => 0x0900 <= c <= 0x097F | BENG => 0x0980 <= c <= 0x09FF | GURU => 0x0A00 <= c <= 0x0A7F
  | GUJR => 0x0A80 <= c <= 0x0AFF | ORYA => 0x0B00 <= c <= 0x0B7F | TAML => 0x0B80 <= c <= 0x0BFF
  | TELU => 0x0C00 <= c <= 0x0C7F | KNDA => 0x0C80 <= c <= 0x0CFF | MLYM => 0x0D00 <= c <= 0x0D7F
  | SINH => 0x0D80 <= c <= 0x0DFF | ARAB => 0x0600 <= c <= 0x06FF
  end%N.
