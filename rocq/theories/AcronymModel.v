(** Spelled-out acronyms in Hindi natural transliteration,
    nisaba/scripts/natural_translit/brahmic/acronym.py. *)
From Coq Require Import String.
From Verif Require Import Base RuleModel RegexModel IsoModel AlignModel AlignSpec NatModel.
Local Open Scope string_scope.
Local Open Scope list_scope.

(** A union of graphemes, by the typ of their characters *)
Definition union (l : list string) : tre := TWords (map grs l).
Definition gr1 (t : string) : tre := union [t].
(** nisaba/scripts/natural_translit/brahmic/acronym.py:28-33 _letter *)
Definition letter (graphemes : list tre) : tre :=
  fold_left (fun spelling g => TCat spelling (TCat g (TCat (TWords [[Eq]]) TRights))) graphemes (TWords [[]]).
(** nisaba/scripts/natural_translit/brahmic/acronym.py:37-48 *)
Definition A_SGN := union ["a"; "aa"]. Definition A_IND := union ["a_i"; "aa_i"]. Definition E_SGN := union ["e"; "ee"]. Definition E_IND := union ["e_i"; "ee_i"].
Definition I_SGN := union ["i"; "ii"]. Definition I_IND := union ["i_i"; "ii_i"]. Definition O_IND := union ["o_i"; "oo_i"]. Definition U_SGN := union ["u"; "uu"].
Definition FPH := union ["f"; "ph"]. Definition ZJ := union ["j"; "z"].
(** nisaba/scripts/natural_translit/brahmic/acronym.py:52-80 with 89-119 HI_ACRONYM_SET *)
Definition uc (s : string) : word := trl (s ++ "_uc")%string.
Definition HI_ACRONYM_SET : list (tre * word) := [
  (letter [E_IND], uc "A");
  (letter [gr1 "b"; I_SGN], uc "B");
  (letter [gr1 "s"; I_SGN], uc "C");
  (letter [gr1 "dd"; I_SGN], uc "D");
  (letter [I_IND], uc "E");
  (letter [E_IND; FPH; gr1 "a"], uc "F");
  (letter [gr1 "j"; I_SGN], uc "G");
  (letter [E_IND; gr1 "c"; gr1 "a"], uc "H");
  (letter [A_IND; I_IND], uc "I");
  (letter [gr1 "j"; E_SGN], uc "J");
  (letter [gr1 "k"; E_SGN], uc "K");
  (letter [E_IND; gr1 "l"; gr1 "a"], uc "L");
  (letter [E_IND; gr1 "m"; gr1 "a"], uc "M");
  (letter [E_IND; gr1 "n"; gr1 "a"], uc "N");
  (letter [O_IND], uc "O");
  (letter [gr1 "p"; I_SGN], uc "P");
  (letter [gr1 "k"; gr1 "y"; U_SGN], uc "Q");
  (letter [A_IND; gr1 "r"; gr1 "a"], uc "R");
  (letter [E_IND; gr1 "s"; gr1 "a"], uc "S");
  (letter [gr1 "tt"; I_SGN], uc "T");
  (letter [gr1 "y"; U_SGN], uc "U");
  (letter [gr1 "v"; I_SGN], uc "V");
  (letter [gr1 "dd"; gr1 "a"; gr1 "b"; gr1 "l"; U_SGN], uc "W");
  (letter [gr1 "dd"; gr1 "a"; gr1 "b"; gr1 "l"; gr1 "y"; U_SGN], uc "W");
  (letter [gr1 "dd"; gr1 "a"; gr1 "b"; gr1 "a"; gr1 "l"; gr1 "y"; U_SGN], uc "W");
  (letter [gr1 "dd"; gr1 "a"; gr1 "b"; gr1 "l"; gr1 "a"; gr1 "y"; U_SGN], uc "W");
  (letter [E_IND; gr1 "k"; gr1 "s"; gr1 "a"], uc "X");
  (letter [gr1 "v"; A_SGN; I_IND], uc "Y");
  (letter [ZJ; E_SGN; gr1 "dd"; gr1 "a"], uc "Z")].
(** nisaba/scripts/natural_translit/brahmic/acronym.py:82-87 _LETTERS *)
Definition LETTERS : tre := TStar (fold_right TAlt (TWords []) (map fst HI_ACRONYM_SET)).
(** nisaba/scripts/natural_translit/latin/ltn_inventory.py:61 *)
Definition EN_LETTERS : tre := TStar (TWords (map (fun c => [Tr (typ c)]) ASCII_UC)).

(** The parts of a text *)
Fixpoint prefixes (s : str) : list str := [] :: match s with [] => [] | c :: r => map (cons c) (prefixes r) end.
Fixpoint infixes (s : str) : list str := prefixes s ++ match s with [] => [] | _ :: r => infixes r end.
(** cdrewrite of a cross product of a language with a string: of its infinitely many pairs only those whose first string is a part of the text can apply to it. *)
Definition cross_rules (l : list (tre * word)) (s : str) : list rule :=
  flat_map (fun q : tre * word => map (fun u => Rule u (encs (snd q))) (filter (accepts (enc_re (fst q))) (infixes s))) l.
(** nisaba/scripts/natural_translit/brahmic/acronym.py:121-124 *)
Definition BEFORE_ACR : tctx := Some (true, EN_LETTERS).
Definition AFTER_ACR : tctx := Some (true, LETTERS).
Definition HI_ACR_TYP_TO_TR : fst_t := fun s => rewrite_op (cross_rules HI_ACRONYM_SET s) (enc_ctx BEFORE_ACR) (enc_ctx AFTER_ACR) s.

(** nisaba/scripts/natural_translit/language_params/hi.py:105-121 iso_to_nat *)
Definition HI_BEFORE : list op := SIBV_TO_SIBW ++ AA_WI ++ RDH_RH ++ TXN_TO_PSA_COMMON ++ IGNORE_LONG.
Definition hi_nat (e : bool) : fst_t := fun t =>
  flat_map (print_only_glyph e LTN_CHARS)
    (flat_map (run_bytes ((HI_TXN ++ HI_BEFORE) ++ TRANSLIT_BY_PSA :: GEMINATES))
      (flat_map HI_ACR_TYP_TO_TR (flat_map (run_bytes ISO_TO_TXN) (map fst (outs read_iso t))))).
