(** Model of nisaba/scripts/natural_translit/phonology/romanizer.py and of the transliteration functions
    of phonology/phon.py.  Texts are sequences of symbols and rules are those of NatModel.
    None stands for an exception (a missing key or character).  The phons are those of PhonModel. *)
From Coq Require Import String Ascii List NArith.
From Verif Require Import Base RuleModel RegexModel IsoModel AlignModel AlignSpec NatModel PhonTables PhonModel.
Import ListNotations.
Local Open Scope string_scope.
Local Open Scope list_scope.

(** The fst ph of a phon *)
Definition ph_word (p : part) : word := map (fun t => Ph (bytes t)) (PhonModel.ph p).
(** nisaba/scripts/natural_translit/latin/ltn_inventory.py, lines 66-68, and nisaba/scripts/natural_translit/script/char.py, line 66:
    the inventory has the names of the characters in capitals *)
Definition tr_symbol (a : string) : option tok :=
  option_map (fun c => Tr (typ c)) (find (fun c => str_eqb (map NatModel.upper (typ c)) (bytes a)) LTN_CHARS).
Definition tr_word (l : list string) : option word := all_some (map tr_symbol l).
(** nisaba/scripts/natural_translit/phonology/phon.py, lines 192-211: an empty machine gives no pair *)
Definition pair_by_key (key : string) (p : phon) : option (list (word * word)) :=
  match translit_of p key with
  | None => None
  | Some Empty => Some []
  | Some (Text l) => option_map (fun w => [(ph_word (body p), w)]) (tr_word l)
  end.
Definition ls_translit_by_key (ps : list phon) (key : string) : option op :=
  option_map (fun l => Rewrite (concat l) None None) (all_some (map (pair_by_key key) ps)).
Definition ls_translit_base (ps : list phon) : option op := ls_translit_by_key ps "base".
(** nisaba/scripts/natural_translit/phonology/romanizer.py, lines 24-32 *)
Definition TRANSLIT_DIPHTHONG : option op := bind diphthongs (fun l => ls_translit_by_key l "diphthong").
Definition TRANSLIT_AFFRICATE : option op := bind affricates (fun l => ls_translit_by_key l "affricate").
Definition TRANSLIT_BASE : option op := bind phonemes ls_translit_base.
Definition IGNORE_MODIFIERS : option op :=
  option_map (fun l => Rewrite (map (fun m => (ph_word (body m), DEL)) l) None None) combining_modifiers.
Definition DEL_REPEATED_SUBSTRING : op :=
  Rewrite (map (fun c => ([Tr (typ c); Tr (typ c)], [Tr (typ c)])) OTHER_SUBSTRING) None None.
(** What they do with a text *)
Definition apply_to (o : option op) (s : word) : list word := match o with Some r => op_toks r s | None => [] end.
