(** Model of nisaba_compile_script_lang_multi_grm_py in
    nisaba/scripts/utils/grammars.bzl, which builds an archive of transducers for
    scripts and languages, of the names under which the grammars export them, of the
    shipped lists, and of the constructor in nisaba/scripts/brahmic/__init__.py that
    uses such archives.  Grammars are parameters.  Names, sources and values have ASCII
    characters, the values no special ones for sed.  Lists are not empty. *)
From Coq Require Import String Ascii.
From Verif Require Import Base GrammarModel FarModel.
Local Open Scope list_scope.

Definition lit (s : string) : str := map N_of_ascii (list_ascii_of_string s).
(** (script, lang) *)
Notation pair_ := (str * str)%type.

(** ** Starlark and tools *)
(** Comparison of strings *)
Fixpoint str_leb (a b : str) : bool :=
  match a, b with
  | [], _ => true
  | _ :: _, [] => false
  | x :: a', y :: b' => if N.ltb x y then true else if N.eqb x y then str_leb a' b' else false
  end.
(** sorted with a key; it is stable *)
Fixpoint insert_by (key : pair_ -> str) (p : pair_) (l : list pair_) : list pair_ :=
  match l with
  | [] => [p]
  | q :: l' => if str_leb (key p) (key q) then p :: l else q :: insert_by key p l'
  end.
Definition sorted_by (key : pair_ -> str) (l : list pair_) : list pair_ := fold_right (insert_by key) [] l.
(** s.replace(pat, ""); [skip] characters belong to an occurrence *)
Fixpoint remove_all (pat s : str) (skip : nat) : str :=
  match s with
  | [] => []
  | c :: s' =>
    match skip with
    | S k => remove_all pat s' k
    | 0 => if prefixb pat s then remove_all pat s' (List.length pat - 1) else c :: remove_all pat s' 0
    end
  end.
(** The expression .word., . of sed at the beginning of a line's rest *)
Definition matches (word s : str) : bool :=
  match s with
  | [] => false
  | _ :: s1 =>
    if prefixb word s1 then
      match skipn (List.length word) s1 with
      | _ :: a :: b :: _ :: _ => N.eqb a 44 && N.eqb b 32
      | _ => false
      end
    else false
  end.
(** sed -r 's/(.word., .)/\1value/g' for a line; [skip] characters belong to a match *)
Fixpoint sed (word value s : str) (skip : nat) : str :=
  match s with
  | [] => []
  | c :: s' =>
    match skip with
    | 0 => c :: sed word value s' (if matches word s then List.length word + 4 else 0)
    | 1 => c :: value ++ sed word value s' 0
    | S k => c :: sed word value s' k
    end
  end.
(** farcreate: names of files, each being the key of its transducer; keys must not be
    empty and must not fall *)
Fixpoint farcreate (dir : archive) (last : str) (names : list str) : option archive :=
  match names with
  | [] => Some []
  | n :: names' =>
    if match n with [] => true | _ => false end then None
    else if str_leb last n then
      match get_fst dir n with
      | None => None
      | Some f => match farcreate dir n names' with Some a => Some ((n, f) :: a) | None => None end
      end
    else None
  end.
(** farextract: a file for each key; of equal keys the first keeps the name *)
Definition farextract (fars : list archive) : archive := concat fars.

(** ** grammars.bzl *)
(** Line 147 *)
Definition sort_key (p : pair_) : str := to_lower (snd p ++ fst p).
(** Line 149 *)
Definition name_token_type (name token_type : str) : str :=
  remove_all (lit "_byte") (name ++ lit "_" ++ token_type) 0.
(** Line 195 *)
Definition far_out (name token_type : str) : str := name_token_type name token_type ++ lit ".far".
(** Lines 159-161, for a line *)
Definition make_py (p : pair_) (token_type line : str) : str :=
  sed (lit "token_type") token_type (sed (lit "lang") (snd p) (sed (lit "script") (fst p) line 0) 0) 0.
(** Line 200 *)
Definition created_name (p : pair_) : str :=
  match snd p with [] => to_upper (fst p) | _ => to_upper (snd p) end.
Section Build.
  (** The name that the grammar exports, and its transducer *)
  Variable export_name : pair_ -> str.
  Variable fst_of : pair_ -> wfst.
  (** Lines 147 and 189-198 *)
  Definition aggregated (script_langs : list pair_) : option archive :=
    let l := sorted_by sort_key script_langs in
    farcreate (farextract (map (fun p => [(export_name p, fst_of p)]) l)) [] (map created_name l).
End Build.

(** ** Exported names *)
(** brahmic/reading_norm.py, lines 71-72, and brahmic/visual_norm.py, lines 115-116 and 128 *)
Definition brahmic_export (p : pair_) : str := to_upper (match snd p with [] => fst p | _ => snd p end).
(** abjad_alphabet/reading_norm.py, lines 51-52, and abjad_alphabet/visual_norm.py, line 84 *)
Definition abjad_export (p : pair_) : str := to_upper (snd p).

(** ** Shipped lists *)
(** brahmic/constant.bzl, lines 19-40 *)
Definition SCRIPTS : list str :=
  map lit ["Beng"; "Bugi"; "Deva"; "Gujr"; "Guru"; "Knda"; "Lepc"; "Limb"; "Mlym"; "Mtei"; "Newa"; "Orya"; "Sinh";
           "Sylo"; "Takr"; "Taml"; "Telu"; "Tglg"; "Thaa"; "Tirh"]%string.
(** brahmic/constant.bzl, lines 42-45 *)
Definition VISUAL_NORM_LANGS : list pair_ := [(lit "Beng", lit "as"); (lit "Beng", lit "bn")].
(** brahmic/constant.bzl, lines 47-53 *)
Definition READING_NORM_LANGS : list pair_ := [(lit "Deva", lit "hi"); (lit "Beng", []); (lit "Lepc", []); (lit "Mlym", [])].
(** brahmic/BUILD.bazel, lines 310-313 *)
Definition visual_script_langs : list pair_ := map (fun s => (s, [])) SCRIPTS ++ VISUAL_NORM_LANGS.
(** abjad_alphabet/BUILD.bazel, lines 36-53 *)
Definition NORM_SCRIPT_LANGS : list pair_ :=
  map (fun l => (lit "Arab", lit l)) ["ar"; "azb"; "bal"; "ckb"; "fa"; "ks"; "ms"; "pa"; "prs"; "ps"; "sd"; "ug"; "ur"; "uz"]%string.
(** brahmic/wellformed.py, lines 131-132 *)
Definition wellformed_archive (accept_well_formed : str -> wfst) : archive :=
  map (fun s => (to_upper s, accept_well_formed s)) SCRIPTS.
(** The three lines of reading_norm.py (40-42) and visual_norm.py (42-44) in brahmic;
    those in abjad_alphabet have the last two (38-39 and 41-42) *)
Definition flag_lines : list str :=
  map lit ["_SCRIPT = flags.DEFINE_string('script', '', 'ISO 15924 script tag.')";
           "_LANG = flags.DEFINE_string('lang', '', 'ISO 639-2/3 language tag.')";
           "_TOKEN_TYPE = flags.DEFINE_enum('token_type', '', ['byte', 'utf8'],"]%string.

(** ** brahmic/__init__.py *)
(** Lines 77-82 and 96-101: false for ScriptError; [None]: another exception *)
Definition normalizing_acceptor (w : world) (visual_norm wellformed script : str) : option bool :=
  match fst (PyFst w (make_far visual_norm) (to_upper script)) with
  | Val _ =>
    match fst (PyFst w (make_far wellformed) (to_upper script)) with
    | Val _ => Some true
    | KeyError => Some false
    | _ => None
    end
  | KeyError => Some false
  | _ => None
  end.
