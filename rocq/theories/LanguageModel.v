(** Model of nisaba/scripts/natural_translit/phonology/features/language.py: the
    tree of languages and their indices.  The list of languages of pycountry is a
    parameter; codes are strings. *)
From Coq Require Import String Ascii.
From Verif Require Import Base FeatureModel SoundTables SoundModel.
Local Open Scope string_scope.
Local Open Scope list_scope.

(** An entry of pycountry.languages: alpha_2 (if there is one), alpha_3 and name *)
Record country_language := CountryLanguage { alpha_2 : option string; alpha_3 : string; lang_name : string }.

Definition lower_char (c : ascii) : ascii :=
  let n := nat_of_ascii c in if (65 <=? n)%nat && (n <=? 90)%nat then ascii_of_nat (n + 32) else c.
Fixpoint lower (s : string) : string :=
  match s with EmptyString => EmptyString | String c s' => String (lower_char c) (lower s') end.

(** languages.get compares without case; the last entry with the code counts in
    general, but codes are unique.  Result: position and entry *)
Fixpoint get_language (key : country_language -> option string) (code : string) (l : list country_language) (i : nat)
  : option (nat * country_language) :=
  match l with
  | [] => None
  | e :: l' =>
    match key e with
    | Some k => if String.eqb (lower k) (lower code) then Some (i, e) else get_language key code l' (S i)
    | None => get_language key code l' (S i)
    end
  end.

Record language := Language { l_alias : string; l_text : string; l_index : N }.
(** ValueError for a code of another length; AttributeError for an unknown one *)
Inductive result := Made (l : language) | InvalidCode | NoLanguage.
(** Language.from_iso, lines 36-48 *)
Definition from_iso (languages : list country_language) (iso_code : string) : result :=
  let found := match String.length iso_code with
               | 2 => Some (get_language alpha_2 iso_code languages 0)
               | 3 => Some (get_language (fun e => Some (alpha_3 e)) iso_code languages 0)
               | _ => None
               end in
  match found with
  | None => InvalidCode
  | Some None => NoLanguage
  | Some (Some (i, e)) => Made (Language (lower iso_code) (lang_name e) (N.of_nat i))
  end.

(** The codes of the inventory, in the order of the text, and the two languages
    made directly, lines 76-125 *)
Definition iso_codes : list string := ["kn"; "te"; "ml"; "ta"; "bn"; "gu"; "hi"; "mr"; "pa"; "en"; "mul"; "und"].
Definition custom_languages : list language :=
  [Language "x_uni" "Unified Phonology" 8000%N; Language "x_psa" "Pan South Asian" 9001%N].

(** The tree, lines 72-126, for the text of a code *)
Definition language_tree (text : string -> string) : feature_tree :=
  let iso c := Feat c (text c) in
  Vals "language" EQUIDISTANT 1%Z
    [Vals "dravidian" EQUIDISTANT 1%Z [iso "kn"; iso "te"; Vals "tamil_kota" EQUIDISTANT 1%Z [iso "ml"; iso "ta"]];
     Vals "indo_european" EQUIDISTANT 1%Z
       [Vals "indo_aryan" EQUIDISTANT 1%Z [iso "bn"; iso "gu"; iso "hi"; iso "mr"; iso "pa"];
        Vals "germanic" EQUIDISTANT 1%Z [iso "en"]];
     Vals "mixed_family" EQUIDISTANT 1%Z
       [iso "mul"; iso "und"; Feat "x_uni" "Unified Phonology"; Feat "x_psa" "Pan South Asian"]].
(** Features and lists numbered in the order of the text *)
Definition language_value : value := fst (numbered (language_tree (fun c => c)) 0 0).
Definition language_alias (f : nat) : string :=
  match nth_error (leaf_names (language_tree (fun c => c))) f with Some (a, _) => a | None => "" end.
Definition family_alias (l : nat) : string :=
  match nth_error (list_names (language_tree (fun c => c))) l with Some a => a | None => "" end.
Definition language_aspect : option aspect :=
  populated (fun f => chars (language_alias f)) (fun l => chars (family_alias l)) aspect_attributes language_value.
