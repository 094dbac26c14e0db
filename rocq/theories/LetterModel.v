(** The registry of letters and their languages: nisaba/scripts/utils/letter_languages.py, its
    integrity test, and the test of abjad_alphabet that compares it with the romanization. *)
From Verif Require Import Base RuleModel DataModel.

(** letter_languages.proto:29-45, LetterLanguages.Item *)
Record entry := Entry { letter : item; languages : list str; regions : list str }.

Section Letters.
  (** As in DataModel *)
  Variable lookup : str -> option str.
  Variable is_cc : N -> bool.
  Variable has_name : N -> bool.
  Variable set_list : list str -> list str.
  Notation convert_item := (convert_item lookup is_cc has_name set_list).

  Definition with_raw (it : item) (s : str) : item :=
    {| uname := uname it; raw := s; to_uname := to_uname it; to_raw := to_raw it |}.
  (** letter_languages.py:25-41 _fill_missing_raw; what a failed run leaves in the message is not
      modelled. *)
  Fixpoint fill_letters (prefixes : list str) (es : list entry) : out (list entry) :=
    match es with
    | [] => Ok []
    | e :: es' =>
      bind (convert_item prefixes [] (letter e)) (fun p =>
      bind (fill_letters prefixes es') (fun l =>
        Ok (Entry (with_raw (letter e) (fst p)) (languages e) (regions e) :: l)))
    end.

  (** unicode_strings_util.py:149-168 _fill_missing_raw: assigning None to a field of the message
      is a TypeError. *)
  Fixpoint fill_strings (prefixes to_prefixes : list str) (its : list item) : out (list item) :=
    match its with
    | [] => Ok []
    | it :: its' =>
      bind (convert_item prefixes to_prefixes it) (fun p =>
      match snd p with
      | None => TypeError
      | Some d =>
        bind (fill_strings prefixes to_prefixes its') (fun l =>
          Ok ({| uname := uname it; raw := fst p; to_uname := to_uname it; to_raw := d |} :: l))
      end)
    end.
End Letters.

(** A test passes, fails, or raises another exception. *)
Inductive verdict := Pass | Fail | Raises.

(** ord, a TypeError unless given one character *)
Definition ord (s : str) : option N := match s with [c] => Some c | _ => None end.

(** letter_languages_integrity_test.py:46-70; [seen] is all_letters, [previous] the letter before,
    [n] the number of items.  A message is always true (line 52). *)
Fixpoint letters_from (n : nat) (previous : option str) (seen : list str) (es : list entry) : verdict :=
  match es with
  | [] => if Nat.eqb n (length seen) then Pass else Fail
  | e :: es' =>
    if negb (Nat.eqb (length (uname (letter e))) 1) then Fail
    else if is_empty (raw (letter e)) then Fail
    else if existsb (str_eqb (raw (letter e))) seen then Fail
    else
      let seen := raw (letter e) :: seen in
      match previous with
      | None => letters_from n (Some (raw (letter e))) seen es'
      | Some p =>
        match ord (raw (letter e)), ord p with
        | Some this, Some prev =>
          if (prev <? this)%N then letters_from n (Some (raw (letter e))) seen es' else Fail
        | _, _ => Raises
        end
      end
  end.
Definition letters_test (es : list entry) : verdict :=
  if is_empty es then Fail else letters_from (length es) None [] es.

Section Codes.
  (** pycountry: languages and countries by their codes of two and three letters, and the code of
      two letters of one that has it; str.islower and str.isupper *)
  Variable entity : Type.
  Variable by_2 by_3 : str -> option entity.
  Variable alpha_2 : entity -> option str.
  Variable islower isupper : str -> bool.

  Definition known_code (code : str) : bool :=
    if Nat.eqb (length code) 3 then
      match by_3 code with
      | None => false
      | Some x => match alpha_2 x with Some _ => false | None => true end
      end
    else match by_2 code with None => false | Some _ => true end.
  (** letter_languages_integrity_test.py:75-91 *)
  Definition language_ok (code : str) : bool :=
    if is_empty code then false
    else if negb (Nat.ltb (length code) 4) then false
    else if negb (islower code) then false
    else known_code code.
  Definition languages_test (es : list entry) : verdict :=
    if forallb (fun e => forallb language_ok (languages e)) es then Pass else Fail.
  (** letter_languages_integrity_test.py:96-112 *)
  Definition region_ok (code : str) : bool :=
    if negb (Nat.ltb 1 (length code)) then false
    else if negb (Nat.ltb (length code) 4) then false
    else if negb (isupper code) then false
    else known_code code.
  Definition regions_test (es : list entry) : verdict :=
    if forallb (fun e => forallb region_ok (regions e)) es then Pass else Fail.
End Codes.

(** reversible_roman_coverage_test.py:42-53: the set differences; [roman] has the raw fields of the
    romanization. *)
Definition minus (a b : list str) : list str := filter (fun s => negb (existsb (str_eqb s) b)) a.
Definition coverage_test (roman : list str) (es : list entry) : verdict :=
  let letters := map (fun e => raw (letter e)) es in
  if is_empty (minus letters roman) then if is_empty (minus roman letters) then Pass else Fail else Fail.

(** reversible_roman_coverage_test.py:55-61: the outputs of the composition of a letter with
    FROM_ARAB and TO_ARAB; whether it is the identity on the letter *)
Definition roundtrip (from to : fst_t) (s : str) : list str := flat_map to (from s).
Definition identity_on (s : str) (outs : list str) : bool :=
  if is_empty outs then false else forallb (str_eqb s) outs.
Definition roundtrip_test (from to : fst_t) (es : list entry) : verdict :=
  if forallb (fun e => identity_on (raw (letter e)) (roundtrip from to (raw (letter e)))) es then Pass else Fail.
