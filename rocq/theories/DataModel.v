(** Data files: Unicode names to strings, protos to TSV, TSV to rules
    (utils/unicode_strings_util.py, unicode_strings_to_tsv.py, rule.py, char.py). *)
From Verif Require Import Base RuleModel.

(** A Python result; [Other] stands for an input the model of pandas does not
    cover (see [parse_tsv]). *)
Inductive out (A : Type) := Ok (a : A) | ValueError | TypeError | Other.
Arguments Ok {A} a. Arguments ValueError {A}. Arguments TypeError {A}. Arguments Other {A}.

Definition bind {A B} (r : out A) (k : A -> out B) : out B :=
  match r with Ok a => k a | ValueError => ValueError | TypeError => TypeError | Other => Other end.

(** str.isspace for single characters *)
Definition py_space (c : N) : bool :=
  ((9 <=? c) && (c <=? 13) || (28 <=? c) && (c <=? 32) || (c =? 133) || (c =? 160) || (c =? 5760) ||
   (8192 <=? c) && (c <=? 8202) || (c =? 8232) || (c =? 8233) || (c =? 8239) || (c =? 8287) ||
   (c =? 12288))%N.

Fixpoint lstrip (s : str) : str :=
  match s with [] => [] | c :: s' => if py_space c then lstrip s' else s end.
Definition strip (s : str) : str := rev (lstrip (rev (lstrip s))).

Definition SPACE : N := 32. Definition TAB : N := 9. Definition LF : N := 10.
Definition HASH : N := 35. Definition BACKSLASH : N := 92. Definition QUOTE : N := 34. Definition CR : N := 13.

Section Names.
  (** unicodedata: [lookup] is None for a KeyError and may return a named
      sequence of several characters; [is_cc c] is category(c) == 'Cc';
      [has_name c] is whether name(c) is defined. *)
  Variable lookup : str -> option str.
  Variable is_cc : N -> bool.
  Variable has_name : N -> bool.

  (** unicodedata.category raises TypeError unless given one character. *)
  Definition category_is_cc (s : str) : out bool :=
    match s with [c] => Ok (is_cc c) | _ => TypeError end.

  (** (prefix + ' ' + suffix).lstrip() *)
  Definition spelling (suffix prefix : str) : str := lstrip (prefix ++ SPACE :: suffix).

  (** unicode_strings_util.py:40-50, the loop *)
  Fixpoint collect (suffix : str) (prefixes : list str) (acc : list (str * str))
    : out (list (str * str)) :=
    match prefixes with
    | [] => Ok acc
    | p :: ps =>
      match lookup (spelling suffix p) with
      | None => collect suffix ps acc
      | Some ch => bind (category_is_cc ch) (fun cc =>
          collect suffix ps (if cc then acc else acc ++ [(ch, spelling suffix p)]))
      end
    end.

  (** unicode_strings_util.py:27-57 name_to_char *)
  Definition name_to_char (prefixes : list str) (suffix : str) : out (str * str) :=
    bind (collect suffix (prefixes ++ [[]]) []) (fun l =>
      match l with [x] => Ok x | _ => ValueError end).

  (** unicode_strings_util.py:60-76 _names_to_string; the generator is evaluated
      from left to right, and unpacking the zip of nothing is a ValueError. *)
  Fixpoint name_chars (prefixes : list str) (names : list str) : out (list str) :=
    match names with
    | [] => Ok []
    | n :: ns => bind (name_to_char prefixes n) (fun x =>
                 bind (name_chars prefixes ns) (fun l => Ok (fst x :: l)))
    end.
  Definition names_to_string (prefixes : list str) (names : list str) : out str :=
    bind (name_chars prefixes names) (fun l => match l with [] => ValueError | _ => Ok (concat l) end).

  Definition is_empty {A} (l : list A) : bool := match l with [] => true | _ => false end.

  (** unicode_strings_util.py:79-113 proto_entries_to_string *)
  Definition proto_entries_to_string (prefixes : list str) (uname : list str) (raw : str) : out str :=
    if negb (is_empty raw) && is_empty uname then Ok raw
    else if negb (forallb has_name raw) then ValueError
    else bind (names_to_string prefixes uname) (fun u =>
           if negb (is_empty raw) && negb (str_eqb u raw) then ValueError else Ok u).

  Record item := { uname : list str; raw : str; to_uname : list str; to_raw : str }.

  (** list(set(l)): some list with the elements of [l] *)
  Variable set_list : list str -> list str.

  (** unicode_strings_util.py:116-150 convert_item *)
  Definition convert_item (prefixes to_prefixes : list str) (it : item) : out (str * option str) :=
    if is_empty (uname it) && is_empty (raw it) then ValueError
    else
      let prefixes := set_list prefixes in
      let to_prefixes := set_list to_prefixes in
      bind (proto_entries_to_string prefixes (uname it) (raw it)) (fun src =>
        if is_empty (to_uname it) && is_empty (to_raw it) then Ok (src, None)
        else
          let to_prefixes := if is_empty to_prefixes then prefixes else to_prefixes in
          bind (proto_entries_to_string to_prefixes (to_uname it) (to_raw it)) (fun dst =>
            Ok (src, Some dst))).

  (** unicode_strings_to_tsv.py:74-90: what is written for one item *)
  Definition tsv_line (p : str * option str) : str :=
    match snd p with
    | Some (c :: d) => fst p ++ TAB :: (c :: d) ++ [LF]
    | _ => fst p ++ [LF]
    end.

  Fixpoint convert_items (prefixes to_prefixes : list str) (its : list item)
    : out (list (str * option str)) :=
    match its with
    | [] => Ok []
    | it :: its' => bind (convert_item prefixes to_prefixes it) (fun p =>
                    bind (convert_items prefixes to_prefixes its') (fun l => Ok (p :: l)))
    end.

  (** unicode_strings_to_tsv.py:64-90 _convert_data_proto_to_file; [header] is
      the comment line.  The content of a file left by a failed run is not
      modelled. *)
  Definition proto_to_tsv (header : str) (prefixes to_prefixes : list str) (its : list item) : out str :=
    bind (convert_items prefixes to_prefixes its) (fun l => Ok (header ++ flat_map tsv_line l)).
End Names.

(** pandas.read_csv(f, sep='\t', comment='#', escapechar='\\', names=.., na_filter=False)
    (trusted model of its tokenizer).  Input with a carriage return, a quote or
    more than two fields in a line is not covered and gives [Other].
    [fields] are the finished fields of the line in reverse, [cur] is the current
    field in reverse, [blank] says that only blanks were read in this line. *)
Inductive tsv_state := Start | InLine (fields : list str) (cur : str) (blank : bool)
  | Escaped (fields : list str) (cur : str) | Comment (fields : option (list str)).

Definition end_line (fields : list str) : option (list (str * str)) :=
  match rev fields with
  | [a] => Some [(a, [])]
  | [a; b] => Some [(a, b)]
  | _ => None
  end.

Fixpoint parse_tsv (st : tsv_state) (s : str) : out (list (str * str)) :=
  let emit fields k :=
    match end_line fields with
    | Some row => bind k (fun l => Ok (row ++ l))
    | None => Other
    end in
  match s with
  | [] => match st with
          | Start => Ok []
          | InLine _ _ true => Ok []
          | InLine fields cur false => emit (rev cur :: fields) (Ok [])
          | Escaped _ _ => Other
          | Comment None => Ok []
          | Comment (Some fields) => emit fields (Ok [])
          end
  | c :: s' =>
    match st with
    | Comment f =>
      if (c =? LF)%N then
        match f with None => parse_tsv Start s' | Some fields => emit fields (parse_tsv Start s') end
      else parse_tsv (Comment f) s'
    | Escaped fields cur => parse_tsv (InLine fields (c :: cur) false) s'
    | _ =>
      let '(fields, cur, blank, start) :=
        match st with InLine f c b => (f, c, b, false) | _ => ([], [], true, true) end in
      if (c =? CR)%N || (c =? QUOTE)%N then Other
      else if (c =? LF)%N then
        if blank then parse_tsv Start s' else emit (rev cur :: fields) (parse_tsv Start s')
      else if (c =? HASH)%N then
        if start then parse_tsv (Comment None) s' else parse_tsv (Comment (Some (rev cur :: fields))) s'
      else if (c =? TAB)%N then parse_tsv (InLine (rev cur :: fields) [] false) s'
      else if (c =? BACKSLASH)%N then parse_tsv (Escaped fields cur) s'
      else parse_tsv (InLine fields (c :: cur) (blank && (c =? SPACE)%N)) s'
    end
  end.

Section Reader.
  (** A column all of whose cells look like numbers (or all like booleans) is
      not read as strings; [numeric] is this test on a column. *)
  Variable numeric : list str -> bool.

  (** rule.py:85-94 rules_from_string_path; a column of numbers gives [Other]. *)
  Definition rules_from_tsv (file : str) : out (list rule) :=
    bind (parse_tsv Start file) (fun rows =>
      if numeric (map fst rows) || numeric (map snd rows) then Other
      else if existsb (fun r => is_empty (fst r)) rows then ValueError
      else Ok (map (fun r => Rule (fst r) (snd r)) rows)).
End Reader.

(** Lines of a text file, without the terminators (universal newlines are not
    modelled: only LF ends a line). *)
Fixpoint lines_of (cur : str) (s : str) : list str :=
  match s with
  | [] => match cur with [] => [] | _ => [rev cur] end
  | c :: s' => if (c =? LF)%N then rev cur :: lines_of [] s' else lines_of (c :: cur) s'
  end.

(** str.split('\t') *)
Fixpoint split_tab (cur : str) (s : str) : list str :=
  match s with
  | [] => [rev cur]
  | c :: s' => if (c =? TAB)%N then rev cur :: split_tab [] s' else split_tab (c :: cur) s'
  end.

(** char.py:29-52 _read_string_file_chars_to_set, for one file; a set is a list. *)
Definition file_chars (relevant_fields : nat) (file : str) : list N :=
  flat_map (fun line =>
    match line with
    | c :: _ => if (c =? HASH)%N then [] else concat (firstn relevant_fields (split_tab [] (strip line)))
    | [] => []
    end) (lines_of [] file).
