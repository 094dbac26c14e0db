(** C14-C16: names, items and TSV files. *)
From Verif Require Import Base RuleModel DataModel DataSpec DataProofs TsvProofs TsvMore.

(** ** C14 *)
(** The result for every database and prefix list: the character if exactly one
    position of the prefix list (with the empty prefix at the end) spells the
    name of a non-control character.  A spelling that names a sequence of
    characters gives a TypeError. *)
Theorem C14_name_resolution : forall lookup is_cc prefixes suffix,
  match name_to_char lookup is_cc prefixes suffix with
  | Ok (ch, full) => exists c, ch = [c] /\ exists p,
      full = spelling suffix p /\ names_char lookup is_cc full c /\
      only (fun q => exists d, names_char lookup is_cc (spelling suffix q) d) (prefixes ++ [[]]) p
  | ValueError =>
      (forall p ch, In p (prefixes ++ [[]]) -> lookup (spelling suffix p) = Some ch -> exists c, ch = [c]) /\
      forall p, ~ only (fun q => exists d, names_char lookup is_cc (spelling suffix q) d) (prefixes ++ [[]]) p
  | TypeError => ~ forall p ch, In p (prefixes ++ [[]]) -> lookup (spelling suffix p) = Some ch -> exists c, ch = [c]
  | Other => False
  end.
Proof. exact name_resolution. Qed.
Print Assumptions C14_name_resolution.

(** Conversely exactly one spelling means success. *)
Theorem C14_unique_name_resolves : forall lookup is_cc prefixes suffix c p,
  (forall q ch, In q (prefixes ++ [[]]) -> lookup (spelling suffix q) = Some ch -> exists d, ch = [d]) ->
  only (fun q => exists d, names_char lookup is_cc (spelling suffix q) d) (prefixes ++ [[]]) p ->
  names_char lookup is_cc (spelling suffix p) c ->
  name_to_char lookup is_cc prefixes suffix = Ok ([c], spelling suffix p).
Proof. exact unique_name_resolves. Qed.
Print Assumptions C14_unique_name_resolves.

(** What is spelled: the prefix, a blank and the name, or the bare name. *)
Theorem C14_spelling : forall suffix prefix,
  (forall c s, prefix = c :: s -> py_space c = false) -> (forall c s, suffix = c :: s -> py_space c = false) ->
  spelling suffix [] = suffix /\ (prefix <> [] -> spelling suffix prefix = prefix ++ 32%N :: suffix).
Proof. exact spelling_text. Qed.
Print Assumptions C14_spelling.

Theorem C14_prefix_order_irrelevant : forall lookup is_cc l l' suffix, Permutation l l' ->
  name_to_char lookup is_cc l suffix = name_to_char lookup is_cc l' suffix.
Proof. exact name_to_char_perm. Qed.
Print Assumptions C14_prefix_order_irrelevant.

(** Conversion does not depend on how list(set(..)) orders the prefixes. *)
Theorem C14_set_order_irrelevant : forall lookup is_cc has_name f g l l' it,
  (forall x, NoDup (f x) /\ forall y, In y (f x) <-> In y x) ->
  (forall x, NoDup (g x) /\ forall y, In y (g x) <-> In y x) ->
  convert_item lookup is_cc has_name f l l' it = convert_item lookup is_cc has_name g l l' it.
Proof. exact convert_order. Qed.
Print Assumptions C14_set_order_irrelevant.

(** Resolution does not look at the set of spellings but at the list: with the
    empty prefix listed, or a prefix listed twice, one single character counts
    as several. *)
Theorem C14_same_character_twice_refuted : exists lookup is_cc prefixes suffix c,
  (forall p, In p (prefixes ++ [[]]) -> names_char lookup is_cc (spelling suffix p) c) /\
  name_to_char lookup is_cc prefixes suffix = ValueError.
Proof. exact same_character_twice. Qed.
Print Assumptions C14_same_character_twice_refuted.

(** The message definition allows names of sequences (unicode_strings.proto:46-48),
    but a sequence name never resolves. *)
Theorem C14_sequence_names_refuted : exists lookup is_cc prefixes suffix ch,
  lookup suffix = Some ch /\ length ch = 2 /\ spelling suffix [] = suffix /\
  name_to_char lookup is_cc prefixes suffix = TypeError.
Proof. exact sequence_names. Qed.
Print Assumptions C14_sequence_names_refuted.

(** A database with two characters, and prefix lists in both orders; "A" is
    known as "X A" only, "B" as "X B" and "Y B". *)
Example C14_example :
  let db := fun n : str => if str_eqb n [88; 32; 65]%N then Some [1%N] else
    if str_eqb n [88; 32; 66]%N then Some [2%N] else if str_eqb n [89; 32; 66]%N then Some [3%N] else None in
  name_to_char db (fun _ => false) [[88]; [89]]%N [65%N] = Ok ([1%N], [88; 32; 65]%N) /\
  name_to_char db (fun _ => false) [[89]; [88]]%N [65%N] = Ok ([1%N], [88; 32; 65]%N) /\
  name_to_char db (fun _ => false) [[88]; [89]]%N [66%N] = ValueError /\
  name_to_char db (fun c => (c =? 2)%N) [[88]; [89]]%N [66%N] = Ok ([3%N], [89; 32; 66]%N) /\
  name_to_char db (fun _ => false) [[88]; [89]]%N [67%N] = ValueError.
Proof. vm_compute. auto 10. Qed.

(** ** C15 *)
Theorem C15_raw_and_names_agree : forall lookup is_cc has_name prefixes names rw s,
  rw <> [] -> names <> [] ->
  proto_entries_to_string lookup is_cc has_name prefixes names rw = Ok s <->
  s = rw /\ forallb has_name rw = true /\ names_to_string lookup is_cc prefixes names = Ok rw.
Proof. exact entries_both. Qed.
Print Assumptions C15_raw_and_names_agree.

Theorem C15_raw_only : forall lookup is_cc has_name prefixes rw, rw <> [] ->
  proto_entries_to_string lookup is_cc has_name prefixes [] rw = Ok rw.
Proof. exact entries_raw_only. Qed.
Print Assumptions C15_raw_only.

Theorem C15_names_only : forall lookup is_cc has_name prefixes names,
  proto_entries_to_string lookup is_cc has_name prefixes names [] = names_to_string lookup is_cc prefixes names.
Proof. exact entries_names_only. Qed.
Print Assumptions C15_names_only.

(** What a list of names denotes: one character per name, each unambiguous. *)
Theorem C15_names_denote : forall lookup is_cc prefixes names s,
  names_to_string lookup is_cc prefixes names = Ok s <->
  names <> [] /\
  (forall n, In n names -> forall p ch, In p (prefixes ++ [[]]) -> lookup (spelling n p) = Some ch -> exists c, ch = [c]) /\
  Forall2 (fun n c => exists full p, full = spelling n p /\ names_char lookup is_cc full c /\
    only (fun q => exists d, names_char lookup is_cc (spelling n q) d) (prefixes ++ [[]]) p) names s.
Proof. exact names_denote. Qed.
Print Assumptions C15_names_denote.

Theorem C15_nothing_given_raises : forall lookup is_cc has_name f l l' it, uname it = [] -> raw it = [] ->
  convert_item lookup is_cc has_name f l l' it = ValueError.
Proof. exact nothing_given. Qed.
Print Assumptions C15_nothing_given_raises.

(** Conversion of an item: each side is the raw text if given, and equals the
    names if given; it is never empty; the destination is there exactly if some
    destination field is; the source prefixes serve for the destination if it
    has none. *)
Theorem C15_convert_item : forall lookup is_cc has_name f l l' it s d,
  convert_item lookup is_cc has_name f l l' it = Ok (s, d) ->
  s <> [] /\ (raw it <> [] -> s = raw it) /\
  (uname it <> [] -> names_to_string lookup is_cc (f l) (uname it) = Ok s) /\
  (d = None <-> to_uname it = [] /\ to_raw it = []) /\
  (forall t, d = Some t -> t <> [] /\ (to_raw it <> [] -> t = to_raw it) /\
     (to_uname it <> [] ->
      names_to_string lookup is_cc (match f l' with [] => f l | _ => f l' end) (to_uname it) = Ok t)).
Proof. exact convert_item_facts. Qed.
Print Assumptions C15_convert_item.

Example C15_example :
  let db := fun n : str => if str_eqb n [88; 32; 65]%N then Some [1%N] else None in
  let it r n := {| uname := n; raw := r; to_uname := []; to_raw := [7%N] |} in
  let conv := convert_item db (fun _ => false) (fun _ => true) (fun l => l) [[88%N]] [] in
  conv (it [1%N] [[65%N]]) = Ok ([1%N], Some [7%N]) /\ conv (it [2%N] [[65%N]]) = ValueError /\
  conv (it [2%N] []) = Ok ([2%N], Some [7%N]) /\ conv (it [] [[65%N]]) = Ok ([1%N], Some [7%N]) /\
  conv (it [] []) = ValueError.
Proof. vm_compute. auto 10. Qed.

(** ** C16 *)
(** [h] is the rest of the comment line. *)
Theorem C16_rules_read_back : forall numeric h l, ~ In 10%N h ->
  Forall (fun p => fst p <> [] /\ plain_field (fst p) /\ plain_field (dest_text (snd p)) /\
                   (dest_text (snd p) = [] -> exists c, In c (fst p) /\ c <> 32%N)) l ->
  numeric (map fst l) = false -> numeric (map (fun p => dest_text (snd p)) l) = false ->
  rules_from_tsv numeric (35%N :: h ++ 10%N :: flat_map tsv_line l)
    = Ok (map (fun p => Rule (fst p) (dest_text (snd p))) l).
Proof. exact rules_read_back_spec. Qed.
Print Assumptions C16_rules_read_back.

(** Starting from a proto: one rule per item. *)
Theorem C16_proto_round_trip : forall lookup is_cc has_name set_list numeric h ps qs its file,
  ~ In 10%N h ->
  proto_to_tsv lookup is_cc has_name set_list (35%N :: h ++ [10%N]) ps qs its = Ok file ->
  exists l, convert_items lookup is_cc has_name set_list ps qs its = Ok l /\
    Forall2 (fun it p => convert_item lookup is_cc has_name set_list ps qs it = Ok p) its l /\
    (Forall (fun p => fst p <> [] /\ plain_field (fst p) /\ plain_field (dest_text (snd p)) /\
                   (dest_text (snd p) = [] -> exists c, In c (fst p) /\ c <> 32%N)) l ->
     numeric (map fst l) = false -> numeric (map (fun p => dest_text (snd p)) l) = false ->
     rules_from_tsv numeric file = Ok (map (fun p => Rule (fst p) (dest_text (snd p))) l)).
Proof. exact proto_round_trip_spec. Qed.
Print Assumptions C16_proto_round_trip.

(** The derived alphabet, for lines without white space at their ends. *)
Theorem C16_alphabet_exact : forall h l, ~ In 10%N h ->
  Forall (fun p => (fst p <> [] /\ plain_field (fst p) /\ plain_field (dest_text (snd p)) /\
                   (dest_text (snd p) = [] -> exists c, In c (fst p) /\ c <> 32%N)) /\
                   trimmed (line_text p)) l ->
  forall c,
  (In c (file_chars 2 (35%N :: h ++ 10%N :: flat_map tsv_line l)) <->
     exists p, In p l /\ (In c (fst p) \/ exists d, snd p = Some d /\ In c d)) /\
  (In c (file_chars 1 (35%N :: h ++ 10%N :: flat_map tsv_line l)) <-> exists p, In p l /\ In c (fst p)).
Proof. exact chars_exact_spec. Qed.
Print Assumptions C16_alphabet_exact.

(** The restrictions are needed: a destination that is a blank is read as a rule
    but missing from the alphabet ... *)
Theorem C16_alphabet_of_blank_refuted : exists s d,
  plain_field s /\ plain_field d /\
  rules_from_tsv (fun _ => false) (tsv_line (s, Some d)) = Ok [Rule s d] /\
  exists c, In c d /\ ~ In c (file_chars 2 (tsv_line (s, Some d))).
Proof. exact blank_lost. Qed.
Print Assumptions C16_alphabet_of_blank_refuted.

(** ... and '#' cuts a rule off silently. *)
Theorem C16_hash_refuted : exists s d, s <> [] /\ d <> [] /\
  rules_from_tsv (fun _ => false) (tsv_line (s, Some d)) = Ok [Rule s []].
Proof. exact hash_lost. Qed.
Print Assumptions C16_hash_refuted.

(** Rule files written by hand: comments and blank lines are skipped, a comment after the
    fields ends the line, escaped characters are read literally, and the last line need
    not be ended.  A rule without a source is an error. *)
Theorem C16_file_read : forall numeric ls last, Forall readable_line (file_lines ls last) ->
  let rows := flat_map line_rows (file_lines ls last) in
  numeric (map fst rows) = false -> numeric (map snd rows) = false ->
  (Forall (fun r : str * str => fst r <> []) rows ->
     rules_from_tsv numeric (file_text ls last) = Ok (map (fun r => Rule (fst r) (snd r)) rows)) /\
  (~ Forall (fun r : str * str => fst r <> []) rows -> rules_from_tsv numeric (file_text ls last) = ValueError).
Proof. exact rules_of_file. Qed.
Print Assumptions C16_file_read.

(** A comment, a line of blanks, "a", tab, "b", comment, and at the end an escaped "#" with a comment *)
Example C16_example_file :
  let ls := [CommentLine [120]; BlankLine 2; DataLine [97] (Some [98]) (Some [122])]%N in
  let last := Some (DataLine [35] None (Some [122]))%N in
  file_text ls last = [35; 120; 10; 32; 32; 10; 97; 9; 98; 35; 122; 10; 92; 35; 35; 122]%N /\
  rules_from_tsv (fun _ => false) (file_text ls last) = Ok [Rule [97] [98]; Rule [35] []]%N.
Proof. vm_compute. auto. Qed.

Example C16_example :
  let l := [([98; 99]%N, Some [100; 32; 101]%N); ([102]%N, None)] in
  rules_from_tsv (fun _ => false) (35%N :: [104%N] ++ 10%N :: flat_map tsv_line l)
    = Ok [Rule [98; 99]%N [100; 32; 101]%N; Rule [102%N] []] /\
  file_chars 2 (35%N :: [104%N] ++ 10%N :: flat_map tsv_line l) = [98; 99; 100; 32; 101; 102]%N /\
  file_chars 1 (35%N :: [104%N] ++ 10%N :: flat_map tsv_line l) = [98; 99; 102]%N.
Proof. vm_compute. auto. Qed.
