(** C88: the letters of a script and their languages. *)
From Coq Require Import String Sorted.
From Verif Require Import Base RuleModel NfcTables RomanModel RomanTables DataModel DataSpec
  LetterModel LetterTables LetterSpec LetterProofs LetterShipped.
Local Open Scope list_scope.

(** Filling in the texts of letters *)
Theorem C88_fill lookup is_cc has_name set_list prefixes es es' : Forall (fun e => no_target (letter e)) es ->
  (fill_letters lookup is_cc has_name set_list prefixes es = Ok es' <->
   Forall2 (fun e e' => same_but_raw e e' /\
     letter_text lookup is_cc has_name (set_list prefixes) (uname (letter e)) (raw (letter e)) (raw (letter e'))) es es').
Proof. exact (fill_spec lookup is_cc has_name set_list prefixes es es'). Qed.

Theorem C88_fill_again lookup is_cc has_name set_list prefixes es es' :
  (forall n ch c, lookup n = Some ch -> In c ch -> has_name c = true) ->
  fill_letters lookup is_cc has_name set_list prefixes es = Ok es' ->
  fill_letters lookup is_cc has_name set_list prefixes es' = Ok es'.
Proof. exact (fun H => fill_again lookup is_cc has_name set_list H prefixes es es'). Qed.

(** The reader of strings needs a target in every item, although the message and the conversion
    allow items without one. *)
Theorem C88_fill_strings lookup is_cc has_name set_list prefixes to_prefixes its its' :
  (fill_strings lookup is_cc has_name set_list prefixes to_prefixes its = Ok its' <->
   Forall2 (fun it it' => uname it' = uname it /\ to_uname it' = to_uname it /\
     convert_item lookup is_cc has_name set_list prefixes to_prefixes it = Ok (raw it', Some (to_raw it'))) its its') /\
  forall it, fill_strings lookup is_cc has_name set_list prefixes to_prefixes its = Ok its' -> In it its -> ~ no_target it.
Proof.
  exact (conj (fill_strings_spec lookup is_cc has_name set_list prefixes to_prefixes its its')
    (fun it => fill_strings_target lookup is_cc has_name set_list prefixes to_prefixes its its' it)).
Qed.
Theorem C88_fill_strings_refuted : exists lookup is_cc has_name set_list it,
  (forall l, NoDup (set_list l) /\ forall y, In y (set_list l) <-> In y l) /\
  convert_item lookup is_cc has_name set_list [] [] it = Ok ([97%N], None) /\
  fill_strings lookup is_cc has_name set_list [] [] [it] = TypeError.
Proof. exact no_target_refuted. Qed.

(** The integrity test of a registry that was read *)
Theorem C88_letters_test lookup is_cc has_name set_list prefixes es es' :
  fill_letters lookup is_cc has_name set_list prefixes es = Ok es' ->
  letters_test es' <> Raises /\
  (letters_test es' = Pass <->
   es' <> [] /\ Forall (fun e => List.length (uname (letter e)) = 1) es' /\ in_code_order es').
Proof. exact (filled_test lookup is_cc has_name set_list prefixes es es'). Qed.

Theorem C88_languages_test entity by_2 by_3 alpha_2 islower es :
  languages_test entity by_2 by_3 alpha_2 islower es = Pass <->
  forall e c, In e es -> In c (languages e) -> islower c = true /\ shortest_code by_2 by_3 alpha_2 [1; 2] c.
Proof. exact (languages_test_spec entity by_2 by_3 alpha_2 islower es). Qed.

Theorem C88_regions_test entity by_2 by_3 alpha_2 isupper es :
  regions_test entity by_2 by_3 alpha_2 isupper es = Pass <->
  forall e c, In e es -> In c (regions e) -> isupper c = true /\ shortest_code by_2 by_3 alpha_2 [2] c.
Proof. exact (regions_test_spec entity by_2 by_3 alpha_2 isupper es). Qed.

(** A language has the same code wherever it is listed. *)
Theorem C88_one_code (entity : Type) (by_2 by_3 : str -> option entity) alpha_2 islower es c d x e e' :
  (forall c x, by_2 c = Some x -> alpha_2 x = Some c) ->
  (forall c d x, by_3 c = Some x -> by_3 d = Some x -> c = d) ->
  languages_test entity by_2 by_3 alpha_2 islower es = Pass ->
  In e es -> In e' es -> In c (languages e) -> In d (languages e') ->
  stands_for by_2 by_3 c x -> stands_for by_2 by_3 d x -> c = d.
Proof. exact (fun H2 H3 => one_code entity by_2 by_3 alpha_2 islower H2 H3 es c d x e e'). Qed.

(** The comparison with the romanization *)
Theorem C88_coverage_test roman es : coverage_test roman es = Pass <->
  forall s, In s roman <-> exists e, In e es /\ raw (letter e) = s.
Proof. exact (coverage_spec roman es). Qed.

(** Letters in both files read back as themselves. *)
Theorem C88_roundtrip ns sigma es :
  (forall r, In r nfc_ARAB -> over sigma (rhs r) = true) ->
  (forall e, In e es -> exists c, raw (letter e) = [c]) ->
  (forall e, In e es -> over sigma (raw (letter e)) = true) ->
  (forall e, In e es -> In (raw (letter e)) (map fst roman_table)) ->
  exists from to, from_arab ns nfc_ARAB roman_table sigma = Some from /\ to_arab roman_table = Some to /\
    roundtrip_test from to es = Pass.
Proof. exact (roundtrip_ok ns sigma es). Qed.

(** The shipped letters of Arabic script *)
Theorem C88_shipped set_list : (forall l, NoDup (set_list l) /\ forall y, In y (set_list l) <-> In y l) ->
  exists es, fill_letters (lookup_in letter_chars) (fun _ => false) (fun _ => true) set_list letter_prefixes letter_entries = Ok es /\
    letters_test es = Pass /\ coverage_test (map fst roman_table) es = Pass.
Proof. exact (shipped set_list). Qed.

Theorem C88_shipped_codes : forall e, In e letter_entries ->
  (languages e <> [] \/ regions e <> []) /\
  StronglySorted before (languages e) /\ StronglySorted before (regions e) /\
  (forall c, In c (languages e) -> small_letters c /\ (List.length c = 2 \/ List.length c = 3)) /\
  (forall c, In c (regions e) -> capital_letters c /\ List.length c = 2).
Proof. exact shipped_codes. Qed.

(** The message definition promises codes of three letters. *)
Theorem C88_three_letters_refuted : exists e c, In e letter_entries /\ In c (languages e) /\ List.length c <> 3.
Proof. exact three_letters_refuted. Qed.

Print Assumptions C88_fill.
Print Assumptions C88_fill_again.
Print Assumptions C88_fill_strings.
Print Assumptions C88_fill_strings_refuted.
Print Assumptions C88_letters_test.
Print Assumptions C88_languages_test.
Print Assumptions C88_regions_test.
Print Assumptions C88_one_code.
Print Assumptions C88_coverage_test.
Print Assumptions C88_roundtrip.
Print Assumptions C88_shipped.
Print Assumptions C88_shipped_codes.
Print Assumptions C88_three_letters_refuted.

(** Two letters, the first without a raw text; in the other order; and with one twice *)
Example C88_example :
  let fill := fill_letters (lookup_in [(codes "ARABIC LETTER BEH", [1576%N]); (codes "ARABIC LETTER TEH", [1578%N])])
    (fun _ => false) (fun _ => true) (fun l => l) [codes "ARABIC LETTER"] in
  let beh := entry_of ["BEH"%string] [] ["ar"%string] [] in
  let teh := entry_of ["TEH"%string] [1578%N] ["ar"%string] [] in
  let test es := match fill es with Ok es' => Some (letters_test es') | _ => None end in
  fill [beh; teh] = Ok [entry_of ["BEH"%string] [1576%N] ["ar"%string] []; teh] /\
  test [beh; teh] = Some Pass /\ test [teh; beh] = Some Fail /\ test [beh; beh] = Some Fail /\
  fill [entry_of ["BEH"%string] [1578%N] [] []] = ValueError /\
  coverage_test [[1576%N]] [teh] = Fail.
Proof. vm_compute. auto 10. Qed.
(** A language ku with a code of two letters may not be listed as kur; bal has none. *)
Example C88_example_codes :
  let test := languages_test (option str) (fun c => if str_eqb c (codes "ku") then Some (Some c) else None)
    (fun c => if str_eqb c (codes "kur") then Some (Some (codes "ku")) else if str_eqb c (codes "bal") then Some None else None)
    (fun x => x) (fun _ => true) in
  test [entry_of [] [] ["ku"%string; "bal"%string] []] = Pass /\
  test [entry_of [] [] ["kur"%string] []] = Fail /\ test [entry_of [] [] ["balu"%string] []] = Fail.
Proof. vm_compute. auto. Qed.
