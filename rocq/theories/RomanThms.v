(** C13: reversible romanization of Arabic script. *)
From Verif Require Import Base RuleModel NfcTables RomanModel RomanSpec RomanTables CodeCheck
  Utf8Model ByteModel RomanProofs.

(** The closure of a string map lists exactly the translations. *)
Theorem C13_closure_exact : forall tbl f, star_fst tbl = Some f ->
  forall s t, In t (f s) <-> translates tbl s t.
Proof. exact closure_exact. Qed.
Print Assumptions C13_closure_exact.

(** The test used below is sound for every finite code. *)
Theorem C13_code_test_sound : forall fuel code, ud_check fuel code = true -> uniquely_decodable code.
Proof. exact ud_check_sound. Qed.
Print Assumptions C13_code_test_sound.

Theorem C13_romanization_injective : forall s s' r,
  translates roman_table s r -> translates roman_table s' r -> s = s'.
Proof. exact roman_injective. Qed.
Print Assumptions C13_romanization_injective.

Theorem C13_romanization_functional : forall s r r',
  translates roman_table s r -> translates roman_table s r' -> r = r'.
Proof. exact roman_functional. Qed.
Print Assumptions C13_romanization_functional.

(** The same for the byte grammars. *)
Theorem C13_bytes_reversible : forall s r,
  (forall s', translates (byte_table roman_table) s r -> translates (byte_table roman_table) s' r -> s = s') /\
  (forall r', translates (byte_table roman_table) s r -> translates (byte_table roman_table) s r' -> r = r').
Proof. exact roman_bytes_reversible. Qed.
Print Assumptions C13_bytes_reversible.

(** Romanizing is defined on native text, has one result, and reading that back
    gives the NFC form and nothing else; every Roman string has at most one
    reading. *)
Theorem C13_round_trip : forall ns sigma, (forall r, In r nfc_ARAB -> over sigma (rhs r) = true) ->
  exists nfc f g, fst_from_rules ns nfc_ARAB sigma = Some nfc /\
    from_arab ns nfc_ARAB roman_table sigma = Some f /\ to_arab roman_table = Some g /\
    (forall s, over sigma s = true -> native roman_table s ->
       exists n r, nfc s = [n] /\ In r (f s) /\ In n (g r)) /\
    (forall s r, In r (f s) -> exists n, nfc s = [n] /\
       (forall r', In r' (f s) -> r' = r) /\ (forall n', In n' (g r) <-> n' = n)) /\
    (forall r n n', In n (g r) -> In n' (g r) -> n = n') /\
    (forall r n, In n (g r) -> native roman_table n).
Proof. exact round_trip. Qed.
Print Assumptions C13_round_trip.

(** The Python API puts FROM_ARAB into an obligatory rewrite: the right result
    is among its outputs, and text without romanizable characters is passed on. *)
Theorem C13_api_can_round_trip : forall ns sigma, (forall r, In r nfc_ARAB -> over sigma (rhs r) = true) ->
  exists nfc f g, fst_from_rules ns nfc_ARAB sigma = Some nfc /\
    from_arab ns nfc_ARAB roman_table sigma = Some f /\ to_arab roman_table = Some g /\
    forall s, over sigma s = true -> native roman_table s ->
      exists n r, nfc s = [n] /\ In r (to_reversible_roman f s) /\ In n (g r).
Proof. exact api_keeps_round_trip. Qed.
Print Assumptions C13_api_can_round_trip.

Theorem C13_api_passes_foreign_text : forall ns sigma,
  (forall r, In r nfc_ARAB -> over sigma (rhs r) = true) ->
  exists f, from_arab ns nfc_ARAB roman_table sigma = Some f /\
    forall s, (forall c, In c s -> ~ In [c] (map fst roman_table)) -> to_reversible_roman f s = [s].
Proof. exact api_passes_foreign. Qed.
Print Assumptions C13_api_passes_foreign_text.

(** It is not functional: a text may also be romanized in pieces, without NFC
    across the pieces, and then reads back as the unnormalized text. *)
Theorem C13_api_functional_refuted : exists f g s r1 r2,
  from_arab (fun _ => 1) nfc_ARAB roman_table native_chars = Some f /\ to_arab roman_table = Some g /\
  f s = [r1] /\ In r1 (to_reversible_roman f s) /\ In r2 (to_reversible_roman f s) /\ r1 <> r2 /\
  g r2 = [s] /\ g r1 <> [s].
Proof. exact api_ambiguous. Qed.
Print Assumptions C13_api_functional_refuted.

(** The example of api_test.py:33-34 with the alef written as two characters:
    alef, madda, beh is romanized as alef with madda, beh. *)
Example C13_example :
  match from_arab (fun _ => 1) nfc_ARAB roman_table native_chars, to_arab roman_table with
  | Some f, Some g => f [1575; 1619; 1576]%N = [[700; 863; 257; 98]%N] /\
                      g [700; 863; 257; 98]%N = [[1570; 1576]%N]
  | _, _ => False
  end.
Proof. vm_compute. auto. Qed.

(** Hypotheses: the native alphabet can be taken as sigma. *)
Example C13_example_sigma :
  forallb (fun r => over native_chars (rhs r)) nfc_ARAB = true /\ over native_chars [1575; 1619; 1576]%N = true.
Proof. vm_compute. auto. Qed.

(** {a, ab, ba} is not a code: aba = a.ba = ab.a; {a, ab, bb} is one, although a
    is a prefix of ab. *)
Example C13_example_codes :
  ud_check 4 [[1]; [1; 2]; [2; 1]]%N = false /\ ud_check 4 [[1]; [1; 2]; [2; 2]]%N = true.
Proof. vm_compute. auto. Qed.
