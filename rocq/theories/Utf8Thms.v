(** C31: UTF-8 splitting, decoding and encoding. *)
From Verif Require Import Base Utf8Model Utf8Spec Utf8Arith Utf8Proofs.
Local Open Scope N_scope.

(** Encoding gives the well-formed byte sequence of the standard, and throws
    exactly for what is not a Unicode scalar value. *)
Theorem C31_encode_exact : forall c bs, encode_unicode_char c = Some bs <-> encodes c bs.
Proof. exact encode_spec. Qed.
Print Assumptions C31_encode_exact.

Theorem C31_encode_throws : forall c, encode_unicode_char c = None <-> ~ scalar c.
Proof. exact encode_throws. Qed.
Print Assumptions C31_encode_throws.

Theorem C31_prefix_free : forall c d a b x y, encodes c a -> encodes d b -> a ++ x = b ++ y ->
  c = d /\ a = b /\ x = y.
Proof. exact encodes_prefix_free. Qed.
Print Assumptions C31_prefix_free.

(** Decoding the first character of well-formed text. *)
Theorem C31_decode_first : forall c cs p ps s, spells (c :: cs) (p :: ps) s ->
  decode_unicode_char s = (c, length p).
Proof. exact decode_spec. Qed.
Print Assumptions C31_decode_first.

Theorem C31_decode_invalid : forall s, ~ well_formed_utf8 s ->
  decode_unicode_char s = (0xFFFD, 1%nat) /\ str_split_by_char s = Some [].
Proof. intros s H. split; [exact (decode_invalid s H)|exact (split_invalid s H)]. Qed.
Print Assumptions C31_decode_invalid.

(** Decoding a single character succeeds exactly on the encoding of one. *)
Theorem C31_decode_single : forall c s,
  decode_single_unicode_char s = (true, c) <-> encodes c s.
Proof. intros c s. split; [exact (single_true s c)|exact (single_spec c s)]. Qed.
Print Assumptions C31_decode_single.

Theorem C31_decode_single_fails : forall s v, decode_single_unicode_char s = (false, v) ->
  v = 0xFFFD /\ ~ exists c, encodes c s.
Proof. exact single_false. Qed.
Print Assumptions C31_decode_single_fails.

(** Splitting well-formed text: one piece per code point. *)
Theorem C31_split : forall cs ps s, spells cs ps s ->
  str_split_by_char s = Some ps /\ concat ps = s /\ length ps = length cs /\
  str_split_to_unicode s = Some cs.
Proof. exact split_all. Qed.
Print Assumptions C31_split.

Theorem C31_split_never_throws : forall s, exists ps, str_split_by_char s = Some ps.
Proof. exact split_never_throws. Qed.
Print Assumptions C31_split_never_throws.

(** Every text of scalar values has an encoding. *)
Theorem C31_every_text_has_encoding : forall cs, Forall scalar cs ->
  exists ps, spells cs ps (concat ps).
Proof. exact decode_total. Qed.
Print Assumptions C31_every_text_has_encoding.

(** a, DEVANAGARI KA, U+1F600; a truncated and an overlong sequence. *)
Example C31_example :
  str_split_by_char [0x61; 0xE0; 0xA4; 0x95; 0xF0; 0x9F; 0x98; 0x80]
    = Some [[0x61]; [0xE0; 0xA4; 0x95]; [0xF0; 0x9F; 0x98; 0x80]] /\
  str_split_to_unicode [0x61; 0xE0; 0xA4; 0x95; 0xF0; 0x9F; 0x98; 0x80] = Some [0x61; 0x915; 0x1F600] /\
  decode_unicode_char [0xE0; 0xA4] = (0xFFFD, 1%nat) /\
  decode_single_unicode_char [0xC1; 0x81] = (false, 0xFFFD) /\
  encode_unicode_char 0xD800 = None /\
  ~ well_formed_utf8 [0xE0; 0xA4].
Proof.
  split; [reflexivity|]. split; [reflexivity|]. split; [reflexivity|]. split; [reflexivity|].
  split; [reflexivity|]. intros H. apply is_valid_spec in H. discriminate.
Qed.
