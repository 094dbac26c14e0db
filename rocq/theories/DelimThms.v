(** C32: splitting on white space. *)
From Verif Require Import Base Utf8Model Utf8Spec DelimModel DelimSpec DelimProofs.

(** Well-formed text is split into the encodings of its words. *)
Theorem C32_split_into_words : forall cs s, encoding cs s ->
  exists l ts, words_of white_space cs l /\ split_whitespace s = Got ts /\ Forall2 encoding l ts.
Proof. exact split_words. Qed.
Print Assumptions C32_split_into_words.

(** A text has only one list of words. *)
Theorem C32_words_unique : forall ws text a b, words_of ws text a -> words_of ws text b -> a = b.
Proof. exact words_unique. Qed.
Print Assumptions C32_words_unique.

(** Only white space is lost. *)
Theorem C32_only_white_space_lost : forall cs s ts (f : N -> bool),
  (forall c, f c = true <-> ~ white_space c) -> encoding cs s -> split_whitespace s = Got ts ->
  encoding (filter f cs) (concat ts).
Proof. exact split_content. Qed.
Print Assumptions C32_only_white_space_lost.

(** Malformed text, and only that, makes the splitter throw. *)
Theorem C32_malformed_throws : forall s, ~ well_formed_utf8 s <-> split_whitespace s = Throws.
Proof. exact split_malformed. Qed.
Print Assumptions C32_malformed_throws.

Theorem C32_delimiter_set : forall c, In c kBreakingWhitespace <-> white_space c.
Proof. exact breaking_white_space. Qed.
Print Assumptions C32_delimiter_set.

Theorem C32_all_whitespace_is_union : exists l, GetAllWhitespaceChars = Some l /\ NoDup l /\
  forall c, In c l <-> In c kBreakingWhitespace \/ In c kNonBreakingWhitespace.
Proof. exact all_whitespace. Qed.
Print Assumptions C32_all_whitespace_is_union.

(** " क<U+3000>ख<LF><LF>a<NBSP>": three words.  A lone trail byte throws. *)
Example C32_example :
  split_whitespace ([32; 0xE0; 0xA4; 0x95; 0xE3; 0x80; 0x80; 0xE0; 0xA4; 0x96; 10; 10; 97; 0xC2; 0xA0])%N =
    Got [[0xE0; 0xA4; 0x95]; [0xE0; 0xA4; 0x96]; [97]]%N /\
  split_whitespace [97; 32; 0x80]%N = Throws /\ split_whitespace [] = Got [] /\
  words_of white_space [32; 0x915; 0x3000; 97; 10]%N [[0x915]; [97]]%N.
Proof.
  split; [vm_compute; reflexivity|]. split; [vm_compute; reflexivity|]. split; [reflexivity|].
  unfold white_space, Utf8Spec.in_range.
  apply (words_cons _ [32%N] [0x915%N] [0x3000%N; 97%N; 10%N]).
  - constructor; [lia|constructor].
  - discriminate.
  - constructor; [lia|constructor].
  - right. exists 0x3000%N, [97%N; 10%N]. split; [reflexivity|lia].
  - apply (words_cons _ [0x3000%N] [97%N] [10%N]).
    + constructor; [lia|constructor].
    + discriminate.
    + constructor; [lia|constructor].
    + right. exists 10%N, []. split; [reflexivity|lia].
    + apply words_none. constructor; [lia|constructor].
Qed.
