(** Model of nisaba/scripts/brahmic/char_util.py:55-80 (mark de-duplication) and
    of nisaba/scripts/brahmic/visual_norm.py:50-92 (core_visual_norm_fsts). *)
From Verif Require Import Base RuleModel.

(** utils/file.py:24 EMPTY: accepts nothing. *)
Definition EMPTY : fst_t := fun _ => [].

(** Left context given by one character: the output so far ends in [c]. *)
Definition ends_with (c : N) (outr : str) : bool :=
  match outr with d :: _ => N.eqb d c | [] => false end.

(** char_util.py:57-58: Rewrite(pynutil.delete(c), sigma, left=c) *)
Definition dedup_char (sigma : list N) (c : N) : fst_t :=
  rewrite_ctx [Rule [c] []] sigma (ends_with c) always.

(** char_util.py:55-59 _dedup_chars.  The iteration order of the Python set is
    the order of [chars]. *)
Definition dedup_chars (ns : fst_t -> nat) (chars : list N) (sigma : list N) : option fst_t :=
  compose_fsts compose ns EMPTY (map (dedup_char sigma) chars).

(** utils/char.py:24-26 *)
Definition ZWS : N := 8203.
Definition ZWNJ : N := 8204.
Definition ZWJ : N := 8205.

(** char_util.py:62-71 mark_chars, given the characters of the script and the
    test for general category Mn (from Unicode). *)
Definition mark_chars (chars : list N) (is_mn : N -> bool) : list N :=
  [ZWS; ZWNJ; ZWJ] ++ filter is_mn chars.

(** The preserve file maps a sequence to one generated symbol such as
    [VIRAMA,ZWNJ]; such a symbol is one label, here a number. *)
Record preserve_item := Preserve { pseq : str; psym : N }.

(** visual_norm.py:82 the two contexts: the output so far ends in a consonant,
    the remaining input starts with one. *)
Definition after_consonant (K : list str) (outr : str) : bool :=
  existsb (fun k => prefixb (rev k) outr) K.
Definition before_consonant (K : list str) (s : str) : bool :=
  existsb (fun k => prefixb k s) K.

(** visual_norm.py:79-80: the generated symbols and sigma. *)
Definition intermediate_sigma (P : list preserve_item) (sigma : list N) : list N :=
  map psym P ++ sigma.

(** visual_norm.py:82 *)
Definition mark_preserve (P : list preserve_item) (K : list str) (sigma : list N) : fst_t :=
  rewrite_ctx (map (fun p => Rule (pseq p) [psym p]) P) (intermediate_sigma P sigma)
              (after_consonant K) (before_consonant K).

(** visual_norm.py:83-84 *)
Definition clean_joiner (P : list preserve_item) (sigma : list N) : fst_t :=
  rewrite (map (fun j => Rule [j] []) [ZWNJ; ZWJ; ZWS]) (intermediate_sigma P sigma).

(** visual_norm.py:85 *)
Definition reinstate (P : list preserve_item) (sigma : list N) : fst_t :=
  rewrite (map (fun p => Rule [psym p] (pseq p)) P) (intermediate_sigma P sigma).

(** visual_norm.py:87-90 *)
Definition core_visual_norm_fsts (rewrite_fst : fst_t) (P : list preserve_item)
    (K : list str) (sigma : list N) : list fst_t :=
  [rewrite_fst; mark_preserve P K sigma; clean_joiner P sigma; reinstate P sigma;
   sigma_star sigma].

(** visual_norm.py:106-113: ComposeFsts([nfc, dedup] + core_visual_norm_fsts(..)) *)
Definition visual_norm (ns : fst_t -> nat) (nfc dedup rewrite_fst : fst_t)
    (P : list preserve_item) (K : list str) (sigma : list N) : option fst_t :=
  compose_fsts compose ns EMPTY
    ([nfc; dedup] ++ core_visual_norm_fsts rewrite_fst P K sigma).
