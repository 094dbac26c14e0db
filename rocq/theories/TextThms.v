(** C11: line normalization is wordwise.  C12: literal text. *)
From Verif Require Import Base RuleModel VisualModel ScriptData WellformedModel ScriptTables
  ByteModel TextModel TextSpec TextProofs.

(** ** C11 *)

(** The compiled class matches exactly the characters that are not ignored,
    whatever characters are in [ignore]. *)
Theorem C11_class_is_complement : forall ignore, ignore <> [] ->
  exists l, compile_class (accept_pat ignore) = Some l /\
    forall c, matched l c = true <-> ~ In c ignore.
Proof. exact class_spec. Qed.
Print Assumptions C11_class_is_complement.

Theorem C11_empty_ignore_is_error : compile_class (accept_pat []) = None.
Proof. exact compile_nothing. Qed.
Print Assumptions C11_empty_ignore_is_error.

(** Every line is cut in exactly one way. *)
Theorem C11_cut_exists : forall ignore line, exists gs, cut ignore line gs.
Proof. exact cut_exists. Qed.
Print Assumptions C11_cut_exists.

Theorem C11_cut_unique : forall ignore gs1 line gs2,
  cut ignore line gs1 -> cut ignore line gs2 -> gs1 = gs2.
Proof. exact cut_unique. Qed.
Print Assumptions C11_cut_unique.

(** The result, or the first exception, is that of the pieces. *)
Theorem C11_wordwise : forall ignore word line gs, ignore <> [] -> cut ignore line gs ->
  exists r, apply_on_line ignore word line = Some r /\
    (forall t, r = Ok t <-> replaced word gs t) /\ (forall e, r = Raise e <-> rejected word gs e).
Proof. exact wordwise. Qed.
Print Assumptions C11_wordwise.

Theorem C11_raises_iff : forall ignore word line, ignore <> [] ->
  ((exists e, apply_on_line ignore word line = Some (Raise e)) <->
   exists gs w e, cut ignore line gs /\ In (Word w) gs /\ word w = Raise e).
Proof. exact raises_iff. Qed.
Print Assumptions C11_raises_iff.

Theorem C11_only_ignored_unchanged : forall ignore word line, ignore <> [] ->
  (forall c, In c line -> In c ignore) -> apply_on_line ignore word line = Some (Ok line).
Proof. exact only_ignored. Qed.
Print Assumptions C11_only_ignored_unchanged.

(** Idempotence carries over from words to lines. *)
Theorem C11_idempotent_if_words_are : forall ignore word line t, ignore <> [] ->
  (forall w r, word w = Ok r -> r <> [] /\ (forall c, In c r -> ~ In c ignore) /\ word r = Ok r) ->
  apply_on_line ignore word line = Some (Ok t) -> apply_on_line ignore word t = Some (Ok t).
Proof. exact line_idempotent. Qed.
Print Assumptions C11_idempotent_if_words_are.

(** Ignoring space, ']' and '-'; the word function doubles words and rejects "x". *)
Example C11_example :
  cut [32; 93; 45]%N [97; 32; 93; 98; 99; 45]%N
      [Word [97]; Gap 32; Gap 93; Word [98; 99]; Gap 45]%N /\
  apply_on_line [32; 93; 45]%N example_word [97; 32; 93; 98; 99; 45]%N
    = Some (Ok [97; 97; 32; 93; 98; 99; 98; 99; 45]%N) /\
  apply_on_line [32; 93; 45]%N example_word [97; 32; 120]%N = Some (Raise IllFormedError) /\
  apply_on_line [32]%N (fun w => Ok w) [97; 32; 98]%N = Some (Ok [97; 32; 98]%N).
Proof.
  split; [|vm_compute; auto]. split; [reflexivity|]. split; [exact I|].
  repeat (apply Forall_cons; [vm_compute; intuition (subst; discriminate)|]). apply Forall_nil.
Qed.

(** ** C12 *)
Theorem C12_escaped_text_is_literal : forall generated odd s,
  compile generated odd Outside (pyn_escape s) = Some s.
Proof. exact escape_literal. Qed.
Print Assumptions C12_escaped_text_is_literal.

(** Hence ApplyOnText runs the FST on the text itself: it returns an output of
    the FST, raises FstInputError exactly if there is none, and never fails to
    compile the text. *)
Theorem C12_apply_on_text_exact : forall generated odd f s t,
  (apply_on_text generated odd f s = Ok t -> In t (f s)) /\
  (f s = [] <-> apply_on_text generated odd f s = Raise FstInputError) /\
  apply_on_text generated odd f s <> Raise FstStringCompilationError.
Proof. exact apply_literal. Qed.
Print Assumptions C12_apply_on_text_exact.

Theorem C12_accept_text_without_brackets : forall generated odd a s,
  (forall c, In c s -> ~ In c pyn_special) -> accept_text generated odd a s = Ok (a s).
Proof. exact accept_literal. Qed.
Print Assumptions C12_accept_text_without_brackets.

Theorem C12_accept_text_literal_refuted : forall generated odd, exists a s,
  a s = false /\ accept_text generated odd a s = Ok true.
Proof. exact accept_not_literal. Qed.
Print Assumptions C12_accept_text_literal_refuted.

Theorem C12_accept_text_total_refuted : forall generated odd, exists s, forall a,
  accept_text generated odd a s = Raise FstStringCompilationError.
Proof. exact accept_raises. Qed.
Print Assumptions C12_accept_text_total_refuted.

(** A word returned by the Brahmic normalizer is an output of the visual
    normalizer and well-formed, if it has no brackets or backslashes; *)
Theorem C12_returned_word_well_formed : forall generated odd f a w t,
  brahmic_word generated odd f a w = Ok t -> (forall c, In c t -> ~ In c pyn_special) ->
  In t (f w) /\ a t = true.
Proof. exact word_well_formed. Qed.
Print Assumptions C12_returned_word_well_formed.

Theorem C12_word_errors : forall generated odd f a w e, brahmic_word generated odd f a w = Raise e ->
  (forall t, In t (f w) -> forall c, In c t -> ~ In c pyn_special) ->
  (e = FstInputError /\ f w = []) \/ (e = IllFormedError /\ exists t, In t (f w) /\ a t = false).
Proof. exact word_error. Qed.
Print Assumptions C12_word_errors.

(** with brackets it need not be. *)
Theorem C12_returned_word_well_formed_refuted : forall generated odd,
  exists d ns is_mn f w, In d all_scripts /\ byte_script_visual_norm ns is_mn d = Some f /\
    well_formed (byte_data d) w = false /\
    brahmic_word generated odd f (well_formed (byte_data d)) w = Ok w.
Proof. exact bracket_accepted. Qed.
Print Assumptions C12_returned_word_well_formed_refuted.

(** The Abjad / Alphabet normalizer: visual normalization of the NFC form. *)
Theorem C12_abjad_word : forall generated odd nfc visual w,
  (forall t, abjad_word generated odd nfc visual w = Ok t -> exists n, In n (nfc w) /\ In t (visual n)) /\
  (forall e, abjad_word generated odd nfc visual w = Raise e ->
     e = FstInputError /\ (nfc w = [] \/ exists n, In n (nfc w) /\ visual n = [])) /\
  (forall n t, nfc w = [n] -> visual n = [t] -> abjad_word generated odd nfc visual w = Ok t).
Proof. exact abjad_word_spec. Qed.
Print Assumptions C12_abjad_word.

Example C12_example_abjad : forall generated odd,
  abjad_word generated odd (fun s => [s ++ [91%N]]) (fun s => if Nat.eqb (length s) 2 then [rev s] else []) [97%N] = Ok [91; 97]%N /\
  abjad_word generated odd (fun s => [s ++ [91%N]]) (fun s => if Nat.eqb (length s) 2 then [rev s] else []) [97; 98]%N = Raise FstInputError.
Proof. intros; vm_compute; auto. Qed.

(** "a[]\b" *)
Example C12_example : forall generated odd,
  pyn_escape [97; 91; 93; 92; 98]%N = [97; 92; 91; 92; 93; 92; 92; 98]%N /\
  compile generated odd Outside [97; 92; 91; 92; 93; 92; 92; 98]%N = Some [97; 91; 93; 92; 98]%N /\
  compile generated odd Outside [97; 91; 57; 56; 93]%N = Some [97; 98]%N.
Proof. intros; vm_compute; auto. Qed.
