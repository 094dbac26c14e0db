(** The spellings are in the target script and end in a letter or sign of it. *)
From Coq Require Import String Lia.
From Verif Require Import Base SpelloutTables SpelloutModel SpelloutSpec SpelloutProofs SpelloutDecode.
Local Open Scope list_scope.

Definition range (s : script) : N * N :=
  match s with
  | DEVA => (0x0900, 0x097F) | BENG => (0x0980, 0x09FF) | GURU => (0x0A00, 0x0A7F)
  | GUJR => (0x0A80, 0x0AFF) | ORYA => (0x0B00, 0x0B7F) | TAML => (0x0B80, 0x0BFF)
  | TELU => (0x0C00, 0x0C7F) | KNDA => (0x0C80, 0x0CFF) | MLYM => (0x0D00, 0x0D7F)
  | SINH => (0x0D80, 0x0DFF) | ARAB => (0x0600, 0x06FF)
  end%N.
Definition inb (s : script) (c : N) : bool := if (fst (range s) <=? c)%N then (c <=? snd (range s))%N else false.
Lemma inb_block s c : inb s c = true -> block s c.
Proof.
  unfold inb. destruct (N.leb_spec (fst (range s)) c) as [H|H]; [|discriminate]. intros K. apply N.leb_le in K.
  destruct s; cbn [range fst snd block] in *; lia.
Qed.
Definition joins (s : script) : bool := match s with KNDA | MLYM | TELU => true | _ => false end.
Definition markb (s : script) (c : N) : bool := match s with ARAB => N.eqb c 32 | KNDA | MLYM | TELU => N.eqb c 8204 | _ => false end.
Definition lastb (s : script) (x : str) : bool := match rev x with c :: _ => inb s c | [] => false end.
Definition nativeb (p : language * script) : bool :=
  forallb (fun c => if forallb (fun d => if inb (snd p) d then true else markb (snd p) d) (value (fst p) (snd p) c)
                    then lastb (snd p) (bare (name (fst p) (snd p) c)) else false) alphabet.
Lemma all_native : forallb nativeb lang_scripts = true.
Proof. vm_compute. reflexivity. Qed.

Lemma native_letter l s c : In (l, s) lang_scripts -> letter c ->
  (forall d, In d (value l s c) -> inb s d = true \/ markb s d = true) /\ lastb s (bare (name l s c)) = true.
Proof.
  intros Hp Hc. apply lower_letter in Hc. rewrite <- value_lower, <- name_lower by lia.
  pose proof all_native as H. rewrite forallb_forall in H. specialize (H _ Hp). unfold nativeb in H. cbn [fst snd] in H.
  rewrite forallb_forall in H. specialize (H (lower c) (proj2 (in_alphabet _) Hc)).
  destruct (forallb (fun d => if inb s d then true else markb s d) (value l s (lower c))) eqn:E; [|discriminate]. split; auto.
  rewrite forallb_forall in E. intros d Hd. specialize (E d Hd). destruct (inb s d); auto.
Qed.
Lemma written_native l s w c : In (l, s) lang_scripts -> letters w -> In c (written l s w) ->
  block s c \/ (c = 32%N /\ s = ARAB) \/ (c = 8204%N /\ In s [KNDA; MLYM; TELU]).
Proof.
  intros Hp Hw Hc. destruct (written_tail l s w Hw) as [e [_ E]].
  assert (H : In c (spelled l s w)) by (rewrite E; apply in_or_app; auto). apply in_flat_map in H. destruct H as [d [Hd H]].
  unfold letters in Hw. rewrite Forall_forall in Hw. destruct (native_letter l s d Hp (Hw d Hd)) as [K _]. destruct (K c H) as [K1|K1].
  - left. apply inb_block; auto.
  - right. destruct s; try discriminate; cbn in K1; apply N.eqb_eq in K1; cbn; tauto.
Qed.
Lemma written_ends l s w : In (l, s) lang_scripts -> letters w -> w <> [] -> exists x c, written l s w = x ++ [c] /\ block s c.
Proof.
  intros Hp Hw. induction Hw as [|c w Hc Hw IH]; [congruence|]. intros _. destruct w as [|d w].
  - destruct (native_letter l s c Hp Hc) as [_ H]. unfold lastb in H. cbn [written].
    destruct (rev (bare (name l s c))) as [|z y] eqn:E; [discriminate|]. exists (rev y), z. split; [|apply inb_block; auto].
    rewrite <- (rev_involutive (bare (name l s c))), E. reflexivity.
  - destruct (IH ltac:(discriminate)) as [x [z [E H]]]. exists (name l s c ++ between s ++ x), z. split; auto.
    change (written l s (c :: d :: w)) with (name l s c ++ between s ++ written l s (d :: w)). rewrite E, <- !app_assoc. reflexivity.
Qed.

Lemma column_unnamed l s : ~ In (l, s) lang_scripts -> column l s = ""%string.
Proof. destruct l, s; cbn; intros H; try reflexivity; exfalso; tauto. Qed.
Lemma name_unnamed l s c : ~ In (l, s) lang_scripts -> letter c -> name l s c = [lower c].
Proof.
  intros H Hc. apply lower_letter in Hc. rewrite <- name_lower by lia. unfold name. rewrite column_unnamed by auto.
  rewrite lower_lower by lia. pose proof (proj2 (in_alphabet _) Hc) as Hin.
  assert (K : forallb (fun c => match find (fun r => N.eqb (fst r) c) spellouts with
     | Some r => match find (fun k => String.eqb (fst k) ""%string) (snd r) with Some _ => false | None => true end | None => false end) alphabet = true) by (vm_compute; reflexivity).
  rewrite forallb_forall in K. specialize (K _ Hin). destruct (find _ spellouts) as [r|]; [|discriminate].
  destruct (find _ (snd r)); [discriminate|reflexivity].
Qed.
Lemma written_unnamed l s w : ~ In (l, s) lang_scripts -> s <> ARAB -> letters w -> written l s w = map lower w.
Proof.
  intros H Hs Hw. assert (Hb : between s = []) by (destruct s; auto; congruence).
  induction Hw as [|c w Hc Hw IH]; auto. destruct w as [|d w].
  - cbn [written map]. rewrite name_unnamed by auto. cbn. apply lower_letter in Hc. destruct (N.eqb_spec (lower c) 8204); auto. lia.
  - change (written l s (c :: d :: w)) with (name l s c ++ between s ++ written l s (d :: w)). rewrite IH, Hb, name_unnamed by auto. reflexivity.
Qed.
Lemma speller_unnamed t l s w o : ~ In (l, s) lang_scripts -> s <> ARAB -> In o (speller t l s w) -> o = compile t (map lower w).
Proof. intros H Hs Ho. apply speller_spec in Ho. destruct Ho as [Hw ->]. rewrite written_unnamed; auto. Qed.

Lemma speller_native l s w o : In (l, s) lang_scripts -> In o (speller Utf8 l s w) ->
  (forall c, In c o -> block s c \/ (c = 32%N /\ s = ARAB) \/ (c = 8204%N /\ In s [KNDA; MLYM; TELU])) /\
  (w <> [] -> exists x c, o = x ++ [c] /\ block s c).
Proof.
  intros Hp H. apply speller_spec in H. destruct H as [Hw ->]. split.
  - intros c. exact (written_native l s w c Hp Hw).
  - exact (written_ends l s w Hp Hw).
Qed.
