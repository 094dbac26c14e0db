(** A spelling can be read back: no spelling is that of another word, except for letters with
    the same name (the test of Sardinas and Patterson, with one separator dropped at the end). *)
From Coq Require Import String Lia.
From Verif Require Import Base RuleModel IsoModel ByteModel ByteProofs SpelloutTables SpelloutModel SpelloutSpec SpelloutProofs UniqueDecode.
Local Open Scope list_scope.

(** * The spellings *)
Definition mark (s : script) : N := match s with ARAB => SPACE | _ => ZWNJ end.
Lemma all_decodable : forall l s, decodableb N N.eqb (map (value l s) alphabet) [mark s] = true.
Proof. apply every_pair. vm_compute. reflexivity. Qed.

Definition codes (p : string * string) : N * N := (letter_code (fst p), letter_code (snd p)).
Definition alikeb (l : language) (s : script) (c d : N) : bool :=
  if N.eqb c d then true else
  existsb (fun p => if N.eqb c (fst (codes p)) then N.eqb d (snd (codes p)) else if N.eqb d (fst (codes p)) then N.eqb c (snd (codes p)) else false) (same_names l s).
Lemma all_names : forall l s, forallb (fun c => forallb (fun d => Bool.eqb (str_eqb (value l s c) (value l s d)) (alikeb l s c d)) alphabet) alphabet = true.
Proof. apply every_pair. vm_compute. reflexivity. Qed.

Definition letter (c : N) : Prop := (97 <= c <= 122 \/ 65 <= c <= 90)%N.
Lemma alikeb_alike l s c d : alikeb l s (lower c) (lower d) = true <-> alike l s c d.
Proof.
  unfold alikeb, alike. destruct (N.eqb_spec (lower c) (lower d)) as [E|E]; [tauto|]. rewrite existsb_exists. split.
  - intros [p [Hp H]]. right. exists p. split; auto. unfold codes in H. cbn [fst snd] in H.
    destruct (N.eqb_spec (lower c) (letter_code (fst p))).
    + apply N.eqb_eq in H. tauto.
    + destruct (N.eqb_spec (lower d) (letter_code (fst p))); [|discriminate]. apply N.eqb_eq in H. tauto.
  - intros [H|[p [Hp H]]]; [contradiction|]. exists p. split; auto. unfold codes. cbn [fst snd].
    destruct (N.eqb_spec (lower c) (letter_code (fst p))).
    + destruct H as [[_ H]|[H1 H2]]; [apply N.eqb_eq; auto|]. exfalso. congruence.
    + destruct H as [[H _]|[H1 H2]]; [contradiction|]. destruct (N.eqb_spec (lower d) (letter_code (fst p))); [|contradiction]. apply N.eqb_eq; auto.
Qed.
Lemma value_alike l s c d : letter c -> letter d -> (value l s c = value l s d <-> alike l s c d).
Proof.
  intros Hc Hd. apply lower_letter in Hc, Hd. rewrite <- (value_lower l s c), <- (value_lower l s d) by lia. rewrite <- alikeb_alike.
  pose proof (all_names l s) as H. rewrite forallb_forall in H. specialize (H (lower c) (proj2 (in_alphabet _) Hc)).
  rewrite forallb_forall in H. specialize (H (lower d) (proj2 (in_alphabet _) Hd)). apply Bool.eqb_prop in H. rewrite <- H. symmetry. apply str_eqb_eq.
Qed.

Lemma strip_tail_ok k x : exists e, tail_ok N [k] e /\ x = strip [k] x ++ e.
Proof.
  destruct x as [|c x _] using rev_ind.
  - exists []. split; [left; auto|]. reflexivity.
  - destruct (N.eq_dec c k) as [->|H].
    + exists [k]. split; [right; auto|]. rewrite strip_app. reflexivity.
    + exists []. split; [left; auto|]. rewrite strip_none; [rewrite app_nil_r; auto|]. intros y E. apply app_inj_tail in E. destruct E. congruence.
Qed.
Lemma written_tail l s w : letters w -> exists e, tail_ok N [mark s] e /\ spelled l s w = written l s w ++ e.
Proof.
  intros Hw. rewrite <- (spelled_written l s w Hw). destruct s; cbn [separator mark];
  try apply strip_tail_ok; (exists []; split; [left; auto|rewrite app_nil_r; auto]).
Qed.
Lemma spelled_concat l s w : spelled l s w = concat (map (value l s) w).
Proof. unfold spelled. apply flat_map_concat_map. Qed.
Lemma code_incl l s w : letters w -> incl (map (value l s) w) (map (value l s) alphabet).
Proof.
  intros Hw x Hx. apply in_map_iff in Hx. destruct Hx as [c [<- Hc]]. unfold letters in Hw. rewrite Forall_forall in Hw. apply Hw in Hc.
  apply lower_letter in Hc. rewrite <- value_lower by lia. apply in_map. apply in_alphabet. auto.
Qed.
Lemma map_alike l s w : forall w', letters w -> letters w' -> (map (value l s) w = map (value l s) w' <-> Forall2 (alike l s) w w').
Proof.
  induction w as [|c w IH]; intros [|d w'] Hw Hw'; cbn; split; intros H; try discriminate; try (inversion H; fail); auto.
  - inversion Hw; inversion Hw'; subst. injection H as K1 K2. constructor; [apply value_alike; auto|apply IH; auto].
  - inversion Hw; inversion Hw'; inversion H; subst. f_equal; [apply value_alike; auto|apply IH; auto].
Qed.
Lemma written_map l s w : letters w -> forall w', letters w' -> map (value l s) w = map (value l s) w' -> written l s w = written l s w'.
Proof.
  intros Hw w' Hw' H. rewrite <- !spelled_written by auto. rewrite !spelled_concat, H. reflexivity.
Qed.
Lemma written_alike l s w w' : letters w -> letters w' -> (written l s w = written l s w' <-> Forall2 (alike l s) w w').
Proof.
  intros Hw Hw'. rewrite <- map_alike by auto. split; [|apply written_map; auto]. intros E.
  destruct (written_tail l s w Hw) as [e [He E1]]. destruct (written_tail l s w' Hw') as [f [Hf E2]]. rewrite E in E1.
  pose proof (decodableb_ok N N.eqb N.eqb_eq _ _ (all_decodable l s) (map (value l s) w) (map (value l s) w')) as K.
  rewrite <- !spelled_concat in K. rewrite E1, E2 in K. apply (K f e) in Hf; auto using code_incl.
  rewrite <- !app_assoc. f_equal. destruct He as [->| ->]; destruct Hf as [->| ->]; reflexivity.
Qed.

Lemma written_good l s w : letters w -> good (written l s w).
Proof.
  intros Hw. destruct (written_tail l s w Hw) as [e [_ E]]. pose proof (spelled_good l s w Hw) as H. rewrite E in H. apply good_app in H. apply H.
Qed.
Lemma compile_inj t a b : good a -> good b -> compile t a = compile t b -> a = b.
Proof. destruct t; auto. apply bytes_inj. Qed.
Lemma speller_injective t l s w w' o : letters w -> letters w' -> In o (speller t l s w) ->
  (In o (speller t l s w') <-> Forall2 (alike l s) w w').
Proof.
  intros Hw Hw' H. apply speller_spec in H. destruct H as [_ ->]. rewrite speller_spec, <- written_alike by auto. split.
  - intros [_ E]. apply compile_inj in E; auto using written_good.
  - intros ->. auto.
Qed.
