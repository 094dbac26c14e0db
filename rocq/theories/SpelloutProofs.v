(** The spelling of a word is the names of its letters; it can be read back. *)
From Coq Require Import String Lia.
From Verif Require Import Base RuleModel RewriteProofs IsoModel IsoSpec IsoProofs Utf8Model Utf8Spec ByteModel ByteProofs SpelloutTables SpelloutModel SpelloutSpec.
Local Open Scope list_scope.
Arguments compile : simpl never.

(** * Closures of string pairs *)
Lemma star_pairs_ok l : (forall p, In p l -> fst p <> []) -> star_ok (WStar (WPairs l)) = true.
Proof.
  intros H. cbn. rewrite andb_true_r. apply negb_true_iff. induction l as [|[i o] l IH]; auto.
  cbn. destruct i; [exfalso; apply (H ([], o)); cbn; auto|]. cbn. apply IH. intros p Hp. apply H. cbn; auto.
Qed.

Lemma star_chars l x o w : (forall p, In p l -> exists c, fst p = [c]) -> rel (WStar (WPairs l)) x o w ->
  exists vs, Forall2 (fun c v => In ([c], v) l) x vs /\ o = concat vs.
Proof.
  intros Hl H. remember (WStar (WPairs l)) as r eqn:E. induction H; try discriminate.
  - exists []. split; [constructor|reflexivity].
  - injection E as ->. inversion H; subst. destruct (IHrel2 eq_refl) as [vs [H1 ->]].
    destruct (Hl _ ltac:(eassumption)) as [c Hc]. cbn in Hc. subst i. exists (o :: vs). split; [constructor; auto|reflexivity].
Qed.
Lemma chars_star l x vs : Forall2 (fun c v => In ([c], v) l) x vs -> rel (WStar (WPairs l)) x (concat vs) 0.
Proof.
  induction 1 as [|c v x vs H _ IH]; [constructor|]. cbn.
  change (c :: x) with ([c] ++ x). apply (R_more (WPairs l) [c] v 0%N x (concat vs) 0%N); auto. constructor; auto.
Qed.
Lemma star_same l x o w : (forall p, In p l -> fst p = snd p) -> rel (WStar (WPairs l)) x o w -> o = x.
Proof.
  intros Hl H. remember (WStar (WPairs l)) as r eqn:E. induction H; try discriminate; auto.
  injection E as ->. inversion H; subst. rewrite (IHrel2 eq_refl). match goal with K : In (i, o) l |- _ => apply Hl in K; cbn in K; subst end. reflexivity.
Qed.
Lemma same_star (e : N -> str) (sigma s : list N) : (forall c, In c s -> In c sigma) ->
  rel (WStar (WPairs (map (fun c => (e c, e c)) sigma))) (flat_map e s) (flat_map e s) 0.
Proof.
  induction s as [|c s IH]; intros H; [constructor|]. cbn [flat_map].
  apply (R_more (WPairs _) (e c) (e c) 0%N (flat_map e s) (flat_map e s) 0%N).
  - constructor. apply in_map_iff. exists c. split; auto. apply H. left; auto.
  - apply IH. intros d Hd. apply H. right; auto.
Qed.

(** * Deletion at the end *)
Fixpoint strip (sep s : str) : str :=
  if str_eqb s sep then [] else match s with [] => [] | c :: r => c :: strip sep r end.
Lemma strip_eq sep s : strip sep s = if str_eqb s sep then [] else match s with [] => [] | c :: r => c :: strip sep r end.
Proof. destruct s; reflexivity. Qed.
Lemma strip_app sep y : strip sep (y ++ sep) = y.
Proof.
  induction y as [|c y IH]; rewrite strip_eq.
  - cbn. assert (E : str_eqb sep sep = true) by (apply str_eqb_eq; auto). rewrite E. reflexivity.
  - destruct (str_eqb ((c :: y) ++ sep) sep) eqn:E.
    + apply str_eqb_eq in E. apply (f_equal (@List.length N)) in E. rewrite app_length in E. cbn in E. lia.
    + cbn [app]. rewrite IH. reflexivity.
Qed.
Lemma strip_none sep s : (forall y, s <> y ++ sep) -> strip sep s = s.
Proof.
  induction s as [|c s IH]; intros H; rewrite strip_eq.
  - destruct (str_eqb [] sep); reflexivity.
  - destruct (str_eqb (c :: s) sep) eqn:E.
    + apply str_eqb_eq in E. exfalso. apply (H []). exact E.
    + f_equal. apply IH. intros y ->. apply (H (c :: y)). reflexivity.
Qed.

Lemma exactly sep s : prefixb sep s && at_end (skipn (length sep) s) = str_eqb s sep.
Proof.
  destruct (str_eqb s sep) eqn:E.
  - apply str_eqb_eq in E. subst s. rewrite skipn_all. apply andb_true_iff. split; auto. apply prefixb_spec. exists []. symmetry. apply app_nil_r.
  - apply not_true_iff_false. intros H. apply andb_true_iff in H. destruct H as [H1 H2].
    apply prefixb_spec in H1. destruct H1 as [t ->]. rewrite skipn_app, skipn_all, Nat.sub_diag in H2. cbn in H2.
    destruct t; [|discriminate]. apply str_eqb_neq in E. apply E. rewrite app_nil_r. reflexivity.
Qed.
Lemma scan_final sep s : forall outr, sep <> [] -> scan [Rule sep []] always at_end outr 0 s = [rev outr ++ strip sep s].
Proof.
  induction s as [|c s IH]; intros outr Hs.
  - cbn [scan]. rewrite strip_eq. destruct (str_eqb [] sep); rewrite app_nil_r; reflexivity.
  - cbn [scan]. unfold applicable. cbn [filter lhs]. rewrite exactly. rewrite strip_eq.
    destruct (str_eqb (c :: s) sep) eqn:E.
    + apply str_eqb_eq in E. cbn. rewrite scan_skip. subst sep. cbn. rewrite Nat.sub_0_r, skipn_all. cbn. rewrite app_nil_r. reflexivity.
    + rewrite IH; auto. cbn [rev]. rewrite <- app_assoc. reflexivity.
Qed.

Lemma strip_bytes sep x : good_char sep -> good x -> strip (bytes [sep]) (bytes x) = bytes (strip [sep] x).
Proof.
  intros Hsep Hx. assert (Hg : good [sep]) by (apply good_cons; split; auto; constructor).
  destruct x as [|c x] using rev_ind.
  - rewrite (strip_none [sep] []) by (intros [|? ?]; discriminate). apply strip_none. intros y E. change (bytes []) with (@nil N) in E. symmetry in E. apply app_eq_nil in E. destruct E as [_ E]. exact (bytes_length_pos [sep] Hg ltac:(discriminate) E).
  - destruct (N.eq_dec c sep) as [->|Hc].
    + rewrite bytes_app, !strip_app. reflexivity.
    + rewrite strip_none; [rewrite strip_none; auto|].
      * intros y E. apply app_inj_tail in E. destruct E as [_ E]. congruence.
      * intros y E. destruct (bytes_split (x ++ [c]) y [sep] [] Hx Hg ltac:(discriminate)) as [a' [b' [E1 [E2 E3]]]].
        { rewrite app_nil_r. exact E. }
        assert (b' = []).
        { destruct b'; auto. exfalso. apply (bytes_length_pos (n :: b')); [|discriminate|auto].
          rewrite E1 in Hx. apply good_app in Hx. destruct Hx as [_ Hx]. apply good_app in Hx. apply Hx. }
        subst b'. rewrite app_nil_r in E1. apply app_inj_tail in E1. destruct E1 as [_ E1]. congruence.
Qed.

(** * Names and rows *)
Definition value (l : language) (s : script) (c : N) : str := name l s c ++ between s.
Definition rows (l : language) (s : script) : list (N * str) := map (fun letter => (fst letter, get_spellout letter l s)) spellouts.

Definition langs : list language := [BN; GU; HI; KN; ML; MR; OR; PA; SD; SI; TA; TE; UR].
Definition scripts : list script := [BENG; DEVA; GUJR; GURU; ORYA; SINH; KNDA; MLYM; TAML; TELU; ARAB].
Lemma every_pair (P : language -> script -> bool) : forallb (fun l => forallb (P l) scripts) langs = true -> forall l s, P l s = true.
Proof.
  intros H l s. rewrite forallb_forall in H. assert (Hl : In l langs) by (destruct l; cbn; tauto).
  specialize (H l Hl). rewrite forallb_forall in H. apply H. destruct s; cbn; tauto.
Qed.
Definition alphabet : list N := map N.of_nat (seq 97 26).
Lemma in_alphabet c : In c alphabet <-> (97 <= c <= 122)%N.
Proof.
  unfold alphabet. rewrite in_map_iff. split.
  - intros [n [<- Hn]]. apply in_seq in Hn. lia.
  - intros H. exists (N.to_nat c). split; [lia|]. apply in_seq. lia.
Qed.

Lemma rows_values l s : rows l s = map (fun c => (c, value l s c)) alphabet.
Proof. destruct l, s; vm_compute; reflexivity. Qed.

Lemma lower_letter c : (97 <= c <= 122 \/ 65 <= c <= 90)%N -> (97 <= lower c <= 122)%N.
Proof. unfold lower. destruct (N.leb_spec c 90); lia. Qed.
Lemma lower_lower c : (97 <= c)%N -> lower c = c.
Proof. unfold lower. destruct (N.leb_spec c 90); lia. Qed.
Lemma lower_upper c : (97 <= c <= 122)%N -> lower (upper c) = c.
Proof. unfold lower, upper. destruct (N.leb_spec (c - 32) 90); lia. Qed.
Lemma name_lower l s c : (97 <= lower c)%N -> name l s (lower c) = name l s c.
Proof. intros H. unfold name. rewrite (lower_lower (lower c)) by auto. reflexivity. Qed.
Lemma value_lower l s c : (97 <= lower c)%N -> value l s (lower c) = value l s c.
Proof. intros H. unfold value. rewrite name_lower; auto. Qed.

(** * The letters one after the other *)
Definition pairs (t : token_type) (l : language) (s : script) : list (str * str) :=
  flat_map (fun r => [(compile t [fst r], compile t (snd r)); (compile t [upper (fst r)], compile t (snd r))]) (rows l s).
Lemma ascii_compile t c : (97 <= c <= 122 \/ 65 <= c <= 90)%N -> compile t [c] = [c].
Proof.
  intros H. destruct t; auto. unfold compile, bytes. cbn [flat_map]. unfold labels, append, valid_cp.
  assert (E1 : (c <=? 1114111)%N = true) by (apply N.leb_le; lia).
  assert (E2 : (55296 <=? c)%N = false) by (apply N.leb_gt; lia).
  assert (E3 : (c <? 128)%N = true) by (apply N.ltb_lt; lia).
  rewrite E1, E2, E3. reflexivity.
Qed.
Lemma in_pairs t l s p : In p (pairs t l s) <-> exists c, (97 <= c <= 122 \/ 65 <= c <= 90)%N /\ p = ([c], compile t (value l s c)).
Proof.
  unfold pairs. rewrite rows_values, in_flat_map. split.
  - intros [r [Hr Hp]]. apply in_map_iff in Hr. destruct Hr as [c [<- Hc]]. apply in_alphabet in Hc. cbn in Hp.
    destruct Hp as [<-|[<-|[]]].
    + exists c. split; [lia|]. rewrite ascii_compile by lia. reflexivity.
    + exists (upper c). rewrite ascii_compile by (unfold upper; lia). split; [unfold upper; lia|].
      rewrite <- (value_lower l s (upper c)) by (rewrite lower_upper; lia). rewrite lower_upper by auto. reflexivity.
  - intros [c [Hc ->]]. exists (lower c, value l s (lower c)). pose proof (lower_letter c Hc) as Hl. split.
    + apply in_map_iff. exists (lower c). split; auto. apply in_alphabet. auto.
    + cbn [fst snd]. rewrite value_lower by lia. destruct Hc as [Hc|Hc].
      * left. rewrite lower_lower by lia. rewrite ascii_compile by lia. reflexivity.
      * right. left. unfold lower, upper. destruct (N.leb_spec c 90); [|lia]. replace (c + 32 - 32)%N with c by lia.
        rewrite ascii_compile by lia. reflexivity.
Qed.
Definition letter_fst (t : token_type) (l : language) (s : script) : fst_t := fun x => map fst (outs (WStar (WPairs (pairs t l s))) x).
Definition compiled (t : token_type) (s : str) : str := compile t s.
Lemma compile_app t a b : compile t (a ++ b) = compile t a ++ compile t b.
Proof. destruct t; auto. apply bytes_app. Qed.
Lemma compile_nil t : compile t [] = [].
Proof. destruct t; reflexivity. Qed.
Definition spelled (l : language) (s : script) (w : str) : str := flat_map (value l s) w.

Lemma letter_fst_spec t l s w o : In o (letter_fst t l s w) <-> letters w /\ o = compile t (spelled l s w).
Proof.
  unfold letter_fst. rewrite in_map_iff.
  assert (Hone : forall p, In p (pairs t l s) -> exists c, fst p = [c]).
  { intros p Hp. apply in_pairs in Hp. destruct Hp as [c [_ ->]]. exists c; auto. }
  assert (Hok : star_ok (WStar (WPairs (pairs t l s))) = true).
  { apply star_pairs_ok. intros p Hp. destruct (Hone p Hp) as [c Hc]. destruct p; cbn in *; subst; discriminate. }
  split.
  - intros [[o' n] [E H]]. cbn in E. subst o'. apply (outs_rel _ _ _ _ Hok) in H.
    apply star_chars in H; auto. destruct H as [vs [H ->]]. clear -H. induction H as [|c v w vs H _ [IH1 IH2]].
    + split; [constructor|]. rewrite compile_nil. reflexivity.
    + apply in_pairs in H. destruct H as [d [Hd E]]. injection E as <- ->. split; [constructor; auto|].
      cbn. rewrite compile_app. f_equal. exact IH2.
  - intros [Hw ->]. exists (compile t (spelled l s w), 0%N). split; auto. apply (outs_rel _ _ _ _ Hok).
    replace (compile t (spelled l s w)) with (concat (map (fun c => compile t (value l s c)) w)).
    + apply chars_star. induction Hw as [|c w Hc _ IH]; constructor; auto. apply in_pairs. exists c; auto.
    + clear. induction w as [|c w IH]; cbn; [rewrite compile_nil; auto|]. rewrite IH, compile_app. reflexivity.
Qed.

(** * Characters of the names *)
Definition plainb (c : N) : bool := if (1 <=? c)%N then (c <? 55296)%N else false.
Definition goodb (l : language) (s : script) : bool := forallb (fun c => forallb plainb (value l s c)) alphabet.
Lemma all_good : forall l s, goodb l s = true.
Proof. apply every_pair. vm_compute. reflexivity. Qed.
Lemma plainb_good c : plainb c = true -> good_char c.
Proof.
  unfold plainb, good_char. destruct (N.leb_spec 1 c); [|discriminate]. intros H1. apply N.ltb_lt in H1. left. split; [|lia].
  unfold scalar. lia.
Qed.
Lemma value_good l s c : (97 <= c <= 122 \/ 65 <= c <= 90)%N -> good (value l s c).
Proof.
  intros Hc. pose proof (lower_letter c Hc) as Hl. rewrite <- value_lower by lia. pose proof (all_good l s) as H. unfold goodb in H.
  rewrite forallb_forall in H. specialize (H (lower c) (proj2 (in_alphabet _) Hl)). rewrite forallb_forall in H.
  apply Forall_forall. intros d Hd. apply plainb_good. auto.
Qed.
Lemma spelled_good l s w : letters w -> good (spelled l s w).
Proof.
  induction 1 as [|c w Hc _ IH]; [constructor|]. cbn. apply good_app. split; auto. apply value_good; auto.
Qed.

(** * The last separator *)
Definition separator (s : script) : option N := match s with ARAB => Some SPACE | KNDA | MLYM | TELU => Some ZWNJ | _ => None end.
Lemma speller_eq t l s : speller t l s = match separator s with Some k => separated t (letter_fst t l s) (rows l s) k | None => letter_fst t l s end.
Proof. destruct s; reflexivity. Qed.
Lemma separator_good s k : separator s = Some k -> good_char k.
Proof. destruct s; cbn; intros E; inversion E; subst; left; split; try lia; unfold scalar, SPACE, ZWNJ; lia. Qed.

Lemma separated_spec t l s k w o : good_char k -> In o (separated t (letter_fst t l s) (rows l s) k w) <-> letters w /\ o = compile t (strip [k] (spelled l s w)).
Proof.
  intros Hk. unfold separated, compose. rewrite in_flat_map.
  set (sigma := nodup N.eq_dec (flat_map snd (rows l s))).
  assert (Hne : forall c, good_char c -> compile t [c] <> []).
  { intros c Hc. destruct t; [discriminate|]. apply bytes_length_pos; [|discriminate]. apply good_cons; split; auto; constructor. }
  assert (Hchar : forall c, In c sigma -> good_char c).
  { intros c Hc. apply nodup_In in Hc. apply in_flat_map in Hc. destruct Hc as [r [Hr Hc]]. rewrite rows_values in Hr.
    apply in_map_iff in Hr. destruct Hr as [d [<- Hd]]. apply in_alphabet in Hd. pose proof (value_good l s d ltac:(lia)) as Hg. unfold good in Hg.
    rewrite Forall_forall in Hg. auto. }
  assert (Hok : star_ok (WStar (WPairs (map (fun c => (compile t [c], compile t [c])) sigma))) = true).
  { apply star_pairs_ok. intros p Hp. apply in_map_iff in Hp. destruct Hp as [c [<- Hc]]. cbn [fst]. auto. }
  assert (Hacc : forall x w', letters w' -> x = compile t (spelled l s w') ->
     In x (map fst (outs (WStar (WPairs (map (fun c => (compile t [c], compile t [c])) sigma))) x))).
  { intros x w' Hw' ->. apply in_map_iff. exists (compile t (spelled l s w'), 0%N). split; auto. apply (outs_rel _ _ _ _ Hok).
    replace (compile t (spelled l s w')) with (flat_map (fun c => compile t [c]) (spelled l s w')).
    - apply same_star. intros c Hc. apply nodup_In. apply in_flat_map in Hc. destruct Hc as [d [Hd Hc]].
      unfold letters in Hw'. rewrite Forall_forall in Hw'. apply Hw' in Hd. pose proof (lower_letter d Hd) as Hl.
      apply in_flat_map. exists (lower d, value l s (lower d)). split.
      + rewrite rows_values. apply in_map_iff. exists (lower d). split; auto. apply in_alphabet; auto.
      + cbn [snd]. rewrite value_lower by lia. auto.
    - clear. induction (spelled l s w') as [|c x IH]; cbn; [rewrite compile_nil; auto|].
      rewrite IH, <- compile_app. reflexivity. }
  assert (Hstrip : forall x, good x -> strip (compile t [k]) (compile t x) = compile t (strip [k] x)).
  { intros x Hx. destruct t; auto. apply strip_bytes; auto. }
  split.
  - intros [x [H1 H2]]. apply letter_fst_spec in H1. destruct H1 as [Hw ->]. split; auto.
    apply in_flat_map in H2. destruct H2 as [y [H2 H3]].
    apply in_map_iff in H2. destruct H2 as [[y' n] [E H2]]. cbn in E. subst y'. apply (outs_rel _ _ _ _ Hok) in H2.
    apply star_same in H2; [|intros p Hp; apply in_map_iff in Hp; destruct Hp as [c [<- _]]; reflexivity].
    subst y. rewrite scan_final in H3 by auto. destruct H3 as [<-|[]]. cbn. apply Hstrip. apply spelled_good; auto.
  - intros [Hw ->]. exists (compile t (spelled l s w)). split; [apply letter_fst_spec; auto|].
    apply in_flat_map. exists (compile t (spelled l s w)). split; [eapply Hacc; eauto|].
    rewrite scan_final by auto. left. cbn. apply Hstrip. apply spelled_good; auto.
Qed.

(** The names are not empty and only those of the scripts with a joiner end in it. *)
Definition endsb (s : script) (x : str) : bool :=
  if match x with [] => true | _ => false end then false else
  match separator s with
  | Some k => if N.eqb k ZWNJ then true else str_eqb (strip [ZWNJ] x) x
  | None => str_eqb (strip [ZWNJ] x) x
  end.
Lemma all_ends : forall l s, forallb (fun c => endsb s (name l s c)) alphabet = true.
Proof. apply every_pair. vm_compute. reflexivity. Qed.
Lemma bare_strip x : bare x = strip [ZWNJ] x.
Proof.
  induction x as [|c x IH]; auto. destruct x as [|d x].
  - cbn. rewrite andb_true_r. reflexivity.
  - cbn [bare]. rewrite strip_eq. cbn [str_eqb]. rewrite andb_false_r. f_equal. exact IH.
Qed.
Lemma strip_tail k y x : x <> [] -> strip [k] (y ++ x) = y ++ strip [k] x.
Proof.
  intros Hx. induction y as [|c y IH]; auto. cbn [app]. rewrite strip_eq.
  destruct (str_eqb (c :: y ++ x) [k]) eqn:E.
  - apply str_eqb_eq in E. injection E as _ E. apply app_eq_nil in E. destruct E; congruence.
  - rewrite IH. reflexivity.
Qed.
Lemma name_ends l s c : (97 <= c <= 122 \/ 65 <= c <= 90)%N -> endsb s (name l s c) = true.
Proof.
  intros Hc. pose proof (lower_letter c Hc) as Hl. rewrite <- name_lower by lia. pose proof (all_ends l s) as H.
  rewrite forallb_forall in H. apply H. apply in_alphabet. auto.
Qed.
Lemma name_ne l s c : (97 <= c <= 122 \/ 65 <= c <= 90)%N -> name l s c <> [].
Proof. intros H E. apply (name_ends l s) in H. rewrite E in H. discriminate. Qed.
Lemma spelled_written l s w : letters w ->
  match separator s with Some k => strip [k] (spelled l s w) | None => spelled l s w end = written l s w.
Proof.
  induction 1 as [|c w Hc Hw IH].
  - destruct (separator s); reflexivity.
  - assert (Hlast : match separator s with Some k => strip [k] (value l s c) | None => value l s c end = bare (name l s c)).
    { rewrite bare_strip. pose proof (name_ends l s c Hc) as He. unfold endsb in He. destruct (name l s c) as [|d x] eqn:En; [discriminate|]. cbn iota in He.
      unfold value. rewrite En. destruct s; cbn [separator] in *; cbn [between]; rewrite ?app_nil_r; try reflexivity;
      cbn in He; apply str_eqb_eq in He; try (rewrite strip_app); symmetry; exact He. }
    destruct w as [|d w].
    + cbn [spelled flat_map written]. unfold spelled. cbn [flat_map]. rewrite app_nil_r. exact Hlast.
    + change (written l s (c :: d :: w)) with (name l s c ++ between s ++ written l s (d :: w)). rewrite <- IH.
      change (spelled l s (c :: d :: w)) with (value l s c ++ spelled l s (d :: w)). rewrite app_assoc. fold (value l s c).
      destruct (separator s); auto. apply strip_tail. cbn. inversion Hw; subst. unfold value.
      pose proof (name_ne l s d ltac:(assumption)). destruct (name l s d); [congruence|discriminate].
Qed.

Lemma speller_spec t l s w o : In o (speller t l s w) <-> letters w /\ o = compile t (written l s w).
Proof.
  rewrite speller_eq. pose proof (spelled_written l s w) as H. destruct (separator s) as [k|] eqn:E.
  - rewrite separated_spec by (eapply separator_good; eauto). split; intros [Hw ->]; split; auto; rewrite H; auto.
  - rewrite letter_fst_spec. split; intros [Hw ->]; split; auto; rewrite H; auto.
Qed.
