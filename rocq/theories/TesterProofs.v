(** Proofs about the tester. *)
From Coq Require Import String Ascii.
From Verif Require Import Base GrammarModel GrammarSpec GrammarProofs SymtabModel SymtabSpec SymtabProofs TesterModel TesterSpec.
Local Open Scope list_scope.
Local Open Scope N_scope.

(** ** Splitting *)
Lemma split_some c s : str_split c s <> [].
Proof. destruct s as [|x s]; cbn; [discriminate|]. destruct (x =? c); [discriminate|]. destruct (str_split c s); discriminate. Qed.
Lemma joined_cons sep x l : l <> [] -> joined sep (x :: l) = x ++ sep ++ joined sep l.
Proof. destruct l; [congruence|reflexivity]. Qed.
Lemma split_joined c s : joined [c] (str_split c s) = s.
Proof.
  induction s as [|x s IH]; [reflexivity|]. cbn [str_split]. destruct (x =? c) eqn:E.
  - apply N.eqb_eq in E. subst x. rewrite joined_cons by apply split_some. rewrite IH. reflexivity.
  - destruct (str_split c s) as [|w l] eqn:S'; [destruct (split_some c s S')|]. destruct l as [|w' l].
    + cbn in *. congruence.
    + rewrite joined_cons in IH by discriminate. rewrite joined_cons by discriminate. cbn [app]. cbn [app] in IH. rewrite IH. reflexivity.
Qed.
Lemma split_free c s w : In w (str_split c s) -> ~ In c w.
Proof.
  revert w. induction s as [|x s IH]; intros w; cbn [str_split].
  - intros [<-|[]] [].
  - destruct (x =? c) eqn:E.
    + intros [<-|I']; [intros []|exact (IH w I')].
    + apply N.eqb_neq in E. destruct (str_split c s) as [|v l].
      * intros [<-|[]] [K|[]]. congruence.
      * intros [<-|I'].
        -- intros [K|K]; [congruence|]. exact (IH v (or_introl eq_refl) K).
        -- exact (IH w (or_intror I')).
Qed.

(** ** Labels *)
Lemma append_bytes sep l : forall p, append_labels None BYTE sep l p = Some (p ++ bytes_of l).
Proof.
  unfold bytes_of. induction l as [|c l IH]; intros p; cbn [append_labels filter map]; [rewrite app_nil_r; reflexivity|]. unfold append_label.
  destruct (c =? 0); cbn [negb map]; rewrite IH; [reflexivity|]. rewrite <- app_assoc. reflexivity.
Qed.
Lemma append_utf8 sep l : forall p, ~ In 0 l -> append_labels None UTF8 sep l p = Some (p ++ flat_map utf8_label l).
Proof.
  induction l as [|c l IH]; intros p Nz; cbn [append_labels flat_map]; [rewrite app_nil_r; reflexivity|]. unfold append_label.
  destruct (c =? 0) eqn:E; [apply N.eqb_eq in E; subst; destruct Nz; left; reflexivity|]. rewrite IH; [|intros K; apply Nz; right; exact K].
  rewrite <- app_assoc. reflexivity.
Qed.
Lemma append_symbols t sep l : forall p, ~ In 0 l -> (forall c, In c l -> t c <> []) ->
  append_labels None (SYMBOL t) sep l p = Some (match p with [] => joined sep (map t l) | _ => match l with [] => p | _ => p ++ sep ++ joined sep (map t l) end end).
Proof.
  induction l as [|c l IH]; intros p Nz Ne; cbn [append_labels map]; [destruct p; reflexivity|]. unfold append_label.
  destruct (c =? 0) eqn:E; [apply N.eqb_eq in E; subst; destruct Nz; left; reflexivity|].
  assert (T := Ne c (or_introl eq_refl)). destruct (t c) as [|x y] eqn:Tc; [congruence|].
  rewrite IH; [|intros K; apply Nz; right; exact K|intros d K; apply Ne; right; exact K].
  destruct p as [|a p]; destruct l as [|d l]; cbn [app map joined]; [reflexivity|reflexivity| |].
  - rewrite <- app_assoc. reflexivity.
  - rewrite <- !app_assoc. reflexivity.
Qed.
Lemma append_missing t sep l : forall p, (exists c, In c l /\ c <> 0 /\ t c = []) -> append_labels None (SYMBOL t) sep l p = None.
Proof.
  induction l as [|d l IH]; intros p (c & I' & Nz & T); [destruct I'|]. cbn [append_labels]. unfold append_label. destruct I' as [->|I'].
  - apply N.eqb_neq in Nz. rewrite Nz, T. reflexivity.
  - destruct (d =? 0); [apply IH; eauto|]. destruct (t d); [reflexivity|]. apply IH. eauto.
Qed.
Lemma append_generated g type sep l : forall p, ~ In 0 l -> (forall c, In c l -> g c <> []) ->
  append_labels (Some g) type sep l p = Some (p ++ flat_map (fun c => words "[" ++ g c ++ words "]") l).
Proof.
  induction l as [|c l IH]; intros p Nz Ne; cbn [append_labels flat_map]; [rewrite app_nil_r; reflexivity|]. unfold append_label.
  destruct (c =? 0) eqn:E; [apply N.eqb_eq in E; subst; destruct Nz; left; reflexivity|].
  assert (T := Ne c (or_introl eq_refl)). destruct (g c) as [|x y] eqn:Tc; [congruence|].
  rewrite IH; [|intros K; apply Nz; right; exact K|intros d K; apply Ne; right; exact K].
  rewrite <- app_assoc. reflexivity.
Qed.

(** UTF-8 is a prefix code. *)
Lemma encoded_prefix c d x y a b : encoded c x -> encoded d y -> x ++ a = y ++ b -> c = d /\ a = b.
Proof.
  intros H K E. apply encoded_cases in H, K.
  destruct H as [(L & ->)|[(p & q & P & Q & -> & ->)|(p & q & r & P & Q & R & S' & -> & ->)]];
    destruct K as [(L' & ->)|[(p' & q' & P' & Q' & -> & ->)|(p' & q' & r' & P' & Q' & R' & S'' & -> & ->)]]; cbn [app] in E;
    (assert (E1 := f_equal (fun l => match l with u :: _ => u | [] => 0 end) E); cbv beta iota in E1);
    (assert (E2 := f_equal (@tl N) E); cbn [tl] in E2);
    try (exfalso; lia).
  - auto.
  - assert (E3 := f_equal (fun l => match l with u :: _ => u | [] => 0 end) E2); cbv beta iota in E3. assert (E4 := f_equal (@tl N) E2); cbn [tl] in E4.
    split; [lia|exact E4].
  - assert (E3 := f_equal (fun l => match l with u :: _ => u | [] => 0 end) E2); cbv beta iota in E3. assert (E4 := f_equal (@tl N) E2); cbn [tl] in E4.
    assert (E5 := f_equal (fun l => match l with u :: _ => u | [] => 0 end) E4); cbv beta iota in E5. assert (E6 := f_equal (@tl N) E4); cbn [tl] in E6.
    split; [lia|exact E6].
Qed.
Lemma utf8_faithful l : forall l', Forall (fun c => c < 0x10000) l -> Forall (fun c => c < 0x10000) l' -> flat_map utf8_label l = flat_map utf8_label l' -> l = l'.
Proof.
  assert (Ne : forall c, c < 0x10000 -> utf8_label c <> []).
  { intros c L E. assert (H := encoded_length _ _ (utf8_label_ok c L)). rewrite E in H. cbn in H. lia. }
  induction l as [|c l IH]; intros [|d l'] F F' E; cbn [flat_map] in E.
  - reflexivity.
  - inversion F' as [|? ? D ?]; subst. destruct (utf8_label d) eqn:U; [destruct (Ne d D U)|discriminate].
  - inversion F as [|? ? C ?]; subst. destruct (utf8_label c) eqn:U; [destruct (Ne c C U)|discriminate].
  - inversion F as [|? ? C FF]; inversion F' as [|? ? D FF']; subst.
    destruct (encoded_prefix c d _ _ _ _ (utf8_label_ok c C) (utf8_label_ok d D) E) as [-> E']. f_equal. exact (IH l' FF FF' E').
Qed.

(** ** Best outputs exist *)
Lemma shortest_spec l : match shortest l with Some (s, w) => In (s, w) l /\ forall p, In p l -> w <= snd p | None => l = [] end.
Proof.
  induction l as [|[s w] l IH]; cbn [shortest]; [reflexivity|]. destruct (shortest l) as [[t v]|].
  - destruct IH as [I' H]. destruct (v <? w) eqn:E; [apply N.ltb_lt in E|apply N.ltb_ge in E].
    + split; [right; exact I'|]. intros p [<-|Ip]; [cbn; lia|auto].
    + split; [left; reflexivity|]. intros p [<-|Ip]; [cbn; lia|]. specialize (H p Ip). lia.
  - subst. split; [left; reflexivity|]. intros p [<-|[]]. cbn. lia.
Qed.
Definition unused (l b : lattice) : lattice := filter (fun p => negb (existsb (fun q => str_eqb (fst q) (fst p)) b)) l.
Lemma unused_in l b s v : In (s, v) (unused l b) <-> In (s, v) l /\ ~ In s (map fst b).
Proof.
  unfold unused. rewrite filter_In. cbn [fst]. rewrite negb_true_iff. split; intros [H K]; split; auto.
  - intros I'. apply in_map_iff in I' as (q & E & Iq). assert (existsb (fun q => str_eqb (fst q) s) b = true); [|congruence].
    apply existsb_exists. exists q. split; [exact Iq|]. rewrite E. apply str_eqb_refl.
  - destruct (existsb _ b) eqn:E; [|reflexivity]. exfalso. apply K. apply existsb_exists in E as (q & Iq & E). apply str_eqb_eq in E. rewrite <- E. apply in_map. exact Iq.
Qed.
Fixpoint pick_best (n : nat) (l : lattice) : lattice :=
  match n with
  | O => []
  | S k => let b := pick_best k l in match shortest (unused l b) with Some p => b ++ [p] | None => b end
  end.
Lemma pick_best_ok n l : best (N.of_nat n) l (pick_best n l).
Proof.
  induction n as [|n (Nd & Lc & Len & Out)].
  - split; [constructor|]. split; [intros s w []|]. split; [cbn; lia|]. intros s v I' _. split; [reflexivity|]. intros p [].
  - cbn [pick_best]. set (b := pick_best n l) in *. assert (Sp := shortest_spec (unused l b)). destruct (shortest (unused l b)) as [[s w]|].
    + destruct Sp as [Iu Min]. apply unused_in in Iu as [Il Nb]. destruct (Out s w Il Nb) as [Eq Le]. split; [|split; [|split]].
      * rewrite map_app. apply NoDup_app_intro; [exact Nd|repeat constructor; cbn; tauto|]. intros x I1 [<-|[]]. exact (Nb I1).
      * intros s' w' I'. apply in_app_or in I' as [I'|[E|[]]]; [exact (Lc s' w' I')|]. injection E as <- <-. split; [exact Il|].
        intros v Iv. exact (Min (s, v) (proj2 (unused_in l b s v) (conj Iv Nb))).
      * rewrite app_length. cbn [List.length]. lia.
      * intros s' v I' Nb'. rewrite map_app, in_app_iff in Nb'. rewrite app_length. cbn [List.length]. split; [lia|].
        assert (Nb2 : ~ In s' (map fst b)) by tauto. intros p Ip. apply in_app_or in Ip as [Ip|[<-|[]]].
        -- exact (proj2 (Out s' v I' Nb2) p Ip).
        -- exact (Min (s', v) (proj2 (unused_in l b s' v) (conj I' Nb2))).
    + split; [exact Nd|]. split; [exact Lc|]. split; [lia|]. intros s v I' Nb. exfalso.
      assert (K := proj2 (unused_in l b s v) (conj I' Nb)). rewrite Sp in K. exact K.
Qed.
Lemma best_exists : exists f, forall n l, best n l (f n l).
Proof. exists (fun n l => pick_best (N.to_nat n) l). intros n l. rewrite <- (N2Nat.id n) at 1. apply pick_best_ok. Qed.

Section Start.
Variable files : str -> option archive.
Variable read_text : str -> option symbols.
Variable utf8_compiler : str -> option str.
Variable symbol_compiler : symbols -> str -> option str.
Variable input_symbols : wfst -> symbols.
Notation initialize := (initialize files read_text utf8_compiler symbol_compiler input_symbols).

(** ** Starting *)
Lemma has_fst_spec m n : has_fst m n = true <-> get_fst m n <> None.
Proof. unfold has_fst. destruct (get_fst m n); split; congruence. Qed.
Lemma check_ok m rules : check_rules m rules = None <-> forall r, In r rules -> named m (parse_triple r).
Proof.
  induction rules as [|r rules IH]; cbn [check_rules]; [split; [intros _ ? []|reflexivity]|].
  assert (H : check_rules m (r :: rules) = None <-> named m (parse_triple r) /\ check_rules m rules = None).
  { cbn [check_rules]. unfold named. destruct (get_fst m (main_rule (parse_triple r))) eqn:E1; [|split; [discriminate|intros [[K _] _]; congruence]].
    destruct (parens_rule (parse_triple r)) as [|x p] eqn:E2.
    - destruct (assign_rule (parse_triple r)) as [|y a] eqn:E3.
      + split; [intros K; repeat split; congruence|tauto].
      + destruct (has_fst m (y :: a)) eqn:E4.
        * apply has_fst_spec in E4. split; [intros K; repeat split; congruence|tauto].
        * assert (E5 : ~ get_fst m (y :: a) <> None) by (rewrite <- has_fst_spec; congruence). split; [discriminate|]. intros [(_ & _ & K) _]. exfalso. apply E5. apply K. discriminate.
    - destruct (has_fst m (x :: p)) eqn:E6.
      + apply has_fst_spec in E6. destruct (assign_rule (parse_triple r)) as [|y a] eqn:E3.
        * split; [intros K; repeat split; congruence|tauto].
        * destruct (has_fst m (y :: a)) eqn:E4.
          -- apply has_fst_spec in E4. split; [intros K; repeat split; congruence|tauto].
          -- assert (E5 : ~ get_fst m (y :: a) <> None) by (rewrite <- has_fst_spec; congruence). split; [discriminate|]. intros [(_ & _ & K) _]. exfalso. apply E5. apply K. discriminate.
      + assert (E5 : ~ get_fst m (x :: p) <> None) by (rewrite <- has_fst_spec; congruence). split; [discriminate|]. intros [(_ & K & _) _]. exfalso. apply E5. apply K. discriminate. }
  cbn [check_rules] in H. rewrite H, IH. clear H IH. cbn [In]. split.
  - intros [H K] r' [<-|I']; auto.
  - intros H. split; [|intros r' I']; apply H; auto.
Qed.
Notation readable := (readable read_text).
Lemma input_mode_ok mode : input_compiler read_text utf8_compiler symbol_compiler mode <> None <-> readable mode.
Proof.
  unfold input_compiler, TesterSpec.readable. change chars with words. destruct (str_eqb mode (words "byte")) eqn:E1.
  - apply str_eqb_eq in E1. split; [auto|discriminate].
  - apply str_eqb_neq in E1. destruct (str_eqb mode (words "utf8")) eqn:E2.
    + apply str_eqb_eq in E2. split; [auto|discriminate].
    + apply str_eqb_neq in E2. destruct (read_text mode); cbn; split; [intros _; right; right; discriminate|discriminate|congruence|tauto].
Qed.
Lemma output_mode_ok mode : output_type read_text mode <> None <-> readable mode.
Proof.
  unfold output_type, TesterSpec.readable. change chars with words. destruct (str_eqb mode (words "byte")) eqn:E1.
  - apply str_eqb_eq in E1. split; [auto|discriminate].
  - apply str_eqb_neq in E1. destruct (str_eqb mode (words "utf8")) eqn:E2.
    + apply str_eqb_eq in E2. split; [auto|discriminate].
    + apply str_eqb_neq in E2. destruct (read_text mode); cbn; split; [intros _; right; right; discriminate|discriminate|congruence|tauto].
Qed.
Lemma starts far f : (exists t, initialize far f = inr t) <->
  exists entries, files far = Some entries /\ entries <> [] /\
    (forall r, In r (str_split 44 (rules_flag f)) -> named (snd (read_archive entries)) (parse_triple r)) /\ readable (input_mode f) /\ readable (output_mode f).
Proof.
  unfold TesterModel.initialize, load_file. destruct (files far) as [entries|]; [|split; [intros (t & K); discriminate|intros (e & K & _); discriminate]].
  assert (IM := input_mode_ok (input_mode f)). assert (OM := output_mode_ok (output_mode f)). assert (Ok' := read_ok entries). destruct (read_archive entries) as [ok m] eqn:R. cbn [fst] in Ok'. destruct ok.
  - assert (Ne := proj1 Ok' eq_refl). assert (Sp := split_some 44 (rules_flag f)).
    replace (match str_split 44 (rules_flag f) with [] => inl No_rules | _ :: _ =>
      match check_rules m (str_split 44 (rules_flag f)) with Some e => inl e | None =>
        match input_compiler read_text utf8_compiler symbol_compiler (input_mode f) with None => inl Bad_mode | Some c =>
          match output_type read_text (output_mode f) with None => inl Bad_mode | Some t => inr (Tester m (str_split 44 (rules_flag f)) c (generated_symbols input_symbols m) t) end end end end)
      with (match check_rules m (str_split 44 (rules_flag f)) with Some e => inl e | None =>
        match input_compiler read_text utf8_compiler symbol_compiler (input_mode f) with None => inl Bad_mode | Some c =>
          match output_type read_text (output_mode f) with None => inl Bad_mode | Some t => inr (Tester m (str_split 44 (rules_flag f)) c (generated_symbols input_symbols m) t) end end end)
      by (destruct (str_split 44 (rules_flag f)); [congruence|reflexivity]).
    assert (C := check_ok m (str_split 44 (rules_flag f))). destruct (check_rules m (str_split 44 (rules_flag f))).
    + split; [intros (t & K); discriminate|]. intros (e & E & _ & K & _). injection E as <-. rewrite R in K. cbn [snd] in K. apply C in K. discriminate.
    + destruct (input_compiler _ _ _ _); [|split; [intros (t & K); discriminate|intros (e & _ & _ & _ & K & _); apply IM in K; congruence]].
      destruct (output_type _ _); [|split; [intros (t & K); discriminate|intros (e & _ & _ & _ & _ & K); apply OM in K; congruence]].
      split; [|eauto]. intros _. exists entries. rewrite R. cbn [snd]. split; [reflexivity|]. split; [exact Ne|]. split; [apply C; reflexivity|]. split; [apply IM|apply OM]; discriminate.
  - split; [intros (t & K); discriminate|]. intros (e & E & Ne & _). injection E as <-. apply Ok' in Ne. discriminate.
Qed.
Lemma never_without_rules far f : initialize far f <> inl No_rules.
Proof.
  unfold TesterModel.initialize. destruct (load_file files far []) as [[] m]; [|discriminate]. assert (Sp := split_some 44 (rules_flag f)).
  destruct (str_split 44 (rules_flag f)) as [|r l] eqn:E; [congruence|]. destruct (check_rules m (r :: l)) as [e|] eqn:C.
  - assert (G : forall l, check_rules m l <> Some No_rules).
    { clear. induction l as [|r l IH]; cbn [check_rules]; [discriminate|]. destruct (get_fst _ _); [|discriminate].
      destruct (match parens_rule _ with [] => _ | _ => _ end); [|discriminate]. destruct (match assign_rule _ with [] => _ | _ => _ end); [exact IH|discriminate]. }
    specialize (G (r :: l)). congruence.
  - destruct (input_compiler _ _ _ _); [|discriminate]. destruct (output_type _ _); discriminate.
Qed.
Lemma started far f t : initialize far f = inr t ->
  t_rules t = str_split 44 (rules_flag f) /\ forallb (valid_triple (t_archive t)) (map parse_triple (t_rules t)) = true /\
  (input_mode f = words "byte" -> t_compile t = fun s => Some (compile_bytes s)) /\ (output_mode f = words "byte" -> t_type t = BYTE) /\
  (get_fst (t_archive t) (words "*StringFstSymbolTable") = None -> t_generated t = None).
Proof.
  unfold TesterModel.initialize. destruct (load_file files far []) as [[] m]; [|discriminate]. assert (Sp := split_some 44 (rules_flag f)).
  destruct (str_split 44 (rules_flag f)) as [|r l] eqn:E; [congruence|]. destruct (check_rules m (r :: l)) as [e|] eqn:C; [discriminate|].
  assert (IC : forall c, input_compiler read_text utf8_compiler symbol_compiler (input_mode f) = Some c -> input_mode f = words "byte" -> c = fun s => Some (compile_bytes s)).
  { intros c Ec Em. rewrite Em in Ec. change (Some (fun s => Some (compile_bytes s)) = Some c) in Ec. congruence. }
  destruct (input_compiler _ _ _ _) as [c|]; [|discriminate]. specialize (IC c eq_refl).
  assert (OT : forall c, output_type read_text (output_mode f) = Some c -> output_mode f = words "byte" -> c = BYTE).
  { intros c' Ec Em. rewrite Em in Ec. change (Some BYTE = Some c') in Ec. congruence. }
  destruct (output_type _ _) as [o|]; [|discriminate]. specialize (OT o eq_refl). intros K. injection K as <-. cbn [t_rules t_archive t_compile t_type t_generated].
  split; [reflexivity|]. split; [|split; [exact IC|split; [exact OT|]]].
  - apply forallb_forall. intros x Ix. apply in_map_iff in Ix as (y & <- & Iy). assert (Ch := proj1 (check_ok m (r :: l)) C y Iy). destruct Ch as (N1 & N2 & N3). unfold valid_triple.
    destruct (get_fst m (main_rule (parse_triple y))); [|congruence]. cbn [andb]. apply andb_true_iff. split.
    + destruct (parens_rule (parse_triple y)) as [|a p]; [reflexivity|]. specialize (N2 ltac:(discriminate)). destruct (get_fst m (a :: p)); congruence.
    + destruct (assign_rule (parse_triple y)) as [|a p]; [reflexivity|]. specialize (N3 ltac:(discriminate)). destruct (get_fst m (a :: p)); congruence.
  - unfold generated_symbols. change chars with words. intros ->. reflexivity.
Qed.

End Start.

(** ** Rewriting *)
Section Tester.
Variable pdt_compose : lattice -> wfst -> wfst -> option wfst -> lattice.
Variable best_paths : N -> lattice -> lattice.
Variable show_cost : N -> str.
Notation process_input := (process_input pdt_compose best_paths show_cost).
Notation run_rules := (run_rules pdt_compose best_paths).
Notation fst_to_strings := (fst_to_strings best_paths).
Lemma run_out t f d : forall rules input out text, let '(_, o, ok) := run_rules t f d rules input out text in
  cascade_rewrite pdt_compose (t_archive t) (map parse_triple rules) input out = if ok then Some o else None.
Proof.
  induction rules as [|r rules IH]; intros input out text; cbn [TesterModel.run_rules map cascade_rewrite]; [reflexivity|].
  destruct (rewrite_lattice pdt_compose (t_archive t) (parse_triple r) input) as [l|]; [|reflexivity]. apply IH.
Qed.
Lemma run_text_plain t f : forall rules input out text, fst (fst (run_rules t f false rules input out text)) = text.
Proof.
  induction rules as [|r rules IH]; intros input out text; cbn [TesterModel.run_rules]; [reflexivity|].
  destruct (rewrite_lattice pdt_compose (t_archive t) (parse_triple r) input) as [l|]; [apply IH|reflexivity].
Qed.

Lemma ends_newline t f input p : (exists x, process_input t f input p = x ++ newline) \/ process_input t f input p = failed input \/ process_input t f input p = words "Unable to parse input string.".
Proof.
  unfold TesterModel.process_input. destruct (t_compile t input) as [labels|]; [|auto]. destruct (run_rules t f _ (t_rules t) [(labels, 0)] [] []) as [[text o] ok].
  destruct (fst_to_strings t (field_separator f) (noutput f) o) as [outs ok'] eqn:F. destruct (ok && ok') eqn:B; [|auto]. left.
  apply andb_true_iff in B as [_ ->]. assert (Ne : outs <> []).
  { intros ->. unfold TesterModel.fst_to_strings in F. destruct (if noutput f =? 1 then _ else _) as [|[s w] l]; [discriminate|]. cbn [print_paths] in F.
    destruct (append_labels _ _ _ s []); [|discriminate]. destruct (print_paths t (field_separator f) l); discriminate. }
  destruct (exists_last Ne) as (a & z & ->). rewrite flat_map_app. cbn [flat_map]. rewrite app_nil_r, !app_assoc. eexists. reflexivity.
Qed.

Lemma failed_fails input p : failed input <> p ++ newline.
Proof.
  unfold failed, newline. rewrite !app_assoc. intros E. apply app_inj_tail in E as [_ E]. discriminate.
Qed.

(** Bytes, one output *)
Definition clean (t : tester) : Prop := t_type t = BYTE /\ t_generated t = None.
Lemma strings_one t sep l : clean t ->
  fst_to_strings t sep 1 l = match shortest l with Some (s, w) => ([(bytes_of s, w)], true) | None => ([], false) end.
Proof.
  intros [Ty Ge]. unfold TesterModel.fst_to_strings. cbn [N.eqb Pos.eqb]. destruct (shortest l) as [[s w]|]; [|reflexivity].
  cbn [print_paths]. rewrite Ty, Ge, append_bytes. reflexivity.
Qed.
Lemma strings_best t sep n l : clean t -> n <> 1 ->
  fst_to_strings t sep n l = match best_paths n l with [] => ([], false) | b => (map (fun p => (bytes_of (fst p), snd p)) b, true) end.
Proof.
  intros [Ty Ge] Ne. unfold TesterModel.fst_to_strings. apply N.eqb_neq in Ne. rewrite Ne.
  assert (G : forall b, print_paths t sep b = (map (fun p => (bytes_of (fst p), snd p)) b, true)).
  { induction b as [|[s w] b IH]; cbn [print_paths map]; [reflexivity|]. rewrite Ty, Ge, append_bytes. rewrite IH. reflexivity. }
  destruct (best_paths n l) as [|p b]; [reflexivity|]. apply G.
Qed.

(** Details: what each rule gives *)
Definition detail (t : tester) (f : flags) (r : str) (l : lattice) : str :=
  flat_map (fun p => chars "output of rule[" ++ main_rule (parse_triple r) ++ chars "] is: " ++ fst p ++ endl) (fst (fst_to_strings t (field_separator f) (noutput f) l)).
Lemma run_text_details t f : forall rules input out text, forallb (valid_triple (t_archive t)) (map parse_triple rules) = true ->
  fst (fst (run_rules t f true rules input out text)) = text ++ flat_map (fun i =>
    match cascade_rewrite pdt_compose (t_archive t) (map parse_triple (firstn (S i) rules)) input out with
    | Some l => detail t f (nth i rules []) l | None => [] end) (seq 0 (List.length rules)).
Proof.
  induction rules as [|r rules IH]; intros input out text V; cbn [TesterModel.run_rules]; [symmetry; apply app_nil_r|].
  cbn [map forallb] in V. apply andb_true_iff in V as [V1 V2].
  assert (Ne : rewrite_lattice pdt_compose (t_archive t) (parse_triple r) input <> None).
  { assert (Cv := proj1 (cascade_valid pdt_compose (t_archive t) [parse_triple r] input []) ltac:(cbn [forallb]; rewrite V1; reflexivity)).
    cbn [cascade_rewrite] in Cv. destruct (rewrite_lattice _ _ _ _); congruence. }
  destruct (rewrite_lattice pdt_compose (t_archive t) (parse_triple r) input) as [l|] eqn:R; [|congruence].
  rewrite IH by exact V2. cbn [List.length seq flat_map firstn map cascade_rewrite nth]. rewrite R. cbn [firstn map cascade_rewrite]. rewrite <- app_assoc. f_equal.
  f_equal. rewrite <- seq_shift. rewrite !flat_map_concat_map, map_map. reflexivity.
Qed.

(** ** Statements *)
Lemma one_output t f input p : clean t -> (t_compile t = fun s => Some (compile_bytes s)) -> noutput f = 1 ->
  show_details f = false \/ List.length (t_rules t) = 1%nat ->
  process_input t f input p = match cascade_bytes pdt_compose (t_archive t) (map parse_triple (t_rules t)) input with
    | Some s => output_line p (bytes_of s) | None => failed input end.
Proof.
  intros C Co No De. unfold TesterModel.process_input, cascade_bytes. rewrite Co, No.
  replace (show_details f && (1 <? N.of_nat (List.length (t_rules t)))) with false by (destruct De as [-> | ->]; [|rewrite andb_false_r]; reflexivity).
  assert (T := run_text_plain t f (t_rules t) [(compile_bytes input, 0)] [] []). assert (R := run_out t f false (t_rules t) [(compile_bytes input, 0)] [] []).
  destruct (run_rules t f false (t_rules t) [(compile_bytes input, 0)] [] []) as [[text o] ok]. cbn [fst] in T. subst text. rewrite R. rewrite (strings_one t _ o C).
  destruct ok; [|destruct (shortest o) as [[s w]|]; reflexivity]. cbn [andb]. destruct (shortest o) as [[s w]|]; [|reflexivity]. cbn [option_map fst flat_map]. rewrite app_nil_r.
  cbn [N.eqb Pos.eqb negb andb app]. reflexivity.
Qed.
Lemma more_outputs t f input p : clean t -> (t_compile t = fun s => Some (compile_bytes s)) -> noutput f <> 1 ->
  show_details f = false \/ List.length (t_rules t) = 1%nat ->
  process_input t f input p = match cascade_rewrite pdt_compose (t_archive t) (map parse_triple (t_rules t)) [(compile_bytes input, 0)] [] with
    | Some l => match best_paths (noutput f) l with [] => failed input | b => flat_map (fun q => costly_line show_cost p (bytes_of (fst q)) (snd q)) b end
    | None => failed input end.
Proof.
  intros C Co No De. unfold TesterModel.process_input. rewrite Co.
  replace (show_details f && (1 <? N.of_nat (List.length (t_rules t)))) with false by (destruct De as [-> | ->]; [|rewrite andb_false_r]; reflexivity).
  assert (T := run_text_plain t f (t_rules t) [(compile_bytes input, 0)] [] []). assert (R := run_out t f false (t_rules t) [(compile_bytes input, 0)] [] []).
  destruct (run_rules t f false (t_rules t) [(compile_bytes input, 0)] [] []) as [[text o] ok]. cbn [fst] in T. subst text. rewrite R. rewrite (strings_best t _ (noutput f) o C No).
  destruct ok; [|destruct (best_paths (noutput f) o); reflexivity]. cbn [andb]. destruct (best_paths (noutput f) o) as [|q b] eqn:B; [reflexivity|].
  apply N.eqb_neq in No. rewrite No. cbn [negb andb app]. rewrite !flat_map_concat_map, map_map. f_equal. apply map_ext. intros [s w]. unfold costly_line. cbn [fst snd].
  destruct (w =? 0); reflexivity.
Qed.
Lemma with_details t f input p : clean t -> (t_compile t = fun s => Some (compile_bytes s)) -> noutput f = 1 -> show_details f = true -> (1 < List.length (t_rules t))%nat ->
  forallb (valid_triple (t_archive t)) (map parse_triple (t_rules t)) = true ->
  process_input t f input p = match cascade_bytes pdt_compose (t_archive t) (map parse_triple (t_rules t)) input with
    | Some s => flat_map (fun i => match cascade_bytes pdt_compose (t_archive t) (map parse_triple (firstn (S i) (t_rules t))) input with
        | Some u => detail_line (main_rule (parse_triple (nth i (t_rules t) []))) (bytes_of u) | None => [] end) (seq 0 (List.length (t_rules t))) ++ output_line p (bytes_of s)
    | None => failed input end.
Proof.
  intros C Co No De Le V. unfold TesterModel.process_input, cascade_bytes at 1. rewrite Co, No, De.
  replace (1 <? N.of_nat (List.length (t_rules t))) with true by (symmetry; apply N.ltb_lt; lia). cbn [andb].
  assert (T := run_text_details t f (t_rules t) [(compile_bytes input, 0)] [] [] V). assert (R := run_out t f true (t_rules t) [(compile_bytes input, 0)] [] []).
  destruct (run_rules t f true (t_rules t) [(compile_bytes input, 0)] [] []) as [[text o] ok]. cbn [fst] in T. rewrite R. rewrite (strings_one t _ o C).
  destruct ok; [|destruct (shortest o) as [[s w]|]; reflexivity]. cbn [andb]. destruct (shortest o) as [[s w]|]; [|reflexivity]. cbn [option_map fst flat_map]. rewrite app_nil_r.
  cbn [N.eqb Pos.eqb negb andb app]. rewrite T. cbn [app]. unfold output_line. f_equal. rewrite !flat_map_concat_map. f_equal. apply map_ext. intros i. unfold cascade_bytes. clear R T.
  destruct (cascade_rewrite pdt_compose (t_archive t) (map parse_triple (firstn (S i) (t_rules t))) [(compile_bytes input, 0)] []) as [l|]; [|reflexivity]. unfold detail. rewrite No, (strings_one t _ l C). destruct (shortest l) as [[u v]|]; [|reflexivity].
  cbn [fst flat_map option_map]. rewrite app_nil_r. reflexivity.
Qed.
Lemma unparsed t f input p : t_compile t input = None -> process_input t f input p = unable.
Proof. intros E. unfold TesterModel.process_input. rewrite E. reflexivity. Qed.
End Tester.

(** The paths through the rules, for rules without parentheses *)
Lemma outputs_through pdt m rules fs labels : Forall2 (plain m) rules fs -> rules <> [] ->
  exists l, cascade_rewrite pdt m rules [(labels, 0)] [] = Some l /\ forall t w, In (t, w) l <-> through fs labels t w.
Proof.
  intros F Ne. destruct (cascade_through pdt m rules fs [(labels, 0)] [] F Ne) as (l & E & H). exists l. split; [exact E|]. intros t w. rewrite H. split.
  - intros (s & v & u & [Es|[]] & Th & ->). injection Es as <- <-. exact Th.
  - intros Th. exists labels, 0, w. split; [left; reflexivity|]. split; [exact Th|reflexivity].
Qed.
Lemma truncated : exists a b : str, a <> b /\ ~ In 0 a /\ ~ In 0 b /\ forall sep, append_labels None BYTE sep a [] = append_labels None BYTE sep b [].
Proof. exists [65], [321]. split; [discriminate|]. split; [intros [K|[]]; discriminate|]. split; [intros [K|[]]; discriminate|]. reflexivity. Qed.
Lemma brackets : exists g a b, a <> b /\ Forall (fun c => 0 < c) a /\ Forall (fun c => 0 < c < 256) b /\ (forall c, c < 256 -> g c = []) /\
  forall sep, append_labels (Some g) BYTE sep a [] = append_labels (Some g) BYTE sep b [].
Proof.
  exists (fun c => if c =? 300 then words "X" else []), [300], (words "[X]"). split; [discriminate|]. split; [repeat constructor|]. split; [repeat constructor|]. split; [|reflexivity].
  intros c L. destruct (c =? 300) eqn:E; [apply N.eqb_eq in E; lia|reflexivity].
Qed.
Lemma unseparated : exists t a b, a <> b /\ ~ In 0 a /\ ~ In 0 b /\ append_labels None (SYMBOL t) (words " ") a [] = append_labels None (SYMBOL t) (words " ") b [] /\
  append_labels None (SYMBOL t) (words " ") a [] <> None.
Proof.
  exists (fun c => if c =? 1 then words "a" else if c =? 2 then words "b" else if c =? 3 then words "a b" else []), [1; 2], [3].
  split; [discriminate|]. split; [intros [K|[K|[]]]; discriminate|]. split; [intros [K|[]]; discriminate|]. split; [reflexivity|discriminate].
Qed.
