(** Proofs about the test of grammars by lists of rewrites. *)
From Verif Require Import Base TextprotoModel TextprotoSpec.
From Coq Require Import Sorted.

Lemma remove_one_some x l r :
  remove_one x l = Some r -> Permutation l (x :: r).
Proof.
  revert r; induction l as [|y l IH]; simpl; intros r H; [discriminate|].
  destruct (str_eqb x y) eqn:E.
  - apply str_eqb_eq in E. injection H as <-. now subst.
  - destruct (remove_one x l) as [q|]; [|discriminate]. injection H as <-.
    rewrite (IH q eq_refl). apply perm_swap.
Qed.

Lemma remove_one_none x l : remove_one x l = None -> ~ In x l.
Proof.
  induction l as [|y l IH]; simpl; intro H; [tauto|].
  destruct (str_eqb x y) eqn:E; [discriminate|].
  destruct (remove_one x l); [discriminate|].
  intros [->|K]; [|now apply IH].
  rewrite (proj2 (str_eqb_eq x x) eq_refl) in E. discriminate.
Qed.

Lemma match_all_spec e a :
  match match_all e a with
  | Some r => Permutation a (e ++ r)
  | None => forall r, ~ Permutation a (e ++ r)
  end.
Proof.
  revert a; induction e as [|x e IH]; intro a; simpl; [reflexivity|].
  destruct (remove_one x a) as [q|] eqn:E.
  - apply remove_one_some in E. specialize (IH q).
    destruct (match_all e q) as [r|].
    + rewrite E. now constructor.
    + intros r H. apply (IH r). apply (Permutation_cons_inv (a := x)).
      now rewrite <- E.
  - apply remove_one_none in E. intros r H. apply E.
    apply (Permutation_in x (Permutation_sym H)). now left.
Qed.

Lemma unordered_spec a e :
  unordered_elements_are a e = true <-> Permutation a e.
Proof.
  unfold unordered_elements_are. pose proof (match_all_spec e a) as H.
  destruct (match_all e a) as [[|x r]|].
  - rewrite app_nil_r in H. tauto.
  - split; [discriminate|]. intro K. apply Permutation_length in H, K.
    rewrite app_length in H. simpl in H. lia.
  - split; [discriminate|]. intro K. exfalso. apply (H []). now rewrite app_nil_r.
Qed.

Lemma superset_spec a e :
  superset_of a e = true <-> exists r, Permutation a (e ++ r).
Proof.
  unfold superset_of. pose proof (match_all_spec e a) as H.
  destruct (match_all e a) as [r|].
  - split; [eauto|reflexivity].
  - split; [discriminate|]. intros (r & K). exfalso. exact (H r K).
Qed.

Lemma NoDup_app_left (a b : list str) : NoDup (a ++ b) -> NoDup a.
Proof.
  induction a as [|x a IH]; simpl; intro H; [constructor|].
  inversion H as [|? ? Hn Hd]; subst. constructor; [|auto].
  intro K. apply Hn. apply in_app_iff. now left.
Qed.

Lemma subset_complement (e a : list str) :
  NoDup e -> NoDup a -> incl e a -> exists r, Permutation a (e ++ r).
Proof.
  revert a; induction e as [|x e IH]; intros a He Ha Hi; [exists a; reflexivity|].
  inversion He as [|? ? Hn Hd]; subst.
  destruct (in_split x a (Hi x (or_introl eq_refl))) as (a1 & a2 & ->).
  assert (P : Permutation (a1 ++ x :: a2) (x :: a1 ++ a2)) by (symmetry; apply Permutation_middle).
  destruct (IH (a1 ++ a2)) as (r & Hr).
  - assumption.
  - apply (NoDup_remove_1 _ _ _ Ha).
  - intros y Hy. assert (K : In y (a1 ++ x :: a2)) by (apply Hi; now right).
    apply in_app_iff in K. apply in_app_iff.
    destruct K as [K|[->|K]]; [now left|contradiction|now right].
  - exists r. rewrite P. simpl. now constructor.
Qed.

Lemma superset_nodup a e :
  NoDup a ->
  (superset_of a e = true <-> NoDup e /\ forall o, In o e -> In o a).
Proof.
  intro Ha. rewrite superset_spec. split.
  - intros (r & H). split.
    + apply (NoDup_app_left e r). exact (Permutation_NoDup H Ha).
    + intros o Ho. apply (Permutation_in o (Permutation_sym H)). apply in_app_iff. now left.
  - intros [H1 H2]. now apply subset_complement.
Qed.

Lemma eqb_refl (s : str) : str_eqb s s = true.
Proof. now apply str_eqb_eq. Qed.

Lemma eqb_neq (a b : str) : a <> b -> str_eqb a b = false.
Proof.
  intro H. destruct (str_eqb a b) eqn:E; [|reflexivity].
  apply str_eqb_eq in E. contradiction.
Qed.

Section Cascade.
  Variable outs : list str -> str -> list (str * Z).
  Variable rewrites : list str -> str -> option (list str).
  Variable top one_top : list str -> str -> option str.
  Hypothesis Hc : cascade_of outs rewrites top one_top.

  Notation expect := (expectations rewrites top one_top).

  Lemma single_spec (l : list str) (f : option str) :
    ((length l =? 1)%nat && (is_some f && first_is l (some_or [] f)) = true) <->
    exists o, l = [o] /\ f = Some o.
  Proof.
    destruct l as [|x [|y l]]; simpl.
    - split; [discriminate|]. intros (o & H & _). discriminate.
    - destruct f as [o|]; simpl.
      + rewrite str_eqb_eq. split.
        * intros ->. eauto.
        * intros (p & H1 & H2). congruence.
      + split; [discriminate|]. intros (o & _ & H). discriminate.
    - split; [discriminate|]. intros (o & H & _). discriminate.
  Qed.

  Lemma exact_mode e :
    is_some (rewrites (e_rules e) (e_input e)) &&
    unordered_elements_are (some_or [] (rewrites (e_rules e) (e_input e))) (e_outputs e) = true <->
    e_outputs e <> [] /\ holds_exact outs e \/
    (e_outputs e = [] /\ is_some (rewrites (e_rules e) (e_input e)) = true /\
     some_or [] (rewrites (e_rules e) (e_input e)) = []).
  Proof.
    destruct Hc as (Hn & Hr & _). specialize (Hr (e_rules e) (e_input e)).
    destruct (rewrites (e_rules e) (e_input e)) as [l|]; simpl.
    - destruct Hr as [Ho Hp]. rewrite unordered_spec. unfold holds_exact. split.
      + intro H. destruct (e_outputs e) as [|x q] eqn:E.
        * right. apply Permutation_sym, Permutation_nil in H. auto.
        * left. split; [discriminate|]. now rewrite <- Hp.
      + intros [[_ H]|(H1 & _ & H2)]; [now rewrite Hp|]. now rewrite H1, H2.
    - split; [discriminate|].
      unfold holds_exact. rewrite Hr. simpl.
      intros [[H1 H2]|(_ & H & _)]; [|discriminate].
      apply Permutation_nil in H2. contradiction.
  Qed.

  Lemma expectations_spec mode e :
    expect mode e = Some true <-> entry_holds outs top mode e.
  Proof.
    destruct Hc as (Hn & Hr & Ht & H1).
    specialize (Hn (e_rules e) (e_input e)). specialize (Hr (e_rules e) (e_input e)).
    specialize (Ht (e_rules e) (e_input e)). specialize (H1 (e_rules e) (e_input e)).
    unfold expectations, entry_holds. destruct (e_outputs e) as [|x l] eqn:E.
    - destruct (top (e_rules e) (e_input e)) as [o|]; simpl.
      + split; [discriminate|]. intros [[_ K]|[K _]]; [|congruence].
        destruct Ht as (w & Hw & _). rewrite K in Hw. destruct Hw.
      + split; auto.
    - assert (Hx : x :: l <> []) by discriminate. rewrite <- E in *.
      clear x l E.
      destruct (str_eqb mode s_exact) eqn:M1.
      { apply str_eqb_eq in M1. subst mode. cbv zeta.
        transitivity (is_some (rewrites (e_rules e) (e_input e)) &&
          unordered_elements_are (some_or [] (rewrites (e_rules e) (e_input e))) (e_outputs e) = true).
        { split; congruence. }
        rewrite exact_mode. split.
        - intros [[K1 K2]|(K & _)]; [|contradiction]. right. split; [assumption|]. now left.
        - intros [[K _]|(_ & [[_ K]|[[K _]|[[K _]|[K _]]]])]; try discriminate; try contradiction.
          now left. }
      assert (N1 : mode <> s_exact) by (intros ->; rewrite eqb_refl in M1; discriminate).
      destruct (str_eqb mode s_one_top) eqn:M2.
      { apply str_eqb_eq in M2. subst mode. cbv zeta.
        transitivity ((length (e_outputs e) =? 1)%nat &&
          (is_some (one_top (e_rules e) (e_input e)) &&
           first_is (e_outputs e) (some_or [] (one_top (e_rules e) (e_input e)))) = true).
        { split; congruence. }
        rewrite single_spec. split.
        - intros (o & K1 & K2). right. split; [assumption|]. right. right. left.
          split; [reflexivity|]. exists o. split; [assumption|]. now apply H1.
        - intros [[K _]|(_ & [[K _]|[[K _]|[[_ K]|[K _]]]])]; try discriminate; try contradiction.
          destruct K as (o & K1 & K2). exists o. split; [assumption|]. now apply H1. }
      assert (N2 : mode <> s_one_top) by (intros ->; rewrite eqb_refl in M2; discriminate).
      destruct (str_eqb mode s_subset) eqn:M3.
      { apply str_eqb_eq in M3. subst mode. cbv zeta.
        transitivity (is_some (rewrites (e_rules e) (e_input e)) &&
          superset_of (some_or [] (rewrites (e_rules e) (e_input e))) (e_outputs e) = true).
        { split; congruence. }
        transitivity (holds_subset outs e).
        - unfold holds_subset.
          destruct (rewrites (e_rules e) (e_input e)) as [l|]; simpl.
          + destruct Hr as [Ho Hp].
            rewrite superset_nodup by exact (Permutation_NoDup (Permutation_sym Hp) Hn).
            split; intros [K1 K2]; (split; [assumption|]); intros o Hoo.
            * apply (Permutation_in o Hp). auto.
            * apply (Permutation_in o (Permutation_sym Hp)). auto.
          + split; [discriminate|]. intros [_ K]. rewrite Hr in K.
            destruct (e_outputs e) as [|x l]; [congruence|]. destruct (K x (or_introl eq_refl)).
        - split.
          + intro K. right. split; [assumption|]. right. left. split; [reflexivity|assumption].
          + intros [[K _]|(_ & [[K _]|[[_ K]|[[K _]|[K _]]]])]; try discriminate; try contradiction.
            assumption. }
      assert (N3 : mode <> s_subset) by (intros ->; rewrite eqb_refl in M3; discriminate).
      destruct (str_eqb mode s_top) eqn:M4.
      { apply str_eqb_eq in M4. subst mode. cbv zeta.
        transitivity ((length (e_outputs e) =? 1)%nat &&
          (is_some (top (e_rules e) (e_input e)) &&
           first_is (e_outputs e) (some_or [] (top (e_rules e) (e_input e)))) = true).
        { split; congruence. }
        rewrite single_spec. split.
        - intro K. right. split; [assumption|]. right. right. right. split; [reflexivity|assumption].
        - intros [[K _]|(_ & [[K _]|[[K _]|[[K _]|[_ K]]]])]; try discriminate; try contradiction.
          assumption. }
      assert (N4 : mode <> s_top) by (intros ->; rewrite eqb_refl in M4; discriminate).
      split; [discriminate|].
      intros [[K _]|(_ & [[K _]|[[K _]|[[K _]|[K _]]]])]; contradiction.
  Qed.

  Variable set_rules : list str -> bool.
  Notation run := (entries set_rules rewrites top one_top).

  Lemma entries_failed mode l : run mode false l <> Passed.
  Proof.
    induction l as [|e l IH]; simpl; [discriminate|].
    destruct (set_rules (e_rules e)); [|discriminate].
    destruct (expect mode e); [assumption|discriminate].
  Qed.

  Lemma entries_passed mode l :
    run mode true l = Passed <->
    forall e, In e l -> set_rules (e_rules e) = true /\ entry_holds outs top mode e.
  Proof.
    induction l as [|e l IH]; simpl.
    - split; [intros _ e []|reflexivity].
    - pose proof (expectations_spec mode e) as P.
      destruct (set_rules (e_rules e)) eqn:Es.
      + destruct (expect mode e) as [[|]|].
        * rewrite IH. split.
          -- intros H x [<-|Hx]; [|auto]. split; [assumption|]. now apply P.
          -- intros H x Hx. apply H. now right.
        * split; [intro K; now apply entries_failed in K|].
          intro H. destruct (H e (or_introl eq_refl)) as [_ K]. apply P in K. discriminate.
        * split; [discriminate|].
          intro H. destruct (H e (or_introl eq_refl)) as [_ K]. apply P in K. discriminate.
      + split; [discriminate|]. intro H.
        destruct (H e (or_introl eq_refl)) as [K _]. congruence.
  Qed.

  Lemma test_passed file token far mode :
    text_proto_test set_rules rewrites top one_top file token far mode = Passed <->
    token = true /\ far = true /\
    exists l, file = Some l /\
      forall e, In e l -> set_rules (e_rules e) = true /\ entry_holds outs top mode e.
  Proof.
    unfold text_proto_test. destruct file as [l|].
    - destruct token; [destruct far|].
      + rewrite entries_passed. split.
        * intro H. split; [reflexivity|]. split; [reflexivity|]. exists l. auto.
        * intros (_ & _ & l' & E & H). injection E as <-. exact H.
      + split; [discriminate|]. intros (_ & K & _). discriminate.
      + split; [discriminate|]. intros (K & _). discriminate.
    - split; [discriminate|]. intros (_ & _ & l & K & _). discriminate.
  Qed.

  (** The process stops at rules that cannot be set, unless an unknown mode ended
      the test before. *)
  Definition known (mode : str) : Prop :=
    mode = s_exact \/ mode = s_one_top \/ mode = s_subset \/ mode = s_top.

  Lemma known_some mode e : known mode -> expect mode e <> None.
  Proof.
    intros H K. unfold expectations in K. destruct (e_outputs e) as [|x l]; [discriminate|].
    destruct H as [-> | [-> | [-> | ->]]]; discriminate.
  Qed.

  Lemma entries_stopped mode l ok :
    known mode ->
    (run mode ok l = Stopped <-> exists e, In e l /\ set_rules (e_rules e) = false).
  Proof.
    intro Hk. revert ok; induction l as [|e l IH]; intro ok; simpl.
    - split; [destruct ok; discriminate|]. intros (e & [] & _).
    - destruct (set_rules (e_rules e)) eqn:Es.
      + pose proof (known_some mode e Hk) as Hs.
        destruct (expect mode e) as [b|]; [|congruence].
        rewrite IH. split.
        * intros (x & Hx & K). exists x. split; [now right|assumption].
        * intros (x & [<-|Hx] & K); [congruence|]. eauto.
      + split; [|reflexivity]. intros _. exists e. split; [now left|assumption].
  Qed.
End Cascade.

(** ** The list of differing strings *)

Lemma str_ltb_before a b : str_ltb a b = true <-> before a b.
Proof.
  split.
  - revert b; induction a as [|x a IH]; intros [|y b] H; simpl in H; try discriminate.
    + constructor.
    + destruct (N.ltb_spec x y); [now constructor|].
      destruct (N.ltb_spec y x); [discriminate|].
      assert (x = y) by lia. subst y. apply before_tail. now apply IH.
  - induction 1 as [y b|x y a b H|x a b H IH]; simpl; [reflexivity| |].
    + apply N.ltb_lt in H. now rewrite H.
    + rewrite N.ltb_irrefl. exact IH.
Qed.

Lemma before_irrefl a : ~ before a a.
Proof.
  induction a as [|x a IH]; intro H; inversion H; subst; [lia|contradiction].
Qed.

Lemma before_trans a b c : before a b -> before b c -> before a c.
Proof.
  intro H; revert c; induction H as [y b|x y a b H|x a b H IH]; intros c K.
  - inversion K; constructor.
  - inversion K; subst; apply before_head; lia || assumption.
  - inversion K; subst; [now apply before_head|]. apply before_tail. now apply IH.
Qed.

Lemma before_total a b : str_ltb a b = false -> str_ltb b a = false -> a = b.
Proof.
  revert b; induction a as [|x a IH]; intros [|y b] H K; simpl in *; try discriminate.
  - reflexivity.
  - destruct (N.ltb_spec x y); [discriminate|]. destruct (N.ltb_spec y x); [discriminate|].
    assert (x = y) by lia. subst y. f_equal. now apply IH.
Qed.

Lemma times_above x l :
  (forall y, In y l -> before x y) -> times x l = 0%nat.
Proof.
  intro H. unfold times. apply count_occ_not_In. intro K.
  exact (before_irrefl x (H x K)).
Qed.

Lemma times_cons x y l :
  times x (y :: l) = ((if str_eq_dec y x then 1 else 0) + times x l)%nat.
Proof. unfold times. simpl. destruct (str_eq_dec y x); reflexivity. Qed.

Lemma set_difference_nil b : set_difference [] b = [].
Proof. destruct b; reflexivity. Qed.

Lemma set_difference_cons x a y b :
  set_difference (x :: a) (y :: b) =
  if str_ltb x y then x :: set_difference a (y :: b)
  else if str_ltb y x then set_difference (x :: a) b
  else set_difference a b.
Proof. reflexivity. Qed.

Lemma set_difference_spec a b z :
  sorted a -> sorted b ->
  times z (set_difference a b) = (times z a - times z b)%nat.
Proof.
  revert b; induction a as [|x a IHa]; intros b Ha Hb.
  - rewrite set_difference_nil. reflexivity.
  - induction b as [|y b IHb].
    + change (set_difference (x :: a) []) with (x :: a).
      change (times z []) with 0%nat. lia.
    + rewrite set_difference_cons.
      inversion Ha as [|? ? Ha1 Ha2]; subst. inversion Hb as [|? ? Hb1 Hb2]; subst.
      rewrite Forall_forall in Ha2, Hb2.
      destruct (str_ltb x y) eqn:E1.
      * apply str_ltb_before in E1.
        rewrite !times_cons, (IHa (y :: b) Ha1 Hb), times_cons.
        destruct (str_eq_dec x z) as [<-|Nx]; [|lia].
        assert (Ey : times x b = 0%nat).
        { apply times_above. intros w Hw. destruct (Hb2 w Hw) as [K|<-]; [|assumption].
          exact (before_trans _ _ _ E1 K). }
        rewrite Ey. destruct (str_eq_dec y x) as [->|Ny]; [|lia].
        exfalso. exact (before_irrefl _ E1).
      * destruct (str_ltb y x) eqn:E2.
        -- apply str_ltb_before in E2. rewrite (IHb Hb1).
           rewrite (times_cons z y b).
           destruct (str_eq_dec y z) as [<-|Ny]; [|lia].
           rewrite times_cons.
           assert (Ex : times y a = 0%nat).
           { apply times_above. intros w Hw. destruct (Ha2 w Hw) as [K|<-]; [|assumption].
             exact (before_trans _ _ _ E2 K). }
           rewrite Ex. destruct (str_eq_dec x y) as [->|Nx]; [|lia].
           exfalso. exact (before_irrefl _ E2).
        -- assert (x = y) by now apply before_total. subst y.
           rewrite (IHa b Ha1 Hb1), !times_cons. lia.
Qed.

(** ** Consequences *)

(** An output listed twice makes the entry fail in every mode. *)
Lemma listed_twice outs rewrites top one_top mode e :
  cascade_of outs rewrites top one_top ->
  ~ NoDup (e_outputs e) -> expectations rewrites top one_top mode e <> Some true.
Proof.
  intros Hc Hd K. apply (expectations_spec outs rewrites top one_top Hc) in K.
  destruct K as [[K _]|(_ & [[_ K]|[[_ K]|[[_ K]|[_ K]]]])]; apply Hd.
  - rewrite K. constructor.
  - apply (Permutation_NoDup K). apply Hc.
  - apply K.
  - destruct K as (o & -> & _). constructor; [intros []|constructor].
  - destruct K as (o & -> & _). constructor; [intros []|constructor].
Qed.

(** What passes in mode "one_top" passes in mode "top"; what passes in mode
    "exact" passes in mode "subset". *)
Lemma one_top_top outs rewrites top one_top e :
  cascade_of outs rewrites top one_top ->
  expectations rewrites top one_top s_one_top e = Some true ->
  expectations rewrites top one_top s_top e = Some true.
Proof.
  intros Hc K.
  apply (expectations_spec outs rewrites top one_top Hc).
  apply (expectations_spec outs rewrites top one_top Hc) in K.
  destruct K as [K|(Hn & [[K _]|[[K _]|[[_ K]|[K _]]]])]; try discriminate.
  - now left.
  - right. split; [assumption|]. right. right. right. split; [reflexivity|].
    destruct K as (o & K1 & K2). exists o. split; [assumption|].
    destruct Hc as (_ & _ & Ht & _). specialize (Ht (e_rules e) (e_input e)).
    destruct (top (e_rules e) (e_input e)) as [p|].
    + f_equal. now apply K2.
    + destruct (proj2 (K2 o) eq_refl) as (w & Hw & _). rewrite Ht in Hw. destruct Hw.
Qed.

Lemma exact_subset outs rewrites top one_top e :
  cascade_of outs rewrites top one_top ->
  expectations rewrites top one_top s_exact e = Some true ->
  expectations rewrites top one_top s_subset e = Some true.
Proof.
  intros Hc K.
  apply (expectations_spec outs rewrites top one_top Hc).
  apply (expectations_spec outs rewrites top one_top Hc) in K.
  destruct K as [K|(Hn & [[_ K]|[[K _]|[[K _]|[K _]]]])]; try discriminate.
  - now left.
  - right. split; [assumption|]. right. left. split; [reflexivity|]. split.
    + apply (Permutation_NoDup K). apply Hc.
    + intros o Ho. exact (Permutation_in o (Permutation_sym K) Ho).
Qed.

(** With an unknown mode the test passes when no entry lists an output. *)
Lemma unknown_mode outs rewrites top one_top set_rules mode l :
  cascade_of outs rewrites top one_top ->
  ~ known mode ->
  (entries set_rules rewrites top one_top mode true l = Passed <->
   forall e, In e l -> set_rules (e_rules e) = true /\
     e_outputs e = [] /\ outs (e_rules e) (e_input e) = []).
Proof.
  intros Hc Hk. rewrite (entries_passed outs rewrites top one_top Hc). unfold known in Hk.
  split; intros H e He; destruct (H e He) as [H1 H2]; (split; [assumption|]).
  - destruct H2 as [K|(_ & [[K _]|[[K _]|[[K _]|[K _]]]])]; tauto.
  - now left.
Qed.

From Coq Require Import String Ascii.
Lemma mode_names :
  [s_exact; s_one_top; s_subset; s_top] =
  map (fun s => map Ascii.N_of_ascii (String.list_ascii_of_string s)) ["exact"; "one_top"; "subset"; "top"]%string.
Proof. reflexivity. Qed.
