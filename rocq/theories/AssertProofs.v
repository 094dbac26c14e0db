(** Proofs about the checks of the tests. *)
From Verif Require Import Base AssertModel AssertSpec.

(** ** Whole numbers *)

Lemma digits_value_app s c a :
  digits_value a (s ++ [c]) =
  match digits_value a s with
  | Some z => if (48 <=? c)%N && (c <=? 57)%N
              then Some (10 * z + Z.of_N (c - 48))%Z else None
  | None => None
  end.
Proof.
  revert a; induction s as [|x s IH]; intro a; simpl.
  - destruct ((48 <=? c)%N && (c <=? 57)%N); reflexivity.
  - destruct ((48 <=? x)%N && (x <=? 57)%N); [apply IH|reflexivity].
Qed.

Lemma in_range c : (48 <=? c)%N && (c <=? 57)%N = true <-> (48 <= c <= 57)%N.
Proof. rewrite andb_true_iff, !N.leb_le. tauto. Qed.

Lemma decimal_nonempty s z : decimal s z -> s <> [].
Proof. intro H; destruct H as [|s z c H1 H2]; [discriminate|]. destruct s; discriminate. Qed.

Lemma decimal_digits s z : decimal s z -> digits s = Some z.
Proof.
  induction 1 as [c Hc|s z c H IH Hc].
  - unfold digits, digits_value. rewrite (proj2 (in_range c) Hc).
    f_equal. lia.
  - pose proof (decimal_nonempty _ _ H) as Hn.
    unfold digits in *. destruct s as [|x s]; [congruence|].
    change ((x :: s) ++ [c]) with (x :: (s ++ [c])).
    change (match x :: s ++ [c] with [] => None | _ :: _ => digits_value 0 (x :: s ++ [c]) end)
      with (digits_value 0 ((x :: s) ++ [c])).
    rewrite digits_value_app, IH, (proj2 (in_range c) Hc).
    f_equal. lia.
Qed.

Lemma digits_decimal s z : digits s = Some z -> decimal s z.
Proof.
  revert z; induction s as [|c s IH] using rev_ind; intros z H; [discriminate|].
  assert (E : digits (s ++ [c]) = digits_value 0 (s ++ [c])) by (destruct s; reflexivity).
  rewrite E, digits_value_app in H.
  destruct s as [|x s].
  - cbn [digits_value] in H.
    destruct ((48 <=? c)%N && (c <=? 57)%N) eqn:Hc; [|discriminate].
    apply in_range in Hc. injection H as <-.
    replace (Z.of_N (c - 48)) with (Z.of_N c - 48)%Z by lia.
    now constructor.
  - destruct (digits_value 0 (x :: s)) as [y|] eqn:Hy; [|discriminate].
    destruct ((48 <=? c)%N && (c <=? 57)%N) eqn:Hc; [|discriminate].
    apply in_range in Hc. injection H as <-.
    replace (Z.of_N (c - 48)) with (Z.of_N c - 48)%Z by lia.
    constructor; [|assumption]. apply IH. exact Hy.
Qed.

Lemma decimal_head s z : decimal s z -> exists c t, s = c :: t /\ (48 <= c <= 57)%N.
Proof.
  induction 1 as [c Hc|s z c H IH Hc]; [eauto|].
  destruct IH as (d & t & -> & Hd). exists d, (t ++ [c]). split; [reflexivity|assumption].
Qed.

Lemma py_int_spec s z : py_int s = Some z <-> integer s z.
Proof.
  split.
  - destruct s as [|c t]; [discriminate|]. unfold py_int.
    destruct (c =? 45)%N eqn:E1.
    + apply N.eqb_eq in E1. subst c.
      destruct (digits t) as [y|] eqn:Hy; [|discriminate].
      intro H; injection H as <-. apply integer_minus. now apply digits_decimal.
    + destruct (c =? 43)%N eqn:E2.
      * apply N.eqb_eq in E2. subst c. intro H. apply integer_plus. now apply digits_decimal.
      * intro H. apply integer_plain. now apply digits_decimal.
  - intros [t y H|t y H|t y H].
    + destruct (decimal_head _ _ H) as (c & u & -> & Hc).
      unfold py_int.
      destruct (N.eqb_spec c 45); [lia|]. destruct (N.eqb_spec c 43); [lia|].
      now apply decimal_digits.
    + unfold py_int. change (43 =? 45)%N with false. change (43 =? 43)%N with true.
      cbv iota. now apply decimal_digits.
    + unfold py_int. change (45 =? 45)%N with true. cbv iota.
      now rewrite (decimal_digits _ _ H).
Qed.

Lemma integer_fun s y z : integer s y -> integer s z -> y = z.
Proof. intros H1 H2. apply py_int_spec in H1, H2. congruence. Qed.

(** ** The dictionary of outputs by weight *)

Definition holds (d : list (Z * list str)) (k : Z) (o : str) : Prop :=
  exists l, In (k, l) d /\ In o l.

Definition good (d : list (Z * list str)) : Prop :=
  NoDup (map fst d) /\ forall e, In e d -> snd e <> [] /\ NoDup (snd e).

Lemma existsb_str o l : existsb (str_eqb o) l = true <-> In o l.
Proof.
  rewrite existsb_exists. split.
  - intros (x & Hx & E). apply str_eqb_eq in E. now subst.
  - intro H. exists o. split; [assumption|]. now apply str_eqb_eq.
Qed.

Lemma set_add_In o l x : In x (set_add o l) <-> x = o \/ In x l.
Proof.
  unfold set_add. destruct (existsb (str_eqb o) l) eqn:E.
  - apply existsb_str in E. split; [tauto|]. intros [->|H]; assumption.
  - rewrite in_app_iff. simpl. intuition congruence.
Qed.

Lemma set_add_NoDup o l : NoDup l -> NoDup (set_add o l).
Proof.
  unfold set_add. destruct (existsb (str_eqb o) l) eqn:E; [auto|].
  intro H.
  assert (Hn : ~ In o l) by (intro K; apply existsb_str in K; congruence).
  clear E. apply (Permutation_NoDup (l := o :: l)).
  - apply Permutation_cons_append.
  - now constructor.
Qed.

Lemma dict_add_keys k o d x :
  In x (map fst (dict_add k o d)) <-> x = k \/ In x (map fst d).
Proof.
  induction d as [|e d IH]; simpl; [intuition|].
  destruct (Z.eqb_spec (fst e) k) as [E|E]; simpl.
  - intuition congruence.
  - rewrite IH. tauto.
Qed.

Lemma dict_add_good k o d : good d -> good (dict_add k o d).
Proof.
  intros [H1 H2]. split.
  - clear H2. induction d as [|e d IH]; simpl.
    + constructor; [intros []|constructor].
    + inversion H1 as [|? ? Hn Hd]; subst.
      destruct (Z.eqb_spec (fst e) k) as [E|E]; simpl.
      * constructor; [congruence|assumption].
      * constructor; [|now apply IH]. rewrite dict_add_keys. intuition congruence.
  - clear H1. induction d as [|e d IH]; simpl.
    + intros x [<-|[]]. simpl. split; [discriminate|].
      constructor; [intros []|constructor].
    + destruct (Z.eqb_spec (fst e) k) as [E|E]; simpl.
      * intros x [<-|Hx]; [|apply H2; now right]. simpl.
        destruct (H2 e (or_introl eq_refl)) as [Ha Hb]. split.
        -- intro K. assert (L : In o (set_add o (snd e))) by (apply set_add_In; now left).
           rewrite K in L. destruct L.
        -- now apply set_add_NoDup.
      * intros x [<-|Hx]; [apply H2; now left|].
        apply IH; [intros y Hy; apply H2; now right|assumption].
Qed.

Lemma dict_add_holds k o d x y :
  NoDup (map fst d) ->
  (holds (dict_add k o d) x y <-> (x = k /\ y = o) \/ holds d x y).
Proof.
  unfold holds. intro H1. induction d as [|e d IH]; simpl.
  - split.
    + intros (l & [E|[]] & Hl). injection E as <- <-. destruct Hl as [<-|[]]. now left.
    + intros [[-> ->]|(l & [] & _)]. exists [o]. split; [now left|now left].
  - inversion H1 as [|? ? Hn Hd]; subst. specialize (IH Hd).
    destruct (Z.eqb_spec (fst e) k) as [E|E]; simpl.
    + split.
      * intros (l & [K|K] & Hl).
        -- injection K as <- <-. apply set_add_In in Hl. destruct Hl as [->|Hl]; [now left|].
           right. exists (snd e). split; [left|assumption]. rewrite <- E. now destruct e.
        -- right. exists l. split; [now right|assumption].
      * intros [[-> ->]|(l & [K|K] & Hl)].
        -- exists (set_add o (snd e)). split; [now left|]. apply set_add_In. now left.
        -- subst e. simpl in *. subst x. exists (set_add o l).
           split; [now left|]. apply set_add_In. now right.
        -- exists l. split; [now right|assumption].
    + split.
      * intros (l & [K|K] & Hl).
        -- right. exists l. split; [now left|assumption].
        -- destruct (proj1 IH (ex_intro _ l (conj K Hl))) as [G|(m & G & Gm)]; [now left|].
           right. exists m. split; [now right|assumption].
      * intros [G|(l & [K|K] & Hl)].
        -- destruct (proj2 IH (or_introl G)) as (m & Gm & Go).
           exists m. split; [now right|assumption].
        -- exists l. split; [now left|assumption].
        -- destruct (proj2 IH (or_intror (ex_intro _ l (conj K Hl)))) as (m & Gm & Go).
           exists m. split; [now right|assumption].
Qed.

Lemma out_weights_none f d :
  out_weights d f = None <-> ~ whole_weights f.
Proof.
  revert d; induction f as [|p f IH]; intro d; simpl.
  - split; [discriminate|]. intro H. exfalso. apply H. intros q [].
  - destruct (py_int (snd p)) as [k|] eqn:E.
    + rewrite IH. split.
      * intros H K. apply H. intros q Hq. apply K. now right.
      * intros H K. apply H. intros q [<-|Hq]; [|now apply K].
        exists k. now apply py_int_spec.
    + split; [|reflexivity]. intros _ K.
      destruct (K p (or_introl eq_refl)) as (z & Hz). apply py_int_spec in Hz. congruence.
Qed.

Lemma out_weights_some f d d' :
  good d -> out_weights d f = Some d' ->
  good d' /\
  forall k o, holds d' k o <-> holds d k o \/ exists w, In (o, w) f /\ integer w k.
Proof.
  revert d; induction f as [|p f IH]; intros d Hg; simpl.
  - intro H; injection H as <-. split; [assumption|].
    intros k o. split; [auto|]. intros [H|(w & [] & _)]; assumption.
  - destruct (py_int (snd p)) as [k|] eqn:E; [|discriminate].
    intro H. destruct (IH _ (dict_add_good k (fst p) d Hg) H) as [G1 G2].
    split; [assumption|]. intros x o. rewrite G2, dict_add_holds by apply Hg.
    apply py_int_spec in E. split.
    + intros [[[-> ->]|K]|(w & Hw & Hz)].
      * right. exists (snd p). split; [left; now destruct p|assumption].
      * now left.
      * right. exists w. split; [now right|assumption].
    + intros [K|(w & [K|K] & Hz)].
      * left. now right.
      * subst p. simpl in *. left. left. split; [|reflexivity].
        eapply integer_fun; eassumption.
      * right. exists w. split; assumption.
Qed.

Lemma at_min_none d : at_min d = None <-> d = [].
Proof.
  destruct d as [|e d]; simpl; [tauto|].
  destruct (at_min d) as [m|]; [destruct (fst m <? fst e)%Z|]; split; discriminate.
Qed.

Lemma at_min_some d m :
  at_min d = Some m -> In m d /\ forall e, In e d -> (fst m <= fst e)%Z.
Proof.
  revert m; induction d as [|e d IH]; simpl; intros m H; [discriminate|].
  destruct (at_min d) as [n|] eqn:E.
  - destruct (IH n eq_refl) as [H1 H2].
    destruct (Z.ltb_spec (fst n) (fst e)); injection H as <-.
    + split; [now right|]. intros x [<-|Hx]; [lia|auto].
    + split; [now left|]. intros x [<-|Hx]; [lia|]. specialize (H2 _ Hx). lia.
  - injection H as <-. apply at_min_none in E. subst d.
    split; [now left|]. intros x [<-|[]]. lia.
Qed.

(** What the dictionary holds at its least key are the best outputs. *)
Lemma best_outputs f :
  whole_weights f -> f <> [] ->
  exists d m, out_weights [] f = Some d /\ at_min d = Some m /\
    snd m <> [] /\ NoDup (snd m) /\ forall o, In o (snd m) <-> best f o.
Proof.
  intros Hw Hf.
  destruct (out_weights [] f) as [d|] eqn:Ed; [|now apply out_weights_none in Ed].
  assert (G0 : good []) by (split; [constructor|intros e []]).
  destruct (out_weights_some f [] d G0 Ed) as [[Hk Hs] Hh].
  assert (Hin : forall k o, holds d k o <-> exists w, In (o, w) f /\ integer w k).
  { intros k o. rewrite Hh. split; [|auto]. intros [(l & [] & _)|K]; exact K. }
  destruct (at_min d) as [m|] eqn:Em.
  - exists d, m. destruct (at_min_some _ _ Em) as [Hm Hl].
    destruct (Hs _ Hm) as [Hne Hnd].
    split; [reflexivity|]. split; [exact Em|]. split; [assumption|]. split; [assumption|].
    intro o. split.
    + intro Ho.
      assert (K : holds d (fst m) o) by (exists (snd m); split; [now destruct m|assumption]).
      apply Hin in K. destruct K as (w & K1 & K2).
      exists w, (fst m). split; [assumption|]. split; [assumption|].
      intros p y Hp Hy.
      assert (L : holds d y (fst p)) by (apply Hin; exists (snd p); split; [now destruct p|assumption]).
      destruct L as (l & L & _). exact (Hl _ L).
    + intros (w & z & K1 & K2 & K3).
      assert (L : holds d z o) by (apply Hin; eauto).
      destruct L as (l & L & Lo).
      pose proof (Hl _ L) as Hle. simpl in Hle.
      assert (z <= fst m)%Z.
      { destruct (snd m) as [|o' r] eqn:E; [congruence|].
        assert (P : holds d (fst m) o') by (exists (snd m); split; [now destruct m|rewrite E; now left]).
        apply Hin in P. destruct P as (w' & P1 & P2). exact (K3 (o', w') _ P1 P2). }
      assert (Ez : z = fst m) by lia. subst z.
      assert (El : l = snd m).
      { destruct m as [k lm]. simpl in *.
        clear - Hk L Hm. induction d as [|e d IH]; [destruct L|].
        simpl in Hk. inversion Hk as [|? ? Hn Hd]; subst.
        destruct L as [->|L], Hm as [Hm|Hm].
        - congruence.
        - exfalso. apply Hn. simpl. apply in_map_iff. exists (k, lm). split; [reflexivity|assumption].
        - exfalso. subst e. apply Hn. simpl. apply in_map_iff. exists (k, l). split; [reflexivity|assumption].
        - now apply IH. }
      now subst l.
  - apply at_min_none in Em. subst d. destruct f as [|p f]; [congruence|].
    destruct (Hw p (or_introl eq_refl)) as (z & Hz).
    assert (K : holds [] z (fst p)) by (apply Hin; exists (snd p); split; [left; now destruct p|assumption]).
    destruct K as (l & [] & _).
Qed.

(** ** The three checks *)

Lemma fst_string_some f s : fst_string f = Some s <-> exists w, f = [(s, w)].
Proof.
  destruct f as [|[o w] [|q f]]; simpl; split; try discriminate.
  - intros (w & H); discriminate.
  - intro H; injection H as <-. eauto.
  - intros (v & H); injection H as -> ->. reflexivity.
  - intros (v & H); discriminate.
Qed.

Lemma fst_string_none f : fst_string f = None <-> length f <> 1%nat.
Proof.
  destruct f as [|p [|q f]]; simpl; split; try discriminate; try reflexivity; congruence.
Qed.

Lemma single_path_spec input s f :
  fst_string input = Some s ->
  (assert_single_path input f = Passes <-> length f = 1%nat) /\
  (assert_single_path input f = AssertionError <-> length f <> 1%nat).
Proof.
  intro H. unfold assert_single_path.
  destruct (fst_string f) as [o|] eqn:E.
  - assert (length f = 1%nat) by (apply fst_string_some in E as (w & ->); reflexivity).
    split; split; try discriminate; congruence.
  - rewrite H. apply fst_string_none in E. split; split; try discriminate; congruence.
Qed.

Lemma two_elements (l : list str) :
  NoDup l -> (1 < length l)%nat -> exists a b, In a l /\ In b l /\ a <> b.
Proof.
  destruct l as [|a [|b l]]; simpl; intros H Hl; try lia.
  exists a, b. inversion H as [|? ? Hn _]; subst.
  split; [now left|]. split; [right; now left|].
  intros ->. apply Hn. now left.
Qed.

Lemma single_shortest_spec input s f :
  fst_string input = Some s -> whole_weights f -> f <> [] ->
  (verify_single_shortest input f = Passes <->
   exists o, forall o', best f o' <-> o' = o) /\
  (verify_single_shortest input f = AssertionError <->
   exists a b, best f a /\ best f b /\ a <> b).
Proof.
  intros Hs Hw Hf. destruct (best_outputs f Hw Hf) as (d & m & E1 & E2 & Hne & Hnd & Hb).
  unfold verify_single_shortest. rewrite Hs, E1, E2.
  destruct (Nat.ltb_spec 1 (length (snd m))) as [L|L].
  - destruct (two_elements _ Hnd L) as (a & b & Ha & Hbb & Hab).
    apply Hb in Ha, Hbb. split; split; try discriminate.
    + intros (o & Ho). apply Ho in Ha, Hbb. congruence.
    + intros _. exists a, b. auto.
    + reflexivity.
  - destruct (snd m) as [|o [|x r]]; simpl in L; [congruence| |lia].
    split; split; try discriminate.
    + intros _. exists o. intro o'. rewrite <- Hb. simpl. intuition.
    + reflexivity.
    + intros (a & b & Ha & Hbb & Hab). apply Hb in Ha, Hbb. simpl in Ha, Hbb.
      destruct Ha as [<-|[]], Hbb as [<-|[]]. congruence.
Qed.

Lemma single_shortest_error input s f :
  fst_string input = Some s ->
  (verify_single_shortest input f = ValueError <-> f = [] \/ ~ whole_weights f).
Proof.
  intro Hs. unfold verify_single_shortest. rewrite Hs.
  destruct (out_weights [] f) as [d|] eqn:E.
  - assert (Hw : whole_weights f).
    { intros p Hp. destruct (py_int (snd p)) as [z|] eqn:Ez.
      - exists z. now apply py_int_spec.
      - exfalso. assert (K : out_weights [] f = None); [|congruence].
        apply out_weights_none. intro K. destruct (K p Hp) as (y & Hy).
        apply py_int_spec in Hy. congruence. }
    destruct f as [|p f].
    + injection E as <-. simpl. tauto.
    + destruct (best_outputs (p :: f) Hw) as (d' & m & E1 & E2 & _); [discriminate|].
      rewrite E in E1. injection E1 as <-. rewrite E2.
      destruct (1 <? length (snd m))%nat; split; try discriminate; intros [K|K];
        try discriminate; contradiction.
  - apply out_weights_none in E. split; auto.
Qed.

Lemma identity_spec input s f :
  fst_string input = Some s -> whole_weights f ->
  (assert_identity input f = Passes <-> forall o, best f o <-> o = s) /\
  (assert_identity input f = AssertionError <->
   f = [] \/ exists o, best f o /\ o <> s).
Proof.
  intros Hs Hw. unfold assert_identity. rewrite Hs.
  destruct f as [|p f].
  - simpl. split; split; try discriminate; auto.
    intro H. destruct (proj2 (H s) eq_refl) as (w & z & [] & _).
  - destruct (best_outputs (p :: f) Hw) as (d & m & E1 & E2 & Hne & Hnd & Hb); [discriminate|].
    rewrite E1, E2.
    destruct (filter (fun o => negb (str_eqb o s)) (snd m)) as [|x r] eqn:Ef.
    + assert (All : forall o, In o (snd m) -> o = s).
      { intros o Ho. destruct (str_eqb o s) eqn:Es; [now apply str_eqb_eq|].
        assert (K : In o (filter (fun o => negb (str_eqb o s)) (snd m)))
          by (apply filter_In; split; [assumption|now rewrite Es]).
        rewrite Ef in K. destruct K. }
      split; split; try discriminate.
      * intros _ o. rewrite <- Hb. split; [apply All|]. intros ->.
        destruct (snd m) as [|y l]; [congruence|]. left. apply All. now left.
      * reflexivity.
      * intros [K|(o & Ho & Hn)]; [discriminate|]. apply Hb, All in Ho. congruence.
    + assert (K : In x (filter (fun o => negb (str_eqb o s)) (snd m))) by (rewrite Ef; now left).
      apply filter_In in K as [K1 K2].
      assert (Hx : x <> s).
      { intros ->. rewrite (proj2 (str_eqb_eq s s) eq_refl) in K2. discriminate. }
      split; split; try discriminate.
      * intro H. apply Hb, H in K1. congruence.
      * intros _. right. exists x. split; [now apply Hb|assumption].
      * reflexivity.
Qed.

Lemma identity_error input s f :
  fst_string input = Some s ->
  (assert_identity input f = ValueError <-> ~ whole_weights f).
Proof.
  intro Hs. unfold assert_identity. rewrite Hs. rewrite <- (out_weights_none f []).
  destruct (out_weights [] f) as [d|]; [|tauto].
  split; [|discriminate].
  destruct (at_min d) as [m|]; [|discriminate].
  destruct (filter _ (snd m)); discriminate.
Qed.

(** ** Samples *)

Lemma sampled_passes run norm check samples :
  sampled run norm check samples = Passes <->
  forall l, In l samples -> check_sample run norm check l = Passes.
Proof.
  induction samples as [|l rest IH]; simpl.
  - split; [intros _ l []|reflexivity].
  - destruct (check_sample run norm check l) eqn:E.
    + rewrite IH. split.
      * intros H x [<-|Hx]; auto.
      * intros H x Hx. apply H. now right.
    + split; [discriminate|]. intro H. rewrite (H l (or_introl eq_refl)) in E. discriminate.
    + split; [discriminate|]. intro H. rewrite (H l (or_introl eq_refl)) in E. discriminate.
    + split; [discriminate|]. intro H. rewrite (H l (or_introl eq_refl)) in E. discriminate.
Qed.

Lemma sampled_fails run norm check samples e :
  e <> Passes ->
  (sampled run norm check samples = e <->
   exists a l b, samples = a ++ l :: b /\
     (forall x, In x a -> check_sample run norm check x = Passes) /\
     check_sample run norm check l = e).
Proof.
  intro He. induction samples as [|l rest IH]; simpl.
  - split; [congruence|]. intros ([|x a] & l & b & H & _); discriminate.
  - destruct (check_sample run norm check l) eqn:E.
    + rewrite IH. split.
      * intros (a & x & b & -> & H1 & H2). exists (l :: a), x, b.
        split; [reflexivity|]. split; [|assumption]. intros y [<-|Hy]; auto.
      * intros ([|y a] & x & b & H & H1 & H2); simpl in H; injection H as -> ->.
        -- congruence.
        -- exists a, x, b. split; [reflexivity|]. split; [|assumption].
           intros z Hz. apply H1. now right.
    + split.
      * intros <-. exists [], l, rest. split; [reflexivity|]. split; [intros x []|assumption].
      * intros ([|y a] & x & b & H & H1 & H2); simpl in H; injection H as -> ->; [congruence|].
        specialize (H1 y (or_introl eq_refl)). congruence.
    + split.
      * intros <-. exists [], l, rest. split; [reflexivity|]. split; [intros x []|assumption].
      * intros ([|y a] & x & b & H & H1 & H2); simpl in H; injection H as -> ->; [congruence|].
        specialize (H1 y (or_introl eq_refl)). congruence.
    + split.
      * intros <-. exists [], l, rest. split; [reflexivity|]. split; [intros x []|assumption].
      * intros ([|y a] & x & b & H & H1 & H2); simpl in H; injection H as -> ->; [congruence|].
        specialize (H1 y (or_introl eq_refl)). congruence.
Qed.

Definition no_zero (l : list N) : Prop := forall c, In c l -> c <> 0%N.

Lemma label_fsa_string l : no_zero l -> fst_string (label_fsa l) = Some l.
Proof.
  intro H. unfold label_fsa. simpl. f_equal.
  induction l as [|c l IH]; simpl; [reflexivity|].
  destruct (N.eqb_spec c 0) as [E|E]; simpl.
  - exfalso. exact (H c (or_introl eq_refl) E).
  - f_equal. apply IH. intros x Hx. apply H. now right.
Qed.

Lemma functional_spec run samples :
  (forall l c, In l samples -> In c l -> c <> 0%N) ->
  (probably_functional run samples = Passes <->
   forall l, In l samples -> length (run l) = 1%nat) /\
  (probably_functional run samples <> Passes ->
   probably_functional run samples = AssertionError).
Proof.
  intro Hz.
  assert (One : forall l, In l samples ->
    check_sample run None assert_single_path l = Passes <-> length (run l) = 1%nat).
  { intros l Hl. unfold check_sample.
    rewrite label_fsa_string by (intros c Hc; eapply Hz; eassumption).
    apply (single_path_spec _ l).
    apply label_fsa_string. intros c Hc; eapply Hz; eassumption. }
  split.
  - unfold probably_functional. rewrite sampled_passes. split; intros H l Hl.
    + apply One; auto.
    + apply One; auto.
  - intro H. remember (probably_functional run samples) as e eqn:E. symmetry in E.
    unfold probably_functional in E. apply sampled_fails in E; [|assumption].
    destruct E as (a & l & b & -> & _ & E).
    assert (Hl : In l (a ++ l :: b)) by (apply in_app_iff; right; now left).
    subst e. unfold check_sample in *.
    rewrite label_fsa_string in * by (intros c Hc; eapply Hz; eassumption).
    pose proof (single_path_spec (label_fsa l) l (run l)) as P.
    destruct P as [P1 P2]; [apply label_fsa_string; intros c Hc; eapply Hz; eassumption|].
    apply P2. intro K. apply H. now apply P1.
Qed.

Lemma shortest_samples run samples :
  (forall l c, In l samples -> In c l -> c <> 0%N) ->
  (probably_single_shortest run samples = Passes <->
   forall l, In l samples ->
     whole_weights (run l) /\ exists o, forall o', best (run l) o' <-> o' = o).
Proof.
  intro Hz. unfold probably_single_shortest. rewrite sampled_passes.
  assert (One : forall l, In l samples ->
    check_sample run None verify_single_shortest l = Passes <->
    whole_weights (run l) /\ exists o, forall o', best (run l) o' <-> o' = o).
  { intros l Hl.
    assert (E : fst_string (label_fsa l) = Some l)
      by (apply label_fsa_string; intros c Hc; eapply Hz; eassumption).
    unfold check_sample. rewrite E.
    pose proof (single_shortest_error _ _ (run l) E) as P.
    split.
    - intro H.
      assert (Hn : ~ (run l = [] \/ ~ whole_weights (run l))).
      { intro K. apply P in K. congruence. }
      assert (Hw : whole_weights (run l)).
      { destruct (out_weights [] (run l)) eqn:Eo.
        - intros p Hp. destruct (py_int (snd p)) as [z|] eqn:Ez;
            [exists z; now apply py_int_spec|].
          exfalso. apply Hn. right. intro K. destruct (K p Hp) as (y & Hy).
          apply py_int_spec in Hy. congruence.
        - exfalso. apply Hn. right. now apply (out_weights_none _ []). }
      split; [assumption|].
      apply (single_shortest_spec _ _ (run l) E Hw); [|assumption].
      intro K. apply Hn. now left.
    - intros [Hw (o & Ho)].
      apply (single_shortest_spec _ _ (run l) E Hw); [|eauto].
      intro K. destruct (proj2 (Ho o) eq_refl) as (w & z & Hin & _).
      rewrite K in Hin. destruct Hin. }
  split; intros H l Hl; apply One; auto.
Qed.

Lemma identity_samples run norm samples :
  (forall l c, In l samples -> In c l -> c <> 0%N) ->
  (probably_identity run norm samples = Passes <->
   forall l, In l samples ->
     whole_weights (run l) /\
     exists s w, norm l = [(s, w)] /\ forall o, best (run l) o <-> o = s).
Proof.
  intro Hz. unfold probably_identity. rewrite sampled_passes.
  assert (One : forall l, In l samples ->
    check_sample run (Some norm) assert_identity l = Passes <->
    whole_weights (run l) /\
    exists s w, norm l = [(s, w)] /\ forall o, best (run l) o <-> o = s).
  { intros l Hl.
    assert (E : fst_string (label_fsa l) = Some l)
      by (apply label_fsa_string; intros c Hc; eapply Hz; eassumption).
    unfold check_sample. rewrite E.
    split.
    - intro H.
      destruct (fst_string (norm l)) as [s|] eqn:En.
      + assert (Hw : whole_weights (run l)).
        { intros p Hp. destruct (py_int (snd p)) as [z|] eqn:Ez;
            [exists z; now apply py_int_spec|].
          exfalso. assert (K : assert_identity (norm l) (run l) = ValueError); [|congruence].
          apply (identity_error _ _ _ En). intro K. destruct (K p Hp) as (y & Hy).
          apply py_int_spec in Hy. congruence. }
        split; [assumption|].
        pose proof (proj1 (identity_spec _ _ _ En Hw)) as P.
        apply fst_string_some in En as (w & En).
        exists s, w. split; [assumption|]. now apply P.
      + unfold assert_identity in H. rewrite En in H. discriminate.
    - intros [Hw (s & w & En & Hb)].
      apply (identity_spec (norm l) s (run l)); [|assumption|assumption].
      apply fst_string_some. eauto. }
  split; intros H l Hl; apply One; auto.
Qed.

Lemma norm_not_a_string run norm l rest :
  no_zero l -> length (norm l) <> 1%nat ->
  probably_identity run norm (l :: rest) = FstOpError.
Proof.
  intros Hz Hn. unfold probably_identity. simpl. unfold check_sample.
  rewrite (label_fsa_string l Hz). unfold assert_identity.
  now rewrite (proj2 (fst_string_none (norm l)) Hn).
Qed.

Definition long_twice (s : str) : list path :=
  if (length s <=? max_sample_length)%nat then [(s, [48%N])]
  else [(s, [48%N]); ([], [48%N])].

Lemma length_refuted :
  exists run : str -> list path,
    (exists s, (length (run s) > 1)%nat) /\
    forall samples,
      (forall l, In l samples -> (length l <= max_sample_length)%nat) ->
      probably_functional run samples = Passes.
Proof.
  exists long_twice. split.
  - exists [1; 1; 1; 1; 1; 1]%N. unfold long_twice. simpl. lia.
  - intros samples H. unfold probably_functional. apply sampled_passes.
    intros l Hl. unfold check_sample, label_fsa. simpl.
    unfold assert_single_path, long_twice.
    assert (L : (length (filter (fun x => negb (x =? 0)%N) l) <= max_sample_length)%nat).
    { specialize (H l Hl). clear Hl. eapply Nat.le_trans; [|exact H]. clear H.
      induction l as [|c l IH]; simpl; [lia|].
      destruct (negb (c =? 0)%N); simpl; lia. }
    apply Nat.leb_le in L. now rewrite L.
Qed.

(** ** Pairs of input and output *)

Lemma str_io_spec run i e :
  (assert_str_io run i e = Passes <-> exists w, run i = [(e, w)]) /\
  (assert_str_io run i e = AssertionError <-> exists o w, run i = [(o, w)] /\ o <> e) /\
  (assert_str_io run i e = FstOpError <-> length (run i) <> 1%nat).
Proof.
  unfold assert_str_io. destruct (fst_string (run i)) as [o|] eqn:E.
  - apply fst_string_some in E as (w & E). rewrite E.
    destruct (str_eqb o e) eqn:Es.
    + apply str_eqb_eq in Es. subst o. split; [|split]; split; try discriminate; eauto.
      * intros (o & w' & H & Hn). injection H as -> ->. congruence.
      * simpl. congruence.
    + assert (Hn : o <> e) by (intros ->; rewrite (proj2 (str_eqb_eq e e) eq_refl) in Es; discriminate).
      split; [|split]; split; try discriminate; eauto.
      * intros (w' & H). injection H as -> ->. congruence.
      * simpl. congruence.
  - apply fst_string_none in E. split; [|split]; split; try discriminate; auto.
    + intros (w & H). rewrite H in E. simpl in E. congruence.
    + intros (o & w & H & _). rewrite H in E. simpl in E. congruence.
Qed.

Lemma all_pairs_spec run pairs :
  all_pairs run pairs = Passes <->
  forall i e, In (i, e) pairs -> exists w, run i = [(e, w)].
Proof.
  induction pairs as [|[i e] pairs IH]; simpl.
  - split; [intros _ i e []|reflexivity].
  - pose proof (proj1 (str_io_spec run i e)) as P.
    destruct (assert_str_io run i e) eqn:E.
    + rewrite IH. split.
      * intros H j f [K|K]; [|now apply H]. injection K as <- <-. now apply P.
      * intros H j f K. apply H. now right.
    + split; [discriminate|]. intro H. apply P. apply H. now left.
    + split; [discriminate|]. intro H. apply P. apply H. now left.
    + split; [discriminate|]. intro H. apply P. apply H. now left.
Qed.

Lemma all_cases_spec builder (build : bool -> builder -> str -> list path) cases :
  all_cases builder build cases = Passes <->
  forall b pairs i e (utf8 : bool),
    In (b, pairs) cases -> In (i, e) pairs -> exists w, build utf8 b i = [(e, w)].
Proof.
  induction cases as [|[b pairs] cases IH]; simpl.
  - split; [intros _ b pairs i e u []|reflexivity].
  - pose proof (all_pairs_spec (build true b) pairs) as P.
    pose proof (all_pairs_spec (build false b) pairs) as Q.
    destruct (all_pairs (build true b) pairs) eqn:Et.
    2-4: split; [discriminate|]; intro H; apply P; intros i e Hi; eapply H; [now left|assumption].
    destruct (all_pairs (build false b) pairs) eqn:Ef.
    2-4: split; [discriminate|]; intro H; apply Q; intros i e Hi; eapply H; [now left|assumption].
    rewrite IH. split.
    + intros H b' p' i e u [K|K] Hi; [|now apply (H b' p')].
      injection K as <- <-. destruct u; [now apply P|now apply Q].
    + intros H b' p' i e u K Hi. apply (H b' p'); [now right|assumption].
Qed.

Lemma single_path_input input f : length input <> 1%nat ->
  (assert_single_path input f = Passes <-> length f = 1%nat) /\
  (assert_single_path input f = FstOpError <-> length f <> 1%nat).
Proof.
  intro H. unfold assert_single_path, fst_string.
  destruct f as [|p [|q f]].
  - destruct input as [|i [|j input]]; [| |]; simpl in *; try congruence; repeat split; congruence.
  - simpl. repeat split; congruence.
  - destruct input as [|i [|j input]]; simpl in *; try congruence; repeat split; congruence.
Qed.
