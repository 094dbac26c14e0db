From Verif Require Import Base ContainerModel ContainerSpec.

Lemma memN_In k ks : memN k ks = true <-> In k ks.
Proof.
  unfold memN. rewrite existsb_exists. split.
  - intros (y & I & E). apply N.eqb_eq in E. subst. exact I.
  - intros I. exists k. split; auto. apply N.eqb_refl.
Qed.

Lemma valid_item_spec h c x k : known h x k -> exists b, valid_item h c x = Some b /\ (b = true <-> accepted c k).
Proof.
  unfold known, valid_item, accepted. intros ->. eexists. split; [reflexivity|].
  destruct (c_type c) as [ks|]; [apply memN_In|].
  rewrite andb_true_iff, !negb_true_iff, !N.eqb_neq. split; intros [A B]; split; auto; congruence.
Qed.
Lemma valid_true h c x k : known h x k -> accepted c k -> valid_item h c x = Some true.
Proof. intros K A. destruct (valid_item_spec h c x k K) as ([] & E & I); auto. destruct I as [_ I]. discriminate (I A). Qed.
Lemma valid_false h c x k : known h x k -> ~ accepted c k -> valid_item h c x = Some false.
Proof. intros K A. destruct (valid_item_spec h c x k K) as ([] & E & I); auto. destruct A. apply I. reflexivity. Qed.
Lemma valid_inv h c x b : valid_item h c x = Some b -> exists k, known h x k /\ (b = true <-> accepted c k).
Proof.
  intros V. destruct (class_of h x) as [k|] eqn:E; [|unfold valid_item in V; rewrite E in V; discriminate].
  exists k. split; auto. destruct (valid_item_spec h c x k E) as (b' & E' & I). rewrite V in E'. injection E' as <-. exact I.
Qed.

(** Heaps with the same containers, which differ only in the items of [a] *)
Definition similar (h h1 : heap) (a : nat) : Prop :=
  length h = length h1 /\ (forall b, b <> a -> nth_error h b = nth_error h1 b) /\
  forall c, nth_error h a = Some c -> exists c1, nth_error h1 a = Some c1 /\ c_class c1 = c_class c /\ c_type c1 = c_type c.

Lemma similar_refl h a : similar h h a.
Proof. repeat split; auto. intros c E. eauto. Qed.
Lemma similar_trans h h1 h2 a : similar h h1 a -> similar h1 h2 a -> similar h h2 a.
Proof.
  intros (L & A & B) (L' & A' & B'). repeat split; try congruence.
  - intros b N. rewrite A, A'; auto.
  - intros c E. destruct (B c E) as (c1 & E1 & K & T). destruct (B' c1 E1) as (c2 & E2 & K2 & T2). exists c2. repeat split; congruence.
Qed.
Lemma similar_known h h1 a x k : similar h h1 a -> known h x k -> known h1 x k.
Proof.
  intros (L & A & B). unfold known. destruct x as [| | | |b]; simpl; auto.
  destruct (Nat.eq_dec b a) as [->|N].
  - destruct (nth_error h a) as [c|] eqn:E; [|discriminate]. destruct (B c eq_refl) as (c1 & -> & K & _). simpl. rewrite K. auto.
  - rewrite A by auto. auto.
Qed.

Lemma replace_length {A} (l : list A) n x : length (replace l n x) = length l.
Proof. revert n; induction l; destruct n; simpl; auto. Qed.
Lemma replace_same {A} (l : list A) n x y : nth_error l n = Some y -> nth_error (replace l n x) n = Some x.
Proof. revert n; induction l; destruct n; simpl; auto; discriminate. Qed.
Lemma replace_other {A} (l : list A) n m x : n <> m -> nth_error (replace l n x) m = nth_error l m.
Proof. revert n m; induction l; destruct n, m; simpl; auto; try lia. Qed.

Lemma append_grown h a c x : nth_error h a = Some c -> exists h', append h a x = Some h' /\ grown h h' a [x].
Proof.
  intros E. unfold append. rewrite E. eexists. split; [reflexivity|]. repeat split.
  - apply replace_length.
  - intros b c' N E'. rewrite replace_other; auto.
  - intros c' E'. rewrite (replace_same _ _ _ _ E). congruence.
Qed.
Lemma grown_nil h a : grown h h a [].
Proof. repeat split; auto. intros [k t l] E. simpl. rewrite app_nil_r. exact E. Qed.
Lemma grown_trans h h1 h2 a c ys zs : nth_error h a = Some c -> grown h h1 a ys -> grown h1 h2 a zs -> grown h h2 a (ys ++ zs).
Proof.
  intros E (L & A & B) (L' & A' & B'). repeat split; try congruence.
  - intros b c' N E'. auto.
  - intros c' E'. rewrite (B' _ (B _ E')). simpl. rewrite app_assoc. reflexivity.
Qed.
Lemma grown_similar h h1 a c ys : nth_error h a = Some c -> grown h h1 a ys -> similar h h1 a.
Proof.
  intros E (L & A & B). repeat split; auto.
  - intros b N. destruct (nth_error h b) as [d|] eqn:E'.
    + symmetry. auto.
    + symmetry. apply nth_error_None. rewrite L. apply nth_error_None. exact E'.
  - intros d E'. eexists. split; [apply B; eauto|]. auto.
Qed.
Lemma grown_eq h h1 h2 a ys : grown h h1 a ys -> grown h h2 a ys -> forall c, nth_error h a = Some c -> h1 = h2.
Proof.
  intros G G' c E.
  assert (P : forall b, nth_error h1 b = nth_error h2 b).
  { intros b. destruct (Nat.eq_dec b a) as [->|N].
    - destruct G as (_ & _ & B), G' as (_ & _ & B'). rewrite (B _ E), (B' _ E). reflexivity.
    - destruct (grown_similar _ _ _ _ _ E G) as (_ & A & _), (grown_similar _ _ _ _ _ E G') as (_ & A' & _). rewrite <- A, <- A'; auto. }
  assert (L : length h1 = length h2) by (destruct G as (-> & _), G' as (-> & _); reflexivity).
  clear - P. revert h2 P. induction h1 as [|x l IH]; intros [|y l'] P; auto; try (specialize (P 0); discriminate).
  f_equal; [specialize (P 0); injection P; auto|]. apply IH. intros b. exact (P (S b)).
Qed.

Scheme takes_ind2 := Induction for takes Sort Prop with takes_all_ind2 := Induction for takes_all Sort Prop.
Combined Scheme takes_mut from takes_ind2, takes_all_ind2.

Lemma for_each_app {A B} (f : A -> B -> option A) s xs ys s1 : for_each f s xs = Some s1 -> for_each f s (xs ++ ys) = for_each f s1 ys.
Proof. revert s; induction xs as [|x xs IH]; simpl; intros s E; [congruence|]. destruct (f s x); [auto|discriminate]. Qed.

Definition step_one (d : nat) (a : nat) (h : heap) (x : obj) : option heap :=
  match nth_error h a with
  | None => None
  | Some c =>
    match valid_item h c x with
    | None => None
    | Some true => append h a x
    | Some false => match iterate h x with Some items => add d h a items | None => Some h end
    end
  end.
Lemma add_eq d h a xs : add (S d) h a xs = for_each (step_one d a) h xs.
Proof. reflexivity. Qed.

Lemma accepted_same c c1 k : c_class c1 = c_class c -> c_type c1 = c_type c -> accepted c k -> accepted c1 k.
Proof. unfold accepted. intros -> ->. auto. Qed.

Lemma add_both h a c : nth_error h a = Some c ->
  (forall x ys, takes h a c x ys -> exists d0, forall d h1, d0 <= d -> similar h h1 a -> exists h', step_one d a h1 x = Some h' /\ grown h1 h' a ys) /\
  (forall xs ys, takes_all h a c xs ys -> exists d0, forall d h1, d0 <= d -> similar h h1 a -> exists h', for_each (step_one d a) h1 xs = Some h' /\ grown h1 h' a ys).
Proof.
  intros E. apply takes_mut.
  - intros x k K A. exists 0. intros d h1 _ S1. pose proof S1 as (_ & _ & S2). destruct (S2 c E) as (c1 & E1 & Kc & T). unfold step_one. rewrite E1.
    rewrite (valid_true h1 c1 x k) by eauto using similar_known, accepted_same. apply append_grown with c1. exact E1.
  - intros x k items ys K A X C T (d0 & IH). exists (S d0). intros d h1 L S1. pose proof S1 as (_ & S3 & S2). destruct (S2 c E) as (c1 & E1 & Kc & Ty). unfold step_one. rewrite E1.
    rewrite (valid_false h1 c1 x k).
    2:{ eapply similar_known; eauto. } 2:{ intros A'. apply A. eapply accepted_same; [| |exact A']; auto. }
    assert (It : iterate h1 x = Some items).
    { destruct x as [| | |k' l|b]; simpl in *; try contradiction; [congruence|]. destruct C as (c' & E' & ->). assert (b <> a) by (intros ->; auto). rewrite <- S3, E' by auto. reflexivity. }
    rewrite It. destruct d as [|d]; [lia|]. rewrite add_eq. apply IH; auto. lia.
  - intros x k K A R G. exists 0. intros d h1 _ S1. pose proof S1 as (_ & S3 & S2). destruct (S2 c E) as (c1 & E1 & Kc & Ty). unfold step_one. rewrite E1.
    rewrite (valid_false h1 c1 x k).
    2:{ eapply similar_known; eauto. } 2:{ intros A'. apply A. eapply accepted_same; [| |exact A']; auto. }
    destruct x as [| | |k' l|b]; simpl; try (eexists; split; [reflexivity|apply grown_nil]).
    + destruct (G k' l). reflexivity.
    + destruct (R b). reflexivity.
  - exists 0. intros d h1 _ _. exists h1. split; [reflexivity|apply grown_nil].
  - intros x xs ys zs T (d1 & IH1) Ts (d2 & IH2). exists (max d1 d2). intros d h1 L S1.
    destruct (IH1 d h1) as (h2 & E2 & G2); auto; [lia|]. pose proof S1 as (_ & _ & S2). destruct (S2 c E) as (c1 & E1 & _).
    destruct (IH2 d h2) as (h3 & E3 & G3); [lia| |].
    { eapply similar_trans; [exact S1|]. eapply grown_similar; eauto. }
    exists h3. simpl. rewrite E2. split; auto. eapply grown_trans; eauto.
Qed.

(** Adding stores what is taken, after what was there, and changes nothing else. *)
Lemma add_takes h a c xs ys : nth_error h a = Some c -> takes_all h a c xs ys ->
  exists h' d0, grown h h' a ys /\ forall d, d0 <= d -> add d h a xs = Some h'.
Proof.
  intros E T. destruct (add_both h a c E) as [_ P]. destruct (P xs ys T) as (d0 & Q).
  destruct (Q d0 h) as (h' & F & G); auto using similar_refl.
  exists h', (S d0). split; auto. intros d L. destruct d as [|d]; [lia|]. rewrite add_eq.
  destruct (Q d h) as (h2 & F2 & G2); [lia|apply similar_refl|]. rewrite F2. f_equal. eapply grown_eq; eauto.
Qed.

Lemma takes_unique h a c :
  (forall x ys, takes h a c x ys -> forall zs, takes h a c x zs -> ys = zs) /\
  (forall xs ys, takes_all h a c xs ys -> forall zs, takes_all h a c xs zs -> ys = zs).
Proof.
  apply takes_mut.
  - intros x k K A zs T. inversion T; subst; auto; exfalso; unfold known in *; assert (k0 = k) by congruence; subst; auto.
  - intros x k items ys K A X C T IH zs T'. inversion T'; subst.
    + exfalso; unfold known in *; assert (k0 = k) by congruence; subst; auto.
    + apply IH. assert (items0 = items) as <-; auto. destruct x as [| | |k' l|b]; simpl in *; try contradiction; [congruence|].
      destruct C as (c1 & E1 & ->), H2 as (c2 & E2 & ->). congruence.
    + destruct x as [| | |k' l|b]; simpl in *; try contradiction; [destruct (H2 k' l)|destruct (H1 b)]; reflexivity.
  - intros x k K A R G zs T. inversion T; subst; auto.
    + exfalso; unfold known in *; assert (k0 = k) by congruence; subst; auto.
    + destruct x as [| | |k' l|b]; simpl in *; try contradiction; [destruct (G k' l)|destruct (R b)]; reflexivity.
  - intros zs T. inversion T. reflexivity.
  - intros x xs ys zs T IH Ts IHs ws T'. inversion T'; subst. f_equal; auto.
Qed.

(** ** Acyclic heaps *)

Section ObjInd.
  Variable P : obj -> Prop.
  Hypothesis HP : forall k i, P (Plain k i).
  Hypothesis HT : forall s, P (Text s).
  Hypothesis HN : forall i, P (Nought i).
  Hypothesis HG : forall k l, Forall P l -> P (Group k l).
  Hypothesis HR : forall b, P (Ref b).
  Fixpoint obj_rect2 (x : obj) : P x :=
    match x with
    | Plain k i => HP k i | Text s => HT s | Nought i => HN i | Ref b => HR b
    | Group k l => HG k l ((fix go l := match l return Forall P l with [] => Forall_nil P | y :: r => Forall_cons y (obj_rect2 y) (go r) end) l)
    end.
End ObjInd.

Lemma accepted_dec c k : accepted c k \/ ~ accepted c k.
Proof.
  unfold accepted. destruct (c_type c) as [ks|].
  - destruct (in_dec N.eq_dec k ks); auto.
  - destruct (N.eq_dec k nothing_class), (N.eq_dec k (c_class c)); intuition congruence.
Qed.

Lemma takes_exists h a c rank : nth_error h a = Some c -> acyclic h rank ->
  forall n x, (forall d, In d (refs x) -> rank d < n /\ d < length h /\ ~ reaches h d a) -> exists ys, takes h a c x ys.
Proof.
  intros E AC. induction n as [n IHn] using (well_founded_induction lt_wf). induction x as [k i|s|i|k l IH|b] using obj_rect2; intros R.
  - destruct (accepted_dec c k) as [A|A].
    + eexists. eapply takes_it; [reflexivity|exact A].
    + eexists. eapply takes_nothing; [reflexivity|exact A| |]; congruence.
  - destruct (accepted_dec c str_class) as [A|A].
    + eexists. eapply takes_it; [reflexivity|exact A].
    + eexists. eapply takes_nothing; [reflexivity|exact A| |]; congruence.
  - destruct (accepted_dec c nothing_class) as [A|A].
    + eexists. eapply takes_it; [reflexivity|exact A].
    + eexists. eapply takes_nothing; [reflexivity|exact A| |]; congruence.
  - destruct (accepted_dec c k) as [A|A].
    + eexists. eapply takes_it; [reflexivity|exact A].
    + assert (exists ys, takes_all h a c l ys) as (ys & T).
      { simpl in R. clear A. induction IH as [|y l Hy Hl IHl]; [eexists; constructor|].
        destruct Hy as (ys & T); [intros d I; apply R; simpl; apply in_or_app; auto|].
        destruct IHl as (zs & Ts); [intros d I; apply R; simpl; apply in_or_app; auto|].
        exists (ys ++ zs). constructor; auto. }
      exists ys. eapply takes_items; [reflexivity|exact A|discriminate|reflexivity|exact T].
  - destruct (R b (or_introl eq_refl)) as (Rb & Lb & Nb). destruct (nth_error h b) as [cb|] eqn:Eb; [|apply nth_error_None in Eb; lia].
    destruct (accepted_dec c (c_class cb)) as [A|A].
    + eexists. eapply takes_it; [unfold known; simpl; rewrite Eb; reflexivity|exact A].
    + assert (exists ys, takes_all h a c (c_items cb) ys) as (ys & T).
      { assert (Q : forall y, In y (c_items cb) -> exists ys, takes h a c y ys).
        { intros y I. apply (IHn (rank b) Rb). intros d Id. destruct (AC b cb d Eb) as [A1 A2]; [apply in_flat_map; eauto|]. repeat split; auto.
          intros Re. apply Nb. eapply reaches_more; [exact Eb| |exact Re]. apply in_flat_map; eauto. }
        clear - Q. induction (c_items cb) as [|y l IH]; [eexists; constructor|].
        destruct (Q y (or_introl eq_refl)) as (ys & T). destruct IH as (zs & Ts); [intros z I; apply Q; right; exact I|]. exists (ys ++ zs). constructor; auto. }
      exists ys. eapply takes_items with (items := c_items cb); [unfold known; simpl; rewrite Eb; reflexivity|exact A| | |exact T].
      * intros X. injection X as ->. apply Nb. constructor.
      * simpl. eauto.
Qed.

(** No recursion limit is too small when the heap is acyclic: adding works. *)
Lemma add_acyclic h a c rank xs : nth_error h a = Some c -> acyclic h rank ->
  (forall d, In d (flat_map refs xs) -> d < length h /\ ~ reaches h d a) ->
  exists ys h' d0, takes_all h a c xs ys /\ grown h h' a ys /\ forall d, d0 <= d -> add d h a xs = Some h'.
Proof.
  intros E AC R. assert (exists ys, takes_all h a c xs ys) as (ys & T).
  { induction xs as [|x xs IH]; [eexists; constructor|]. simpl in R.
    destruct (takes_exists h a c rank E AC (S (list_max (map rank (refs x)))) x) as (ys & T).
    - intros d I. destruct (R d) as [A B]; [apply in_or_app; auto|]. repeat split; auto.
      assert (Q := proj1 (list_max_le (map rank (refs x)) _) (le_n _)). rewrite Forall_forall in Q. specialize (Q (rank d) (in_map rank _ _ I)). lia.
    - destruct IH as (zs & Ts); [intros d I; apply R, in_or_app; auto|]. exists (ys ++ zs). constructor; auto. }
  destruct (add_takes h a c xs ys E T) as (h' & d0 & G & Q). eauto 10.
Qed.

(** ** Well typed heaps *)
Lemma same_known h h1 : length h = length h1 -> (forall b c, nth_error h b = Some c -> exists c1, nth_error h1 b = Some c1 /\ c_class c1 = c_class c) ->
  forall x k, known h x k -> known h1 x k.
Proof.
  intros L S1 x k. unfold known. destruct x as [| | | |b]; simpl; auto. destruct (nth_error h b) as [c|] eqn:E; [|discriminate].
  destruct (S1 b c E) as (c1 & -> & K). simpl. rewrite K. auto.
Qed.
Lemma step_one_typed d : (forall h a xs h', well_typed h -> add d h a xs = Some h' -> well_typed h') -> forall h a x h', well_typed h -> step_one d a h x = Some h' -> well_typed h'.
Proof.
  intros IH h a x h' W. unfold step_one. destruct (nth_error h a) as [c|] eqn:E; [|discriminate]. destruct (valid_item h c x) as [[]|] eqn:V; [| |discriminate].
  - destruct (valid_inv _ _ _ _ V) as (k & K & A). intros P. destruct (append_grown h a c x E) as (h2 & P2 & G). rewrite P in P2. injection P2 as <-.
    pose proof (grown_similar _ _ _ _ _ E G) as S1.
    intros b cb y Eb I. destruct (Nat.eq_dec b a) as [->|N].
    + destruct G as (_ & _ & G). rewrite (G c E) in Eb. injection Eb as <-. simpl in I. apply in_app_or in I as [I|[<-|[]]].
      * destruct (W a c y E I) as (k' & K' & A'). exists k'. split; [eapply similar_known; eauto|]. exact A'.
      * exists k. split; [eapply similar_known; eauto|]. apply A. reflexivity.
    + destruct S1 as (L & S2 & S3). rewrite <- S2 in Eb by auto. destruct (W b cb y Eb I) as (k' & K' & A'). exists k'. split; auto. eapply similar_known; [|exact K']. repeat split; eauto.
  - destruct (iterate h x) as [items|]; [|intros E1; injection E1 as <-; exact W]. apply IH. exact W.
Qed.
Lemma add_typed d h a xs h' : well_typed h -> add d h a xs = Some h' -> well_typed h'.
Proof.
  revert h a xs h'. induction d as [|d IH]; [discriminate|]. intros h a xs h' W. rewrite add_eq. revert h W. induction xs as [|x xs IHx]; simpl; intros h W E; [injection E as <-; exact W|].
  destruct (step_one d a h x) as [h1|] eqn:E1; [|discriminate]. apply (IHx h1); auto. eapply step_one_typed; eauto.
Qed.

Lemma steps_typed depth os h : steps depth os = Some h -> well_typed h.
Proof.
  unfold steps. assert (W : well_typed []) by (intros b c x E; destruct b; discriminate E). revert W. generalize (@nil container) as h0.
  induction os as [|o os IH]; simpl; intros h0 W E; [injection E as <-; exact W|]. destruct (step depth h0 o) as [h1|] eqn:E1; [|discriminate]. apply (IH h1); auto.
  destruct o as [k t xs|a xs]; simpl in E1; [|eapply add_typed; eauto].
  eapply add_typed; [|exact E1]. intros b c x Eb I. destruct (Nat.lt_ge_cases b (length h0)) as [L|L].
  - rewrite nth_error_app1 in Eb by auto. destruct (W b c x Eb I) as (k' & K & A). exists k'. split; auto.
    unfold known in *. destruct x as [| | | |d]; simpl in *; auto. destruct (nth_error h0 d) as [cd|] eqn:Ed; [|discriminate].
    rewrite nth_error_app1, Ed; auto. apply nth_error_Some. congruence.
  - rewrite nth_error_app2 in Eb by auto. destruct (b - length h0) as [|[|n]]; simpl in Eb; try discriminate. injection Eb as <-. destruct I.
Qed.

(** A container that does not accept itself takes its own items a second time. *)
Lemma add_self d h a c : well_typed h -> nth_error h a = Some c -> ~ accepted c (c_class c) ->
  exists h', add (S (S d)) h a [Ref a] = Some h' /\ grown h h' a (c_items c).
Proof.
  intros W E A. rewrite add_eq. assert (K : known h (Ref a) (c_class c)) by (unfold known; simpl; rewrite E; reflexivity).
  cbn [for_each]. unfold step_one. rewrite E, (valid_false h c (Ref a) _ K A). cbn [iterate]. rewrite E. cbn [option_map]. rewrite add_eq.
  assert (Q : forall l h1, (forall x, In x l -> exists k, known h x k /\ accepted c k) -> similar h h1 a -> exists h', for_each (step_one d a) h1 l = Some h' /\ grown h1 h' a l).
  { induction l as [|x l IH]; intros h1 F S1; [exists h1; split; [reflexivity|apply grown_nil]|].
    destruct (F x (or_introl eq_refl)) as (k & Kx & Ax). pose proof S1 as (_ & _ & S2). destruct (S2 c E) as (c1 & E1 & Kc & T).
    cbn [for_each]. unfold step_one at 1. rewrite E1, (valid_true h1 c1 x k) by eauto using similar_known, accepted_same.
    destruct (append_grown h1 a c1 x E1) as (h2 & E2 & G2). rewrite E2.
    destruct (IH h2) as (h3 & E3 & G3); [intros y I; apply F; right; exact I|eapply similar_trans; [exact S1|eapply grown_similar; eauto]|].
    exists h3. split; auto. change (x :: l) with ([x] ++ l). eapply grown_trans; eauto. }
  destruct (Q (c_items c) h) as (h' & E' & G'); [intros x I; apply (W a c x E I)|apply similar_refl|].
  exists h'. rewrite E'. split; auto.
Qed.

(** Two containers each holding the other: adding one to a container of numbers never ends. *)
Definition tangled : heap := [Container 10 None [Ref 1]; Container 11 None [Ref 0]; Container 12 (Some [2%N]) []].
Lemma tangled_loop d : add d tangled 2 [Ref 0] = None /\ add d tangled 2 [Ref 1] = None.
Proof. induction d as [|d [A B]]; [split; reflexivity|]. rewrite !add_eq. cbn [for_each]. unfold step_one. cbn -[add]. split; [rewrite B|rewrite A]; reflexivity. Qed.
Lemma tangled_made : exists d os, steps d os = Some tangled.
Proof. exists 5, [Make 10 None []; Make 11 None [Ref 0]; Add 0 [Ref 1]; Make 12 (Some [2%N]) []]. vm_compute. reflexivity. Qed.

(** ** item *)
Lemma item_forward l i d : i < length l -> item l (Z.of_nat i) d = nth_error l i.
Proof.
  intros L. unfold item. destruct ((- Z.of_nat (length l) <=? Z.of_nat i)%Z) eqn:A; [|lia]. destruct ((Z.of_nat i <? Z.of_nat (length l))%Z) eqn:B; [|lia]. simpl.
  destruct ((Z.of_nat i <? 0)%Z) eqn:C; [lia|]. rewrite Nat2Z.id. reflexivity.
Qed.
Lemma item_backward l i d : i < length l -> item l (- Z.of_nat (S i)) d = nth_error (rev l) i.
Proof.
  intros L. unfold item. rewrite (proj2 (Z.leb_le _ _)) by lia. rewrite (proj2 (Z.ltb_lt _ _)) by lia. cbn [andb].
  rewrite (proj2 (Z.ltb_lt _ _)) by lia.
  replace (Z.to_nat (- Z.of_nat (S i) + Z.of_nat (length l))) with (length l - S i) by lia.
  assert (x0 : obj) by exact (Nought 0). rewrite (nth_error_nth' l x0) by lia. rewrite (nth_error_nth' (rev l) x0) by (rewrite rev_length; lia).
  rewrite rev_nth by lia. reflexivity.
Qed.
Lemma item_outside l i d : (i < - Z.of_nat (length l) \/ Z.of_nat (length l) <= i)%Z -> item l i d = Some d.
Proof. intros L. unfold item. destruct ((- Z.of_nat (length l) <=? i)%Z) eqn:A, ((i <? Z.of_nat (length l))%Z) eqn:B; simpl; auto; lia. Qed.

(** ** Equality *)
Section Equality.
  Variable fst : Type.
  Variable fst_string : fst -> option str.
  Variable pyn_equal : fst + str -> fst + str -> bool.
  Variable eq : value fst -> value fst -> bool.
  Notation is_equal := (is_equal fst_string pyn_equal eq).

  Lemma nothing_never x y : nothing_like x -> is_equal x y = false /\ is_equal y x = false.
  Proof.
    intros (i & [->|(t & ->)]); unfold ContainerModel.is_equal; simpl; destruct y; simpl; auto;
      rewrite ?orb_true_r; simpl; auto; split; try (destruct v; auto); auto.
  Qed.
  Lemma equal_values x y : is_fst x = false -> is_fst y = false -> ~ nothing_like x -> ~ nothing_like y ->
    is_equal x y = eq (value_of x) (value_of y).
  Proof.
    intros A B C D. unfold ContainerModel.is_equal. rewrite A, B. simpl.
    assert (N : forall z : value fst, ~ nothing_like z -> is_nothing (value_of z) = false).
    { intros z H. destruct z as [| |i|t [v|]|]; simpl; auto; [destruct H; exists i; auto|]. destruct v; simpl; auto. destruct H. eexists. right. eauto. }
    rewrite (N x C), (N y D). simpl. apply negb_involutive.
  Qed.
  Lemma equal_strings f s g : fst_string f = Some s -> fstlike g <> None ->
    forall t, (match fstlike g with Some u => string_of fst_string u | None => None end) = Some t -> is_equal (VFst f) g = str_eqb s t /\ is_equal g (VFst f) = str_eqb t s.
  Proof.
    intros E F t G. unfold ContainerModel.is_equal. simpl. rewrite orb_true_r. destruct (fstlike g) as [u|]; [|contradiction]. rewrite E, G. auto.
  Qed.
  Lemma equal_other_fst f y : fstlike y = None -> is_equal (VFst f) y = false /\ is_equal y (VFst f) = false.
  Proof. intros E. unfold ContainerModel.is_equal. simpl. rewrite orb_true_r, E. auto. Qed.
  Lemma equal_sym : (forall x y, eq x y = eq y x) -> (forall f g, pyn_equal f g = pyn_equal g f) -> forall x y, is_equal x y = is_equal y x.
  Proof.
    intros S1 S2 x y. unfold ContainerModel.is_equal. rewrite (orb_comm (is_fst x)). destruct (is_fst y || is_fst x).
    - destruct (fstlike x) as [f|], (fstlike y) as [g|]; auto.
      assert (Q : forall a b, str_eqb a b = str_eqb b a).
      { intros a b. destruct (str_eqb a b) eqn:E; symmetry; [apply str_eqb_eq; apply str_eqb_eq in E; auto|]. apply str_eqb_neq. apply str_eqb_neq in E. auto. }
      destruct (string_of fst_string f), (string_of fst_string g); auto.
    - rewrite (orb_comm (is_nothing (value_of x))), S1. reflexivity.
  Qed.
End Equality.
Lemma fst_value fst fst_string pyn_equal eq (f : fst) t : is_equal fst_string pyn_equal eq (VThing t (Some (VFst f))) (VFst f) = false.
Proof. reflexivity. Qed.
Lemma cyclic_never : exists d0 os h, steps d0 os = Some h /\ forall d, add d h 2 [Ref 0] = None.
Proof. destruct tangled_made as (d & os & E). exists d, os, tangled. split; auto. intros d'. apply tangled_loop. Qed.
