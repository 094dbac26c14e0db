From Verif Require Import Base FeatureModel FeatureSpec FeatureProofs ProfileModel ProfileSpec.

(** ** Distances *)
Lemma nonneg_apart v : nonneg_steps v -> forall f g d, apart v f g d -> (0 <= d)%Z.
Proof.
  induction v as [x|l t s items IH] using value_ind2; intros H f g d Ha;
    inversion Ha as [? ? ? ? i j v w ? ? Hi Hj N If Ig|? ? ? ? v ? ? ? Iv Ha']; subst; destruct H as [Hs Hall].
  - apply Z.mul_nonneg_nonneg; lia.
  - rewrite Forall_forall in IH. apply (IH v Iv) with f g; auto. clear - Hall Iv.
    induction items as [|x items IH]; [contradiction|]. destruct Hall as [H1 H2]. destruct Iv as [->|I]; auto.
Qed.

Section Distance.
  Variables (alias list_alias : nat -> str) (attributes : list str) (v : value) (a : aspect).
  Hypothesis D : distinct v.
  Hypothesis A : good_aliases alias list_alias attributes v.
  Hypothesis P : populated alias list_alias attributes v = Some a.
  Variables any n_a : nat.
  Definition value_of_tree (f : nat) : Prop := In f (leaves v) \/ f = any \/ f = n_a.

  Lemma tree_facts : NoDup (items_of a) /\ (forall f, In f (items_of a) <-> In f (leaves v)) /\
    (forall f g d, apart v f g d -> entry a f g = Some d) /\
    (forall f g, In f (leaves v) -> ~ In g (leaves v) -> entry a f g = None) /\
    (forall f, get f (dict a) <> None <-> In f (leaves v)) /\
    (forall f g, f = g -> entry a f g = None) /\ widest v (max_dist a).
  Proof. destruct (populated_spec alias list_alias attributes v D A) as (a' & E & H). assert (a' = a) by congruence. subst. auto. Qed.

  Lemma distance_apart f g d : apart v f g d -> ~ In f [any; n_a] -> ~ In g [any; n_a] -> feature_distance a any n_a f g = Some d.
  Proof.
    intros H Nf Ng. destruct tree_facts as (_ & _ & E & _). pose proof (apart_neq v D f g d H) as N. unfold feature_distance.
    cbn [In] in Nf, Ng. repeat match goal with |- context [Nat.eqb ?x ?y] => destruct (Nat.eqb_spec x y); [exfalso; intuition congruence|] end.
    cbn [orb]. pose proof (E f g d H) as Ed. unfold entry in Ed. destruct (get f (dict a)); [|discriminate]. rewrite Ed. auto.
  Qed.
  Lemma distance_self f : feature_distance a any n_a f f = Some 0%Z.
  Proof. unfold feature_distance. rewrite Nat.eqb_refl. auto. Qed.
  Lemma distance_any f : feature_distance a any n_a f any = Some 0%Z /\ feature_distance a any n_a any f = Some 0%Z.
  Proof. unfold feature_distance. rewrite Nat.eqb_refl. split; [|rewrite orb_true_r; auto]. rewrite orb_true_r. auto. Qed.
  Lemma distance_na f : f <> any -> f <> n_a -> n_a <> any ->
    feature_distance a any n_a f n_a = Some (max_dist a) /\ feature_distance a any n_a n_a f = Some (max_dist a).
  Proof.
    intros N1 N2 N3. unfold feature_distance.
    repeat match goal with |- context [Nat.eqb ?x ?y] => destruct (Nat.eqb_spec x y); try congruence end; auto.
  Qed.

  Lemma distance_total f g : value_of_tree f -> value_of_tree g ->
    exists d, feature_distance a any n_a f g = Some d /\ feature_distance a any n_a g f = Some d /\
      (nonneg_steps v -> (0 <= d)%Z) /\ (d <= max_dist a)%Z.
  Proof.
    intros Hf Hg. destruct tree_facts as (_ & _ & E & _ & K & _ & W). pose proof W as (W0 & W1 & W2).
    destruct (Nat.eq_dec f g) as [->|N]; [exists 0%Z; rewrite distance_self; auto with zarith|].
    destruct (Nat.eq_dec f any) as [->|Nf]; [exists 0%Z; destruct (distance_any g) as [-> ->]; auto with zarith|].
    destruct (Nat.eq_dec g any) as [->|Ng]; [exists 0%Z; destruct (distance_any f) as [-> ->]; auto with zarith|].
    destruct (Nat.eq_dec f n_a) as [->|Nfa].
    { exists (max_dist a). destruct (distance_na g) as [-> ->]; auto with zarith. }
    destruct (Nat.eq_dec g n_a) as [->|Nga].
    { exists (max_dist a). destruct (distance_na f) as [-> ->]; auto with zarith. }
    destruct Hf as [Hf|[|]], Hg as [Hg|[|]]; try contradiction. destruct (apart_exists v f g Hf Hg N) as [d Hd].
    exists d. rewrite (distance_apart f g d), (distance_apart g f d); auto using apart_sym; try (cbn [In]; intuition congruence).
    split; auto. split; auto. split; [intros; eapply nonneg_apart; eauto|eauto].
  Qed.
End Distance.

Section Sets.
  Variable W : world.
  Hypothesis B : built W.

  Lemma same_aspect_refl x : same_aspect x x = true.
  Proof. destruct x; cbn; auto using Nat.eqb_refl. Qed.
  Lemma same_aspect_eq x y : same_aspect x y = true <-> x = y.
  Proof.
    destruct x as [x|], y as [y|]; cbn; try (split; [discriminate|discriminate]); [|split; auto]. rewrite Nat.eqb_eq. split; congruence.
  Qed.
  (** All features of an aspect are in the same tree. *)
  Lemma leaves_of_data (a : aspect) al la at_ v al' la' at' v' :
    distinct v -> good_aliases al la at_ v -> populated al la at_ v = Some a ->
    distinct v' -> good_aliases al' la' at' v' -> populated al' la' at' v' = Some a -> forall f, In f (leaves v) -> In f (leaves v').
  Proof.
    intros D1 A1 P1 D2 A2 P2 f. destruct (tree_facts al la at_ v a D1 A1 P1) as (_ & I1 & _). destruct (tree_facts al' la' at' v' a D2 A2 P2) as (_ & I2 & _).
    intros Hf. apply I2, I1, Hf.
  Qed.
  Lemma distance_known f g : has_aspect W f -> has_aspect W g ->
    exists d, distance W f g = Some d /\ distance W g f = Some d /\ (0 <= d)%Z /\
      (forall a, aspect_of W f = Some a -> aspect_of W g = Some a -> (d <= max_dist (data W a))%Z).
  Proof.
    intros Hf Hg. unfold distance. destruct (aspect_of W f) as [a|] eqn:Ef; [|contradiction Hf; auto]. destruct (aspect_of W g) as [b|] eqn:Eg; [|contradiction Hg; auto].
    cbn [same_aspect]. rewrite (Nat.eqb_sym a b). destruct (Nat.eqb_spec b a) as [->|N].
    - destruct (B f a Ef) as (al & la & at_ & v & D & A & Ns & P & If). destruct (B g a Eg) as (al' & la' & at' & v' & D' & A' & Ns' & P' & Ig).
      assert (In g (leaves v) \/ g = any_of W a \/ g = na_of W a) as Ig'.
      { destruct Ig as [Ig|Ig]; auto. left. eapply leaves_of_data; [exact D'|exact A'|exact P'|exact D|exact A|exact P|exact Ig]. }
      destruct (distance_total al la at_ v (data W a) D A P (any_of W a) (na_of W a) f g If Ig') as (d & E1 & E2 & E3 & E4).
      exists d. split; auto. split; auto. split; auto. intros a' H _. injection H as <-. auto.
    - exists ERROR_DISTANCE. unfold ERROR_DISTANCE. split; auto. split; auto. split; [lia|]. intros a' H1 H2. congruence.
  Qed.
  Lemma min_of_spec m l : (forall o, In o l -> o <> None) -> exists d, min_of m l = Some d /\ (d <= m)%Z /\
    (forall e, In (Some e) l -> (d <= e)%Z) /\ (d = m \/ In (Some d) l).
  Proof.
    revert m. induction l as [|[x|] l IH]; intros m H; cbn [min_of].
    - exists m. split; auto. split; [lia|]. split; [intros e []|auto].
    - destruct (IH (Z.min m x)) as (d & E & L & F & O); [intros; apply H; right; auto|]. exists d. split; auto. split; [lia|]. split.
      + intros e [He|He]; [injection He as <-; lia|auto].
      + destruct O as [->|O]; [|right; right; auto]. destruct (Z.min_spec m x) as [[_ ->]|[_ ->]]; auto. right. left. auto.
    - exfalso. apply (H None); [left|]; auto.
  Qed.
  Definition all_known (A : list nat) : Prop := forall f, In f A -> has_aspect W f.
  Lemma to_set_distance f s : has_aspect W f -> all_known s -> exists d, distance_to_set W f s = Some d /\ nearest W [f] s d.
  Proof.
    intros Hf Hs. unfold distance_to_set. destruct (has f s) eqn:Hh.
    - apply has_spec in Hh. destruct (distance_known f f Hf Hf) as (d & E & _ & N & _).
      assert (distance W f f = Some 0%Z) as E0.
      { unfold distance. rewrite same_aspect_refl. destruct (aspect_of W f); [apply distance_self|rewrite Nat.eqb_refl; auto]. }
      exists 0%Z. split; auto. split; [unfold ERROR_DISTANCE; lia|]. split.
      + intros x g e [<-|[]] Ig H. destruct (distance_known f g Hf (Hs g Ig)) as (d' & E' & _ & N' & _). assert (e = d') by congruence. lia.
      + right. exists f, f. split; [left|]; auto.
    - destruct (min_of_spec ERROR_DISTANCE (map (distance W f) s)) as (d & E & L & F & O).
      { intros o Io. apply in_map_iff in Io. destruct Io as (g & <- & Ig). destruct (distance_known f g Hf (Hs g Ig)) as (d' & -> & _). discriminate. }
      exists d. split; auto. assert (forall x g e, In x [f] -> In g s -> distance W x g = Some e -> (d <= e)%Z) as H1.
      { intros x g e [<-|[]] Ig H. apply F. rewrite <- H. apply in_map; auto. }
      split; [|split; auto].
      + split; auto. destruct O as [->|O]; [unfold ERROR_DISTANCE; lia|]. apply in_map_iff in O. destruct O as (g & Eg & Ig).
        destruct (distance_known f g Hf (Hs g Ig)) as (d' & E' & _ & N' & _). assert (d = d') by congruence. lia.
      + destruct O as [->|O]; auto. right. apply in_map_iff in O. destruct O as (g & Eg & Ig). exists f, g. cbn. auto.
  Qed.

  Lemma nearest_unique A C d e : nearest W A C d -> nearest W A C e -> d = e.
  Proof.
    intros (R1 & L1 & O1) (R2 & L2 & O2). apply Z.le_antisymm.
    - destruct O2 as [->|(f & g & If & Ig & E)]; [lia|eauto].
    - destruct O1 as [->|(f & g & If & Ig & E)]; [lia|eauto].
  Qed.
  Lemma nearest_sym A C d : all_known A -> all_known C -> nearest W A C d -> nearest W C A d.
  Proof.
    intros KA KC (R & L & O).
    assert (forall f g, In f A -> In g C -> distance W f g = distance W g f) as S.
    { intros f g If Ig. destruct (distance_known f g (KA f If) (KC g Ig)) as (d' & -> & -> & _). auto. }
    split; auto. split.
    - intros f g e If Ig E. rewrite <- S in E; eauto.
    - destruct O as [->|(f & g & If & Ig & E)]; auto. right. exists g, f. rewrite <- S; auto.
  Qed.
  Lemma loop_spec self : all_known self -> forall fs m seen, all_known fs -> all_known seen -> nearest W seen self m ->
    exists d, set_distance_loop W self fs m = Some d /\ nearest W (seen ++ fs) self d.
  Proof.
    intros Ks. induction fs as [|f fs IH]; intros m seen Kf Kseen Nm; cbn [set_distance_loop].
    - exists m. rewrite app_nil_r. auto.
    - assert (has_aspect W f) as Hf by (apply Kf; left; auto).
      destruct (to_set_distance f self Hf Ks) as (d & Ed & Nd).
      assert (forall x, nearest W [f] self x -> x = 0%Z -> nearest W (seen ++ f :: fs) self 0) as Z0.
      { intros x Nx ->. destruct Nx as (R & L & O). split; auto. split.
        - intros y g e Iy Ig E. assert (has_aspect W y) as Ky by (apply in_app_iff in Iy; destruct Iy; auto).
          destruct (distance_known y g Ky (Ks g Ig)) as (d' & E' & _ & N' & _). assert (e = d') by congruence. lia.
        - destruct O as [|(y & g & [<-|[]] & Ig & E)]; auto. right. exists f, g. split; auto. apply in_app_iff. right. left. auto. }
      destruct (has f self) eqn:Hh.
      { exists 0%Z. split; auto. unfold distance_to_set in Ed. rewrite Hh in Ed. injection Ed as <-. eauto. }
      rewrite Ed. destruct (Z.eqb_spec d 0) as [->|Nz]; [exists 0%Z; split; eauto|].
      replace (seen ++ f :: fs) with ((seen ++ [f]) ++ fs) by (rewrite <- app_assoc; auto). apply IH.
      + intros x Ix. apply Kf. right. auto.
      + intros x Ix. apply in_app_iff in Ix. destruct Ix as [|[<-|[]]]; auto.
      + destruct Nm as (R1 & L1 & O1), Nd as (R2 & L2 & O2). destruct (Z.ltb_spec d m) as [Lt|Ge].
        * split; auto. split.
          -- intros x g e Ix Ig E. apply in_app_iff in Ix. destruct Ix as [Ix|[<-|[]]]; [pose proof (L1 x g e Ix Ig E); lia|]. eapply L2; eauto. left. auto.
          -- destruct O2 as [|(x & g & [<-|[]] & Ig & E)]; auto. right. exists f, g. split; auto. apply in_app_iff. right. left. auto.
        * split; auto. split.
          -- intros x g e Ix Ig E. apply in_app_iff in Ix. destruct Ix as [Ix|[<-|[]]]; [eauto|]. assert (d <= e)%Z; [|lia]. eapply L2; eauto. left. auto.
          -- destruct O1 as [|(x & g & Ix & Ig & E)]; auto. right. exists x, g. split; auto. apply in_app_iff. auto.
  Qed.
  Theorem sets_distance_spec A C : all_known A -> all_known C -> exists d, sets_distance W A C = Some d /\ nearest W A C d.
  Proof.
    intros KA KC. destruct (loop_spec A KA C ERROR_DISTANCE [] KC) as (d & E & N).
    - intros f [].
    - split; [unfold ERROR_DISTANCE; lia|]. split; [intros f g e []|auto].
    - exists d. split; auto. apply nearest_sym; auto.
  Qed.
  Theorem sets_distance_sym A C : all_known A -> all_known C -> sets_distance W A C = sets_distance W C A.
  Proof.
    intros KA KC. destruct (sets_distance_spec A C KA KC) as (d & -> & N1). destruct (sets_distance_spec C A KC KA) as (e & -> & N2).
    f_equal. apply nearest_unique with A C; auto. apply nearest_sym; auto.
  Qed.
  Theorem sets_distance_common A C f : all_known A -> all_known C -> In f A -> In f C -> sets_distance W A C = Some 0%Z.
  Proof.
    intros KA KC IA IC. destruct (sets_distance_spec A C KA KC) as (d & -> & (R & L & _)). f_equal.
    assert (distance W f f = Some 0%Z) as E0.
    { unfold distance. rewrite same_aspect_refl. destruct (aspect_of W f); [apply distance_self|rewrite Nat.eqb_refl; auto]. }
    specialize (L f f 0%Z IA IC E0). lia.
  Qed.
  (** Sets of one aspect *)
  Definition all_of (a : nat) (A : list nat) : Prop := A <> [] /\ forall f, In f A -> aspect_of W f = Some a.
  Lemma all_of_known a A : all_of a A -> all_known A.
  Proof. intros [_ H] f If. unfold has_aspect. rewrite (H f If). discriminate. Qed.
  Theorem sets_distance_aspect a A C : all_of a A -> all_of a C -> exists d, sets_distance W A C = Some d /\ (0 <= d <= max_dist (data W a))%Z.
  Proof.
    intros HA HC. destruct (sets_distance_spec A C (all_of_known a A HA) (all_of_known a C HC)) as (d & E & (R & L & _)). exists d. split; auto.
    destruct HA as [NA HA], HC as [NC HC]. destruct A as [|f A]; [contradiction NA; auto|]. destruct C as [|g C]; [contradiction NC; auto|].
    assert (aspect_of W f = Some a) as Ef by (apply HA; left; auto). assert (aspect_of W g = Some a) as Eg by (apply HC; left; auto).
    destruct (distance_known f g) as (e & Ee & _ & _ & Le); [unfold has_aspect; congruence|unfold has_aspect; congruence|].
    specialize (L f g e (or_introl eq_refl) (or_introl eq_refl) Ee). specialize (Le a Ef Eg). lia.
  Qed.
  Theorem sets_distance_apart A C : all_known A -> all_known C -> (forall f g, In f A -> In g C -> aspect_of W f <> aspect_of W g) ->
    sets_distance W A C = Some ERROR_DISTANCE.
  Proof.
    intros KA KC H. destruct (sets_distance_spec A C KA KC) as (d & -> & (R & L & O)). destruct O as [->|(f & g & If & Ig & E)]; auto.
    unfold distance in E. destruct (same_aspect (aspect_of W g) (aspect_of W f)) eqn:S; [|congruence]. apply same_aspect_eq in S. exfalso. eapply H; eauto.
  Qed.
End Sets.
