From Verif Require Import Base FeatureModel FeatureSpec FeatureProofs ProfileModel ProfileSpec ProfileProofs HistoryProofs.

Section Compare.
  Variable W : world.
  Hypothesis B : built W.
  Variable h : list (list nat).
  Variables (p q : profile) (P Q : plain_profile).
  Hypothesis Rp : represents W h p P.
  Hypothesis Rq : represents W h q Q.
  Hypothesis I : fst P = fst Q.

  Lemma value_all_of a : In a (aspects W (fst P)) -> all_of W a (profile_get W p a h) /\ all_of W a (profile_get W q a h).
  Proof.
    intros Ia. destruct Rp as (_ & _ & Vp), Rq as (_ & _ & Vq). destruct (Vp a Ia) as (_ & _ & N1 & A1). rewrite I in Ia. destruct (Vq a Ia) as (_ & _ & N2 & A2).
    split; split; auto.
  Qed.
  Lemma compare_loop_spec as_ : incl as_ (aspects W (fst P)) -> forall t0 m0, exists t,
    total_distance W (fun a => profile_get W p a h) (fun a => profile_get W q a h) as_ t /\ (0 <= t <= total_max W as_)%Z /\
    compare_loop W p q h as_ t0 m0 = if (m0 + total_max W as_ =? 0)%Z then None else Some ((m0 + total_max W as_) - (t0 + t), m0 + total_max W as_)%Z.
  Proof.
    induction as_ as [|a as_ IH]; intros Inc t0 m0; cbn [compare_loop total_max fold_right].
    - exists 0%Z. split; [constructor|]. split; [lia|]. rewrite !Z.add_0_r. auto.
    - fold (total_max W as_). destruct (value_all_of a) as [A1 A2]; [apply Inc; left; auto|].
      destruct (sets_distance_aspect W B a _ _ A1 A2) as (d & Ed & Hd). rewrite Ed.
      destruct (IH (fun x Hx => Inc x (or_intror Hx)) (t0 + d)%Z (m0 + max_dist (data W a))%Z) as (t & Ht & Bt & E). exists (d + t)%Z.
      split; [constructor; auto|]. split; [lia|]. rewrite E. rewrite !Z.add_assoc. auto.
  Qed.
  Theorem compare_spec as_ : incl as_ (aspects W (fst P)) -> exists t,
    total_distance W (fun a => profile_get W p a h) (fun a => profile_get W q a h) as_ t /\ (0 <= t <= total_max W as_)%Z /\
    compare W p q h (Some as_) = if (total_max W as_ =? 0)%Z then None else Some (total_max W as_ - t, total_max W as_)%Z.
  Proof.
    intros Inc. unfold compare. destruct Rp as (E1 & _), Rq as (E2 & _). rewrite E1, E2, <- I, Nat.eqb_refl. apply (compare_loop_spec as_ Inc 0 0).
  Qed.
  Theorem compare_default : compare W p q h None = compare W p q h (Some (aspects W (fst P))).
  Proof. unfold compare. destruct Rp as (E1 & _). rewrite E1. auto. Qed.
  Theorem compare_equal as_ t : incl as_ (aspects W (fst P)) -> (forall a, In a as_ -> same_set (snd P a) (snd Q a)) ->
    total_distance W (fun a => profile_get W p a h) (fun a => profile_get W q a h) as_ t -> t = 0%Z.
  Proof.
    intros Inc Hs Ht. induction Ht as [|a l d t E Ht IH]; auto. destruct (value_all_of a) as [A1 A2]; [apply Inc; left; auto|].
    destruct Rp as (_ & _ & Vp), Rq as (_ & _ & Vq). destruct (Vp a) as (S1 & _ & N1 & _); [apply Inc; left; auto|]. destruct (Vq a) as (S2 & _); [rewrite <- I; apply Inc; left; auto|].
    cbv zeta in *. destruct (profile_get W p a h) as [|f l'] eqn:Ef; [contradiction N1; auto|].
    assert (sets_distance W (f :: l') (profile_get W q a h) = Some 0%Z) as E0.
    { eapply sets_distance_common with f; eauto using all_of_known. - left; auto. - apply S2, (Hs a (or_introl eq_refl)), S1. left. auto. }
    rewrite E0 in E. injection E as <-. rewrite IH; auto. - intros x Hx. apply Inc. right. auto. - intros x Hx. apply Hs. right. auto.
  Qed.
End Compare.

Lemma total_sym W h p q P Q as_ t : built W -> represents W h p P -> represents W h q Q -> fst P = fst Q -> incl as_ (aspects W (fst P)) ->
  total_distance W (fun a => profile_get W p a h) (fun a => profile_get W q a h) as_ t ->
  total_distance W (fun a => profile_get W q a h) (fun a => profile_get W p a h) as_ t.
Proof.
  intros B Rp Rq I Inc Ht. induction Ht as [|a l d t E Ht IH]; constructor.
  - destruct (value_all_of W h p q P Q Rp Rq I a) as [A1 A2]; [apply Inc; left; auto|]. rewrite sets_distance_sym; eauto using all_of_known.
  - apply IH. intros x Hx. apply Inc. right. auto.
Qed.
Lemma total_unique W A C as_ t u : total_distance W A C as_ t -> total_distance W A C as_ u -> t = u.
Proof.
  intros H. revert u. induction H as [|a l d t E H IH]; intros u Hu; inversion Hu; subst; auto. assert (d = d0) by congruence. subst. f_equal. auto.
Qed.

(** ** Multi-profiles *)
Section Multi.
  Variable W : world.
  Variable attributes : list str.
  Hypothesis N : well_named W attributes.
  Variable inventory_alias : nat -> str.
  Variable multi_attributes : list str.
  Hypothesis Ia : forall x y, inventory_alias x = inventory_alias y -> x = y.
  Hypothesis Im : forall x, ~ In (inventory_alias x) multi_attributes.

  Lemma represents_weaken h p q r : represents W h p q -> fst q = fst r -> (forall a, In a (aspects W (fst q)) -> same_set (snd q a) (snd r a)) -> represents W h p r.
  Proof.
    intros (E1 & E2 & V) Ef S. rewrite Ef in *. split; auto. split; auto. intros a Ha. destruct (V a Ha) as (V1 & V2). split; auto.
    intros f. rewrite (V1 f). apply S. auto.
  Qed.
  Lemma features_choose h p q old a : represents W h p q -> In a (aspects W (fst q)) -> same_set (choose W (features_of p h) old a) (snd q a).
  Proof.
    intros R Ha. pose proof (copy_values W attributes N p q h a R Ha) as C. pose proof R as (E1 & _ & V). destruct (V a Ha) as (S & _ & Ne & _). cbv zeta in *.
    assert (In a (aspects W (p_inventory p))) as Ha' by (rewrite E1; auto).
    pose proof (dict_choose W attributes N (p_inventory p) (features_of p h) a old Ha') as D. unfold value_for in C.
    destruct (get a (aspect_dict W (p_inventory p) (features_of p h))) as [s|] eqn:Eg.
    - destruct D as [D _]. intros f. rewrite <- (D f). apply C.
    - exfalso. destruct (profile_ref W attributes N p a) as (r & Er & Ir); [destruct R as (? & ? & _); congruence|auto|].
      destruct (profile_get W p a h) as [|f l] eqn:Ep; [contradiction Ne; auto|]. destruct (V a Ha) as (_ & _ & _ & As). cbv zeta in As. rewrite Ep in As.
      assert (aspect_of W f = Some a) as Ef by (apply As; left; auto).
      destruct (aspect_dict_spec W (p_inventory p) (features_of p h)) as [_ G]. destruct (G a f) as [_ G2]. unfold under in G2. rewrite Eg in G2. apply G2.
      split; [|split; auto; destruct N as [_ N2]; apply (N2 (p_inventory p)); auto].
      unfold features_of. apply in_flat_map. exists (aspect_alias W a, r). split; [apply lookup_some; auto|]. cbn [snd]. unfold profile_get in Ep. rewrite Er in Ep. rewrite Ep. left. auto.
  Qed.

  (** Each item of the multi-profile is one of the live profiles after the sources. *)
  Definition item_ok (n : nat) (live : list profile) (qs : list plain_profile) (e : str * profile) (r : plain_profile) : Prop :=
    fst e = inventory_alias (fst r) /\ exists k, n <= k /\ nth_error live k = Some (snd e) /\ nth_error qs k = Some r.
  Definition multi_ok (n : nat) (live : list profile) (qs : list plain_profile) (m : list (str * profile)) (M : list plain_profile) : Prop :=
    Forall2 (item_ok n live qs) m M /\ NoDup (map fst M).

  Lemma nth_replace {A} (l : list A) i x j : nth_error (replace_nth i x l) j = if Nat.eqb i j then match nth_error l j with Some _ => Some x | None => None end else nth_error l j.
  Proof.
    revert i j. induction l as [|y l IH]; intros [|i] [|j]; cbn [replace_nth nth_error Nat.eqb]; auto.
    destruct (Nat.eqb i j); auto.
  Qed.
  Lemma Forall2_replace {A B} (R : A -> B -> Prop) l k i x y : Forall2 R l k -> nth_error l i = Some x -> R x y -> Forall2 R l (replace_nth i y k).
  Proof.
    intros F. revert i. induction F as [|a b l k H F IH]; intros [|i] E Hy; cbn in *; try discriminate; constructor; auto. injection E as ->. auto.
  Qed.
  Lemma multi_keys n live qs m M : multi_ok n live qs m M -> map fst m = map inventory_alias (map fst M).
  Proof. intros [F _]. induction F as [|e r m M (E & _) F IH]; cbn; auto. rewrite E, IH. auto. Qed.
  Lemma multi_find n live qs m M inv h : multi_ok n live qs m M -> Forall2 (represents W h) live qs -> has_profile inv m = true <-> In inv (map fst M).
  Proof.
    intros [F _] R. induction F as [|e r m M (E & k & _ & El & Eq) F IH]; cbn [has_profile existsb map In]; [split; [discriminate|contradiction]|].
    pose proof (Forall2_nth _ _ _ k R) as Rk. rewrite El, Eq in Rk. destruct Rk as (Ei & _). rewrite orb_true_iff, Nat.eqb_eq, Ei. unfold has_profile in IH. rewrite IH. tauto.
  Qed.

  Lemma firstn_app_le {A} n (l k : list A) : n <= length l -> firstn n (l ++ k) = firstn n l.
  Proof. intros H. rewrite firstn_app. replace (n - length l) with 0 by lia. cbn. apply app_nil_r. Qed.
  Lemma multi_split n live qs m M inv : Forall2 (item_ok n live qs) m M -> NoDup (map fst M) -> In inv (map fst M) ->
    exists m1 old m2 M1 mk M2 k, m = m1 ++ (inventory_alias inv, old) :: m2 /\ M = M1 ++ (inv, mk) :: M2 /\
      multi_lookup (inventory_alias inv) m = Some old /\ n <= k /\ nth_error live k = Some old /\ nth_error qs k = Some (inv, mk) /\
      Forall2 (item_ok n live qs) m1 M1 /\ Forall2 (item_ok n live qs) m2 M2 /\ ~ In inv (map fst M1) /\ ~ In inv (map fst M2).
  Proof.
    induction 1 as [|e r m M (E & k & Lk & K1 & K2) F IH]; intros Nd Hin; [contradiction|]. destruct e as [s old], r as [inv' mk]. cbn [map fst snd] in *. subst s.
    inversion Nd as [|? ? Nd1 Nd2]; subst. cbn [multi_lookup]. destruct (Nat.eq_dec inv' inv) as [->|Ni].
    - rewrite str_eqb_refl. exists [], old, m, [], mk, M, k. cbn. repeat split; auto.
    - destruct Hin as [|Hin]; [contradiction|]. destruct (IH Nd2 Hin) as (m1 & old' & m2 & M1 & mk' & M2 & k' & -> & -> & Hl & Lk' & K1' & K2' & Fa & Fb & Na & Nb).
      assert (str_eqb (inventory_alias inv) (inventory_alias inv') = false) as -> by (apply str_eqb_neq; intros X; apply Ia in X; congruence).
      exists ((inventory_alias inv', old) :: m1), old', m2, ((inv', mk) :: M1), mk', M2, k'. split; auto. split; auto. split; auto. split; auto. split; auto. split; auto.
      split; [constructor; auto; split; auto; exists k; auto|]. split; auto. split; auto. cbn. intros [|]; auto.
  Qed.
  Lemma multi_new_spec n live qs m M h p q i : multi_ok n live qs m M -> matches W (State live h) qs -> i < n -> n <= length live ->
    nth_error live i = Some p -> nth_error qs i = Some q ->
    exists new m' h' qs', multi_new W attributes inventory_alias multi_attributes p m h = Some (new, m', h') /\
      multi_ok n (live ++ [new]) qs' m' (plain_multi_add q M) /\ matches W (State (live ++ [new]) h') qs' /\
      firstn n qs' = firstn n qs /\ represents W h' new q.
  Proof.
    intros Ok Mt Li Ln El Eq. pose proof Mt as [Sep R]. cbn [store profiles] in *. pose proof (Forall2_nth _ _ _ i R) as Rp. rewrite El, Eq in Rp.
    pose proof Rp as (Ei & _). unfold multi_new. destruct (copy_profile W attributes p h) as [new h1] eqn:Ec.
    assert (matches W (State (live ++ [new]) h1) (qs ++ [q])) as M1.
    { unfold copy_profile in Ec. destruct q as [inv mm]. cbn [fst] in Ei. rewrite Ei in Ec. apply (add_profile_matches W attributes N false inv (features_of p h) (State live h) qs new h1 mm Mt Ec).
      intros a Ha. rewrite <- Ei. apply (copy_values W attributes N p (inv, mm)); auto. }
    assert (length live = length qs) as Ll by (clear - R; induction R; cbn; auto).
    assert (nth_error (live ++ [new]) (length live) = Some new) as En by apply nth_app_mid.
    assert (nth_error (qs ++ [q]) (length live) = Some q) as Enq by (rewrite Ll; apply nth_app_mid).
    pose proof M1 as [Sep1 R1]. cbn [store profiles] in *. pose proof (Forall2_nth _ _ _ (length live) R1) as Rn. rewrite En, Enq in Rn.
    assert (Forall2 (item_ok n (live ++ [new]) (qs ++ [q])) m M) as F1.
    { destruct Ok as [F _]. clear - F Ll. induction F as [|e r m M (E & k & Lk & K1 & K2) F IH]; constructor; auto. split; auto. exists k.
      assert (k < length live) by (apply nth_error_Some; congruence). split; auto. rewrite !nth_error_app1; auto. lia. }
    pose proof (multi_find n live qs m M (p_inventory p) h Ok R) as Hf. pose proof (multi_keys n live qs m M Ok) as Hk. destruct Ok as [F Nd].
    destruct (has_profile (p_inventory p) m) eqn:Eh.
    - assert (In (p_inventory p) (map fst M)) as Hin by (apply Hf; auto).
      destruct (multi_split n (live ++ [new]) (qs ++ [q]) m M (p_inventory p) F1 Nd Hin)
        as (m1 & old & m2 & M1' & mk & M2' & k & -> & -> & Hl & Lk & K1 & K2 & Fa & Fb & Na & Nb). rewrite Hl.
      pose proof (update_matches W attributes N (State (live ++ [new]) h1) (qs ++ [q]) k old (features_of new h1) mk (p_inventory p) M1 K1 K2) as M2. cbn [profiles store] in M2.
      set (h2 := update_profile W old (features_of new h1) h1) in *. set (q2 := (p_inventory p, choose W (features_of new h1) mk)) in *.
      pose proof M2 as [Sep2 R2]. cbn [store profiles] in *.
      assert (represents W h2 old q) as Ro.
      { pose proof (Forall2_nth _ _ _ k R2) as X. rewrite K1, nth_replace, Nat.eqb_refl, K2 in X. apply represents_weaken with q2; auto.
        intros a Ha. unfold q2 in *. cbn [fst snd] in *. rewrite Ei in Ha. apply features_choose; auto. }
      assert (matches W (State (live ++ [new]) h2) (replace_nth k q (qs ++ [q]))) as M3.
      { split; auto. cbn [profiles store].
        assert (replace_nth k q (qs ++ [q]) = replace_nth k q (replace_nth k q2 (qs ++ [q]))) as ->.
        { clear. generalize (qs ++ [q]) as l. intros l. revert k. induction l as [|x l IH]; intros [|k]; cbn [replace_nth]; auto. f_equal. auto. }
        eapply Forall2_replace; eauto. }
      assert (forall m' M', Forall2 (item_ok n (live ++ [new]) (qs ++ [q])) m' M' -> ~ In (p_inventory p) (map fst M') ->
        Forall2 (item_ok n (live ++ [new]) (replace_nth k q (qs ++ [q]))) m' M') as Keep.
      { clear - K2. induction 1 as [|e r m' M' (E & k' & Lk' & K1' & K2') F IH]; intros Hn; constructor.
        - split; auto. exists k'. split; auto. split; auto. rewrite nth_replace. destruct (Nat.eqb_spec k k') as [->|]; auto. exfalso. apply Hn. left. rewrite K2 in K2'. injection K2' as <-. auto.
        - apply IH. intros H. apply Hn. right. auto. }
      assert (plain_multi_add q (M1' ++ (p_inventory p, mk) :: M2') = M1' ++ q :: M2') as Ea.
      { clear - Na Ei. induction M1' as [|r M1' IH]; cbn [plain_multi_add app].
        - cbn [fst]. rewrite Ei, Nat.eqb_refl. auto.
        - destruct (Nat.eqb_spec (fst r) (fst q)) as [Er|Nr]; [exfalso; apply Na; left; congruence|]. rewrite IH; auto. intros H. apply Na. right. auto. }
      exists new, (m1 ++ (inventory_alias (p_inventory p), old) :: m2), h2, (replace_nth k q (qs ++ [q])). split; auto. split; [|split; auto; split].
      + rewrite Ea. split.
        * apply Forall2_app; [apply Keep; auto|]. constructor; [|apply Keep; auto]. split; [cbn [fst]; congruence|]. exists k. split; auto. split; auto.
          rewrite nth_replace, Nat.eqb_refl, K2. auto.
        * rewrite map_app in *. cbn [map fst] in *. rewrite <- Ei. auto.
      + rewrite <- (firstn_app_le n qs [q]) by lia. generalize (qs ++ [q]) as l. clear - Lk. intros l. revert k l Lk. induction n as [|n IH]; intros k l Lk; auto.
        destruct l as [|x l], k as [|k]; cbn [replace_nth firstn]; auto; try lia. f_equal. apply IH. lia.
      + pose proof M3 as [_ R3]. cbn [profiles store] in R3. pose proof (Forall2_nth _ _ _ (length live) R3) as X. rewrite En, nth_replace, Enq in X.
        destruct (Nat.eqb k (length live)); auto.
    - assert (~ In (p_inventory p) (map fst M)) as Hnin by (intros H; apply Hf in H; congruence).
      assert (has_name (inventory_alias (p_inventory p)) (multi_attributes ++ map fst m) = false) as ->.
      { apply has_name_false. rewrite in_app_iff. intros [H|H]; [eapply Im; eauto|]. rewrite Hk in H. apply in_map_iff in H. destruct H as (x & Ex & Hx). apply Ia in Ex. congruence. }
      assert (plain_multi_add q M = M ++ [q]) as Ea.
      { clear - Hnin Ei. induction M as [|r M IH]; cbn [plain_multi_add app]; auto. destruct (Nat.eqb_spec (fst r) (fst q)) as [Er|Nr]; [exfalso; apply Hnin; left; congruence|].
        rewrite IH; auto. intros H. apply Hnin. right. auto. }
      eexists new, _, h1, (qs ++ [q]). split; [reflexivity|]. split; [|split; auto; split; auto].
      + rewrite Ea. split.
        * apply Forall2_app; auto. constructor; [|constructor]. split; [cbn [fst]; congruence|]. exists (length live). cbn [snd]. auto.
        * rewrite map_app. cbn [map]. apply NoDup_snoc; auto. rewrite <- Ei. auto.
      + apply firstn_app_le. lia.
  Qed.
End Multi.

Lemma nth_firstn_lt {A} n (l : list A) j : j < n -> nth_error (firstn n l) j = nth_error l j.
Proof.
  revert n j. induction l as [|x l IH]; intros [|n] [|j] H; cbn; auto; try lia. apply IH. lia.
Qed.
Section MultiRun.
  Variable W : world.
  Variable attributes : list str.
  Hypothesis N : well_named W attributes.
  Variable inventory_alias : nat -> str.
  Variable multi_attributes : list str.
  Hypothesis Ia : forall x y, inventory_alias x = inventory_alias y -> x = y.
  Hypothesis Im : forall x, ~ In (inventory_alias x) multi_attributes.

  Lemma multi_run_ok n : forall given ps sq live qs m M h,
    multi_ok inventory_alias n live qs m M -> matches W (State live h) qs -> n <= length live ->
    Forall2 (fun i p => i < n /\ nth_error live i = Some p) given ps -> Forall2 (fun i q => nth_error qs i = Some q) given sq ->
    exists live' qs' m' h', multi_run W attributes inventory_alias multi_attributes ps m h = Some (m', h') /\
      multi_ok inventory_alias n live' qs' m' (fold_left (fun M q => plain_multi_add q M) sq M) /\ matches W (State live' h') qs' /\
      firstn n qs' = firstn n qs /\ firstn n live' = firstn n live.
  Proof.
    induction given as [|i given IH]; intros ps sq live qs m M h Ok Mt Ln Fp Fq; inversion Fp as [|? p ? ps' [Li Ep] Fp']; inversion Fq as [|? q ? sq' Eq Fq']; subst; cbn [multi_run fold_left].
    - exists live, qs, m, h. auto.
    - destruct (multi_new_spec W attributes N inventory_alias multi_attributes Ia Im n live qs m M h p q i Ok Mt Li Ln Ep Eq) as (new & m1 & h1 & qs1 & -> & Ok1 & Mt1 & F1 & _).
      destruct (IH ps' sq' (live ++ [new]) qs1 m1 (plain_multi_add q M) h1 Ok1 Mt1) as (live' & qs' & m' & h' & E & Ok' & Mt' & F' & L').
      + rewrite app_length. lia.
      + clear - Fp'. induction Fp' as [|j p' gs ps' [Lj Ej] F IH]; constructor; auto. split; auto. rewrite nth_error_app1; auto. apply nth_error_Some. congruence.
      + assert (forall j, j < n -> nth_error qs1 j = nth_error qs j) as Same.
        { intros j Lj. rewrite <- (nth_firstn_lt n qs1 j Lj), <- (nth_firstn_lt n qs j Lj), F1. auto. }
        clear - Fp' Fq' Same. revert sq' Fq'. induction Fp' as [|j p' gs ps' [Lj Ej] F IH]; intros sq' Fq'; inversion Fq'; subst; constructor; auto. rewrite Same; auto.
      + exists live', qs', m', h'. split; auto. split; auto. split; auto. split; [congruence|]. rewrite L'. rewrite firstn_app_le; auto.
  Qed.
  Theorem multi_run_spec given ps sq live qs h : matches W (State live h) qs ->
    Forall2 (fun i p => nth_error live i = Some p) given ps -> Forall2 (fun i q => nth_error qs i = Some q) given sq ->
    exists m h', multi_run W attributes inventory_alias multi_attributes ps [] h = Some (m, h') /\
      Forall2 (fun e r => fst e = inventory_alias (fst r) /\ represents W h' (snd e) r) m (fold_left (fun M q => plain_multi_add q M) sq []) /\
      NoDup (map fst m) /\ Forall2 (represents W h') live qs.
  Proof.
    intros Mt Fp Fq. assert (length live = length qs) as Ll by (destruct Mt as [_ R]; cbn [profiles store] in R; clear - R; induction R; cbn; auto).
    destruct (multi_run_ok (length live) given ps sq live qs [] [] h) as (live' & qs' & m & h' & E & [F Nd] & [_ R] & Fq' & Fl'); auto.
    - split; constructor.
    - clear - Fp. induction Fp as [|i p given ps Ei F IH]; constructor; auto. split; auto. apply nth_error_Some. congruence.
    - cbn [profiles store] in R. exists m, h'. split; auto. split; [|split].
      + clear - F R. induction F as [|e r m M (Ee & k & _ & K1 & K2) F IH]; constructor; auto. split; auto. pose proof (Forall2_nth _ _ _ k R) as X. rewrite K1, K2 in X. auto.
      + rewrite (multi_keys inventory_alias _ _ _ _ _ (conj F Nd)). clear - Nd Ia. induction (map fst (fold_left (fun M q => plain_multi_add q M) sq [])) as [|x l IH]; cbn; constructor; inversion Nd; subst; auto.
        intros H. apply in_map_iff in H. destruct H as (y & Ey & Hy). apply Ia in Ey. congruence.
      + rewrite firstn_all in Fl'. rewrite Ll, firstn_all in Fq'. rewrite <- Fl', <- Fq', Ll. clear - R. generalize (length qs) as n. intros n. revert n. induction R as [|x y l k H R IH]; intros [|n]; cbn [firstn]; constructor; auto.
  Qed.
End MultiRun.
