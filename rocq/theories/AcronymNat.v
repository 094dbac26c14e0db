(** Hindi natural transliteration of acronyms and of other words. *)
From Coq Require Import String Lia.
From Verif Require Import Base RuleModel RegexModel IsoModel AlignModel AlignSpec AlignProofs AlignMore NatModel NatSpec NatProofs NatBytes NatTyp NatTypMain NatMain NatRoman NatPhon
  UniqueDecode AcronymModel AcronymSpec AcronymProofs AcronymMain.
Local Open Scope list_scope.

Notation HI_OPS := ((HI_TXN ++ HI_BEFORE) ++ TRANSLIT_BY_PSA :: GEMINATES).
Lemma hi_ltn : ltn_ops Hi Nat = Some (HI_BEFORE, GEMINATES).
Proof. reflexivity. Qed.
Lemma iso_well : Forall well_formed ISO_TO_TXN.
Proof. apply opsb_ok. vm_compute. reflexivity. Qed.
Lemma iso_staged : staged ISO_TO_TXN.
Proof. apply stagedb_ok. vm_compute. reflexivity. Qed.
Lemma ops_well : Forall well_formed HI_OPS.
Proof. apply opsb_ok. vm_compute. reflexivity. Qed.
Lemma ops_no_insert : Forall no_insert HI_OPS.
Proof. apply (forallb_Forall (fun o => match o with Insert _ _ _ => false | _ => true end)); [intros [| |] H; cbn; auto; discriminate|]. vm_compute. reflexivity. Qed.
Lemma ops_staged : staged HI_OPS.
Proof. apply st_rest. exact ops_no_insert. Qed.

(** Capitals stay *)
Definition upperb (t : tok) : bool := match t with Tr s => existsb (fun c => str_eqb s (typ c)) ASCII_UC | _ => false end.
Definition inert (o : op) : bool :=
  match o with Rewrite rs _ _ => forallb (fun q : word * word => match fst q with [] => false | t :: _ => negb (upperb t) end) rs | _ => false end.
Lemma ops_inert : forallb inert HI_OPS = true.
Proof. vm_compute. reflexivity. Qed.
Lemma inert_one rs p f : inert (Rewrite rs p f) = true -> forall done ts out, rewriting rs p f done ts out -> forallb upperb ts = true -> out = ts.
Proof.
  intros Hi. cbn [inert] in Hi. rewrite forallb_forall in Hi. induction 1 as [done|done l r rest out I P F H IH|done t rest out N H IH]; intros U; auto.
  - exfalso. apply Hi in I. cbn [fst] in I. destruct l as [|t l]; [discriminate|]. cbn in U. apply negb_true_iff in I. rewrite I in U. discriminate.
  - cbn in U. apply andb_prop in U as [_ U]. f_equal. auto.
Qed.
Lemma inert_done rs p f : inert (Rewrite rs p f) = true -> forall ts done, forallb upperb ts = true -> rewriting rs p f done ts ts.
Proof.
  intros Hi. cbn [inert] in Hi. rewrite forallb_forall in Hi. induction ts as [|t ts IH]; intros done U; [apply re_end|]. cbn in U. apply andb_prop in U as [Ut U]. apply re_copy; auto.
  intros l r u I E _ _. apply Hi in I. cbn [fst] in I. destruct l as [|t' l]; [discriminate|]. cbn in E. injection E as <- _. rewrite Ut in I. discriminate.
Qed.
Lemma inert_all l : forallb inert l = true -> forall ts out, forallb upperb ts = true -> (performs_all l ts out <-> out = ts).
Proof.
  induction l as [|o l IH]; intros H ts out U.
  - split; [intros P; inversion P; auto|intros ->; constructor].
  - cbn in H. apply andb_prop in H as [Ho Hl]. destruct o as [rs p f| |]; try discriminate. split.
    + intros P. inversion P as [|? ? ? mid ? P1 P2]; subst. cbn [performs] in P1. apply inert_one in P1; auto. subst mid. apply (IH Hl ts out U). exact P2.
    + intros ->. apply pa_op with (mid := ts); [cbn [performs]; apply inert_done; auto|]. apply (IH Hl ts ts U). reflexivity.
Qed.
Lemma acronym_named ds w : acronym ds w -> Forall (fun x => exists ps, In (x, ps) letter_names) w.
Proof. induction 1 as [|x cs rest w (ps & Hn & _) _ IH]; constructor; eauto. Qed.
Lemma caps_chars w : Forall (fun x => exists ps, In (x, ps) letter_names) w ->
  exists cs, (forall c, In c cs -> In c ASCII_UC) /\ caps w = map (fun c => Tr (typ c)) cs /\ flat_map glyph cs = capitals w.
Proof.
  induction 1 as [|x w (ps & Hx) _ (cs & H1 & H2 & H3)]; [exists []; repeat split; auto; intros c []|].
  destruct (upper_names x ps Hx) as (c & Hc & E & Eg). exists (c :: cs). repeat split.
  - intros d [<-|K]; auto.
  - change (caps (x :: w)) with (uc x ++ caps w). rewrite E, H2. reflexivity.
  - cbn [flat_map]. rewrite Eg, H3. reflexivity.
Qed.
Lemma upper_chars cs : (forall c, In c cs -> In c ASCII_UC) -> forallb upperb (map (fun c => Tr (typ c)) cs) = true.
Proof.
  intros H. apply forallb_forall. intros t K. apply in_map_iff in K. destruct K as (c & <- & K). cbn [upperb]. apply existsb_exists. exists c. split; auto. apply str_eqb_refl.
Qed.
Lemma upper_ltn c : In c ASCII_UC -> In c LTN_CHARS.
Proof. intros H. unfold LTN_CHARS. apply in_or_app. right. apply in_or_app. left. exact H. Qed.
Lemma all_translits cs : filter right_symbol (map (fun c => Tr (typ c)) cs) = map (fun c => Tr (typ c)) cs.
Proof. induction cs as [|c cs IH]; cbn; [auto|]. rewrite IH. reflexivity. Qed.

Lemma hi_nat_steps e cs ds x : letters cs -> reading cs ds ->
  (In x (hi_nat e (text_of cs)) <-> exists s out, In s (HI_ACR_TYP_TO_TR (encs (flat_map piece_of ds))) /\ In out (run_bytes HI_OPS s) /\ In x (print_only_glyph e LTN_CHARS out)).
Proof.
  intros H R. pose proof (typ_symbols _ (letters_chars cs H)) as Hs. pose proof (typ_no_translit _ (letters_chars cs H)) as Hn.
  assert (A : forall y, In y (flat_map (run_bytes ISO_TO_TXN) (map fst (outs read_iso (text_of cs)))) <-> y = encs (flat_map piece_of ds)).
  { intros y. rewrite in_flat_map.
    assert (B : In y (run_bytes ISO_TO_TXN (encs (map symbol_of cs))) <-> y = encs (flat_map piece_of ds)).
    { rewrite (run_bytes_ok ISO_TO_TXN iso_well iso_staged _ y Hs (or_intror Hn)). split.
      - intros (out & P & ->). rewrite <- (app_nil_r ISO_TO_TXN) in P. apply (iso_to_txn_steps cs ds [] out R) in P. inversion P; subst. reflexivity.
      - intros ->. exists (flat_map piece_of ds). split; auto. rewrite <- (app_nil_r ISO_TO_TXN). apply (iso_to_txn_steps cs ds [] _ R). constructor. }
    split.
    - intros (u & Iu & Iy). apply (read_letters cs H) in Iu as ->. apply B. exact Iy.
    - intros K. exists (encs (map symbol_of cs)). split; [apply (read_letters cs H); reflexivity|]. apply B. exact K. }
  unfold hi_nat. rewrite in_flat_map. split.
  - intros (out & Io & Ix). apply in_flat_map in Io as (s & Is & Io). apply in_flat_map in Is as (y & Iy & Is). apply A in Iy as ->. exists s, out. auto.
  - intros (s & out & Is & Io & Ix). exists out. split; auto. apply in_flat_map. exists s. split; auto. apply in_flat_map. exists (encs (flat_map piece_of ds)). split; auto. apply A. reflexivity.
Qed.
Lemma pieces_symbols cs ds : letters cs -> reading cs ds -> Forall symbol (flat_map piece_of ds).
Proof.
  intros H R. apply (performs_all_writes symbol ISO_TO_TXN (map symbol_of cs)).
  - eapply Forall_impl; [|exact iso_well]. intros o; apply well_formed_writes.
  - rewrite <- (app_nil_r ISO_TO_TXN). apply (iso_to_txn_steps cs ds [] _ R). constructor.
  - exact (typ_symbols _ (letters_chars cs H)).
Qed.
Lemma caps_symbols cs : (forall c, In c cs -> In c ASCII_UC) -> Forall symbol (map (fun c => Tr (typ c)) cs).
Proof.
  intros H. apply Forall_forall. intros t K. apply in_map_iff in K. destruct K as (c & <- & K). cbn. destruct ltn_table as [_ T]. exact (proj2 (proj1 (Forall_forall _ _) T c (upper_ltn c (H c K)))).
Qed.

Lemma hi_acronym e cs ds w : letters cs -> reading cs ds -> acronym ds w -> only (capitals w) (hi_nat e (text_of cs)).
Proof.
  intros H R Ha x. pose proof (proj1 R) as Hk. rewrite (hi_nat_steps e cs ds x H R).
  destruct (caps_chars w (acronym_named ds w Ha)) as (ks & K1 & K2 & K3). pose proof (pieces_symbols cs ds H R) as Hs.
  assert (A : forall s, In s (HI_ACR_TYP_TO_TR (encs (flat_map piece_of ds))) <-> s = encs (caps w)).
  { intros s. rewrite (acr_words ds s Hk Hs). split.
    - intros [(w' & Hw' & ->)|[Na _]]; [rewrite (acronym_unique ds w' w Hw' Ha); auto|]. exfalso. exact (Na w Ha).
    - intros ->. left. exists w. auto. }
  assert (B : forall o, In o (run_bytes HI_OPS (encs (caps w))) <-> o = encs (caps w)).
  { intros o. rewrite K2. rewrite (run_bytes_ok HI_OPS ops_well ops_staged _ o (caps_symbols ks K1) (or_introl ops_no_insert)). split.
    - intros (out & P & ->). apply (inert_all HI_OPS ops_inert _ out (upper_chars ks K1)) in P. subst; auto.
    - intros ->. eexists. split; [apply (inert_all HI_OPS ops_inert _ _ (upper_chars ks K1)); reflexivity|reflexivity]. }
  assert (C : In x (print_only_glyph e LTN_CHARS (encs (caps w))) <-> x = capitals w).
  { rewrite K2, <- K3. apply print_glyphs; [exact ltn_table|exact (caps_symbols ks K1)|intros c Kc; apply upper_ltn; auto|apply all_translits]. }
  split.
  - intros (s & o & Is & Io & Ix). apply A in Is as ->. apply B in Io as ->. apply C. exact Ix.
  - intros K. exists (encs (caps w)), (encs (caps w)). split; [apply A; auto|]. split; [apply B; auto|apply C; exact K].
Qed.
Lemma hi_other e cs ds f : letters cs -> reading cs ds -> (forall w, ~ acronym ds w) -> romanize e Hi Nat = Some f -> forall x, In x (hi_nat e (text_of cs)) <-> In x (f (text_of cs)).
Proof.
  intros H R Na Ef x. pose proof (proj1 R) as Hk. rewrite (hi_nat_steps e cs ds x H R). pose proof (pieces_symbols cs ds H R) as Hs.
  destruct (romanize_some e Hi Nat f Ef) as (before & after & El & Et). rewrite hi_ltn in El. injection El as <- <-. rewrite Et.
  assert (A : forall s, In s (HI_ACR_TYP_TO_TR (encs (flat_map piece_of ds))) <-> s = encs (flat_map piece_of ds)).
  { intros s. rewrite (acr_words ds s Hk Hs). split.
    - intros [(w' & Hw' & ->)|[_ E]]; [exfalso; exact (Na w' Hw')|exact E].
    - intros ->. right. auto. }
  assert (D : In x (flat_map (ending Nat) (romanized e Hi HI_BEFORE GEMINATES (text_of cs))) <-> In x (romanized e Hi HI_BEFORE GEMINATES (text_of cs))).
  { rewrite in_flat_map. cbn [ending]. split; [intros (y & Iy & [<-|[]]); exact Iy|intros K; exists x; split; [exact K|left; auto]]. }
  rewrite D, (romanized_in e Hi Nat HI_BEFORE GEMINATES cs ds x hi_ltn H R). cbn [txn_ops]. split.
  - intros (s & o & Is & Io & Ix). apply A in Is as ->. apply (run_bytes_ok HI_OPS ops_well ops_staged _ o Hs (or_introl ops_no_insert)) in Io as (out & P & ->). exists out. split; auto. split; auto.
    apply (performs_all_writes symbol HI_OPS (flat_map piece_of ds)); auto. eapply Forall_impl; [|exact ops_well]. intros o'; apply well_formed_writes.
  - intros (out & P & _ & Ix). exists (encs (flat_map piece_of ds)), (encs out). split; [apply A; auto|]. split; auto.
    apply (run_bytes_ok HI_OPS ops_well ops_staged _ _ Hs (or_introl ops_no_insert)). eauto.
Qed.

(** * The characters of a text *)
Lemma the_reading cs ds : letters cs -> known ds -> In (encs (names ds)) (iso_to_typ (text_of cs)) -> reading cs ds.
Proof.
  intros H Hk K. destruct (reading_exists cs H) as (ds' & R). pose proof (proj1 R) as Hk'. apply (reading_typ cs ds' H R) in K.
  assert (E : names ds = names ds').
  { assert (Sy : forall l, known l -> Forall symbol (names l)); [intros l Hl|apply encs_inj; auto]. apply typ_symbols; unfold typ_chars, names; apply Forall_forall; intros t Kt; apply in_map_iff in Kt; destruct Kt as (c & <- & Kc); apply in_map; auto. }
  replace ds with ds'; [exact R|]. clear - E Hk Hk'. revert ds' Hk' E. induction ds as [|c ds IH]; intros [|d ds'] Hk' E; try discriminate; auto.
  cbn [names map] in E. injection E as E1 E2. f_equal.
  - symmetry. apply symbol_inj; [apply Hk; left; auto|apply Hk'; left; auto|]. unfold symbol_of. rewrite E1. reflexivity.
  - apply IH; [intros x K; apply Hk; right; auto|intros x K; apply Hk'; right; auto|exact E2].
Qed.
Lemma hi_nat_acronym e cs ds w : letters cs -> (forall c, In c ds -> In c CHARS) -> In (encs (names ds)) (iso_to_typ (text_of cs)) -> acronym ds w -> only (capitals w) (hi_nat e (text_of cs)).
Proof. intros H Hk K. exact (hi_acronym e cs ds w H (the_reading cs ds H Hk K)). Qed.
Lemma hi_nat_other e cs ds f : letters cs -> (forall c, In c ds -> In c CHARS) -> In (encs (names ds)) (iso_to_typ (text_of cs)) -> (forall w, ~ acronym ds w) -> romanize e Hi Nat = Some f ->
  forall x, In x (hi_nat e (text_of cs)) <-> In x (f (text_of cs)).
Proof. intros H Hk K. exact (hi_other e cs ds f H (the_reading cs ds H Hk K)). Qed.
(** Upper case shows an acronym *)
Lemma capitals_upper ds w : acronym ds w -> Forall (fun c => (65 <= c <= 90)%N) (capitals w).
Proof.
  intros H. apply acronym_named in H. unfold capitals. apply Forall_flat_map. eapply Forall_impl; [|exact H]. intros x (ps & Hx).
  assert (K : forallb (fun q : string * list (list string) => forallb (fun c => if N.leb 65 c then N.leb c 90 else false) (bytes (fst q))) letter_names = true) by (vm_compute; reflexivity).
  rewrite forallb_forall in K. apply K in Hx. cbn [fst] in Hx. apply Forall_forall. intros c Kc. rewrite forallb_forall in Hx. apply Hx in Kc. destruct (N.leb_spec 65 c); [|discriminate]. apply N.leb_le in Kc. lia.
Qed.
Lemma hi_nat_one e cs : letters cs -> exists x, only x (hi_nat e (text_of cs)) /\
  ((Forall (fun c => (65 <= c <= 90)%N) x /\ exists ds w, In (encs (names ds)) (iso_to_typ (text_of cs)) /\ acronym ds w /\ x = capitals w) \/ lower_case x).
Proof.
  intros H. destruct (reading_exists cs H) as (ds & R). pose proof (proj1 R) as Hk. destruct (acronym_dec ds Hk) as [[w Hw]|Na].
  - exists (capitals w). split; [exact (hi_acronym e cs ds w H R Hw)|]. left. split; [exact (capitals_upper ds w Hw)|]. exists ds, w. split; auto. apply (reading_typ cs ds H R). reflexivity.
  - destruct (romanize e Hi Nat) as [f|] eqn:Ef; [|unfold romanize in Ef; rewrite hi_ltn in Ef; discriminate].
    assert (La : forall before after, ltn_ops Hi Nat = Some (before, after) -> latin true CHARS (txn_ops Hi) before after = true).
    { apply latin_all_ok. pose proof latin_seven as L. rewrite forallb_forall in L. apply L. left. reflexivity. }
    destruct (romanize_ok true CHARS e Hi Nat f cs ds Ef La H R Hk) as (_ & Lo & On). destruct (On eq_refl) as (x & Ox). exists x. split.
    + intros y. rewrite (hi_other e cs ds f H R Na Ef y). apply Ox.
    + right. apply Lo. apply Ox. reflexivity.
Qed.
