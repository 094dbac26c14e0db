(** Closures of string maps; the shipped romanization table. *)
From Verif Require Import Base RuleModel RuleSpec RuleProofs RewriteProofs NfcTables NfcProofs
  RomanModel RomanSpec RomanTables CodeCheck Utf8Model ByteModel.

(** ** The closure lists exactly the translations *)
Lemma suffix_outs_nth tbl s i : i <= length s ->
  nth_error (suffix_outs tbl s) i = Some (star_outs tbl (skipn i s)).
Proof.
  revert i; induction s as [|c s IH]; intros i Hi.
  - simpl in Hi. assert (i = 0) as -> by lia. reflexivity.
  - destruct i as [|i]; [reflexivity|]. simpl in Hi.
    change (suffix_outs tbl (c :: s))
      with (star_outs tbl (c :: s) :: suffix_outs tbl s).
    simpl nth_error. apply IH. lia.
Qed.

Lemma star_outs_cons tbl c s t :
  In t (star_outs tbl (c :: s)) <->
  exists k v rest o, In (k, v) tbl /\ k <> [] /\ c :: s = k ++ rest /\ In o (star_outs tbl rest) /\
    t = v ++ o.
Proof.
  unfold star_outs at 1. cbn [suffix_outs]. rewrite in_flat_map. split.
  - intros ([k v] & Hr & H). cbn [fst snd] in H.
    destruct k as [|d k]; [contradiction|].
    destruct (prefixb (d :: k) (c :: s)) eqn:P; [|contradiction].
    apply prefixb_spec in P as [rest E]. pose proof E as E'. simpl in E'. inversion E'; subst.
    rewrite suffix_outs_nth in H by (rewrite app_length; lia).
    rewrite skipn_app, skipn_all, Nat.sub_diag in H. simpl in H.
    apply in_map_iff in H as (o & <- & Ho).
    exists (d :: k), v, rest, o. repeat split; auto; discriminate.
  - intros (k & v & rest & o & Hr & Hk & E & Ho & ->).
    exists (k, v). split; auto. cbn [fst snd].
    destruct k as [|d k]; [contradiction|].
    assert (prefixb (d :: k) (c :: s) = true) as -> by (apply prefixb_spec; exists rest; exact E).
    simpl in E. inversion E; subst.
    rewrite suffix_outs_nth by (rewrite app_length; lia).
    rewrite skipn_app, skipn_all, Nat.sub_diag. simpl. apply in_map. exact Ho.
Qed.

Lemma has_empty_key_false tbl k v : has_empty_key tbl = false -> In (k, v) tbl -> k <> [].
Proof.
  intros H Hr E. subst. unfold has_empty_key in H. rewrite existsb_false in H.
  apply H in Hr. discriminate.
Qed.

Lemma star_outs_spec tbl : has_empty_key tbl = false ->
  forall s t, In t (star_outs tbl s) <-> translates tbl s t.
Proof.
  intros HE. assert (forall n s t, length s <= n -> In t (star_outs tbl s) <-> translates tbl s t) as H.
  2: { intros s t. apply (H (length s)). lia. }
  induction n as [|n IH]; intros s t Hn.
  - destruct s; [|simpl in Hn; lia]. simpl. split.
    + intros [<-|[]]. exists []. repeat split. intros ? [].
    + intros (rows & Hr & E & ->). left. destruct rows as [|[k v] rows]; auto.
      exfalso. apply (has_empty_key_false tbl k v HE); [apply Hr; left; reflexivity|].
      simpl in E. destruct k; auto; discriminate.
  - destruct s as [|c s]; [apply IH; simpl; lia|]. rewrite star_outs_cons. split.
    + intros (k & v & rest & o & Hr & Hk & E & Ho & ->).
      apply IH in Ho as (rows & H1 & H2 & H3).
      * exists ((k, v) :: rows). split; [intros row [<-|Hrow]; auto|].
        simpl. rewrite <- H2, <- H3. auto.
      * assert (length (c :: s) = length (k ++ rest)) as L by (rewrite E; reflexivity).
        rewrite app_length in L. destruct k; [contradiction|]. simpl in L, Hn. lia.
    + intros (rows & H1 & H2 & ->). destruct rows as [|[k v] rows]; [discriminate|].
      simpl in H2. pose proof (H1 _ (or_introl eq_refl)) as Hr.
      pose proof (has_empty_key_false tbl k v HE Hr) as Hk.
      exists k, v, (concat (map fst rows)), (concat (map snd rows)). repeat split; auto.
      apply IH.
      * assert (length (c :: s) = length (k ++ concat (map fst rows))) as L by (rewrite <- H2; reflexivity).
        rewrite app_length in L. destruct k; [contradiction|]. simpl in L, Hn. lia.
      * exists rows. repeat split. intros row Hrow. apply H1. right. exact Hrow.
Qed.

Lemma translates_invert tbl s t : translates (invert tbl) s t <-> translates tbl t s.
Proof.
  assert (forall tb x y, translates tb x y -> translates (invert tb) y x) as H.
  { intros tb x y (rows & H & -> & ->). exists (invert rows). unfold invert. rewrite !map_map.
    split; [|split; reflexivity].
    intros row Hr. apply in_map_iff in Hr as (r & <- & Hr). apply in_map_iff. exists r. auto. }
  split; [|apply H]. intros T. apply H in T. unfold invert in T. rewrite map_map in T.
  rewrite (map_ext _ (fun row => row)) in T by (intros []; reflexivity). rewrite map_id in T. exact T.
Qed.

(** ** Unique decodability makes the table reversible *)
Lemma NoDup_snd_inj (tbl : table) r1 r2 : NoDup (map snd tbl) -> In r1 tbl -> In r2 tbl ->
  snd r1 = snd r2 -> r1 = r2.
Proof.
  induction tbl as [|r tbl IH]; simpl; intros ND H1 H2 E; [contradiction|].
  inversion ND; subst. destruct H1 as [<-|H1], H2 as [<-|H2]; auto.
  - exfalso. apply H3. rewrite E. apply in_map. exact H2.
  - exfalso. apply H3. rewrite <- E. apply in_map. exact H1.
Qed.

Lemma map_snd_inj (tbl : table) rs1 rs2 : NoDup (map snd tbl) ->
  (forall r, In r rs1 -> In r tbl) -> (forall r, In r rs2 -> In r tbl) ->
  map snd rs1 = map snd rs2 -> rs1 = rs2.
Proof.
  intros ND. revert rs2. induction rs1 as [|r rs1 IH]; intros [|r' rs2] H1 H2 E; try discriminate; auto.
  simpl in E. injection E as E1 E2. f_equal.
  - apply (NoDup_snd_inj tbl); simpl in *; auto.
  - apply IH; auto; intros x Hx; [apply H1|apply H2]; right; exact Hx.
Qed.

Lemma code_reads_back tbl : NoDup (map snd tbl) -> uniquely_decodable (map snd tbl) ->
  forall s s' r, translates tbl s r -> translates tbl s' r -> s = s'.
Proof.
  intros ND UD s s' r (rs1 & H1 & -> & ->) (rs2 & H2 & -> & E).
  assert (map snd rs1 = map snd rs2) as M.
  { apply UD; auto; intros x Hx; apply in_map_iff in Hx as (row & <- & Hrow); apply in_map; auto. }
  rewrite (map_snd_inj tbl rs1 rs2); auto.
Qed.

Lemma code_functional tbl : NoDup (map fst tbl) -> uniquely_decodable (map fst tbl) ->
  forall s r r', translates tbl s r -> translates tbl s r' -> r = r'.
Proof.
  intros ND UD s r r' H H'.
  apply (code_reads_back (invert tbl)) with (r := s).
  - unfold invert. rewrite map_map. exact ND.
  - unfold invert. rewrite map_map. exact UD.
  - apply translates_invert. exact H.
  - apply translates_invert. exact H'.
Qed.

Fixpoint nodup_str (l : list str) : bool :=
  match l with [] => true | x :: l' => negb (mem_str x l') && nodup_str l' end.

Lemma nodup_str_spec l : nodup_str l = true -> NoDup l.
Proof.
  induction l as [|x l IH]; simpl; intros H; constructor; apply andb_true_iff in H as [H1 H2]; auto.
  apply negb_true_iff in H1. intros Hin. apply mem_str_spec in Hin. congruence.
Qed.

(** ** The shipped table *)
Lemma roman_nodup : nodup_str (map snd roman_table) && nodup_str (map fst roman_table) = true.
Proof. vm_compute. reflexivity. Qed.

Lemma roman_ud : ud_check 6 (map snd roman_table) && ud_check 6 (map fst roman_table) = true.
Proof. vm_compute. reflexivity. Qed.

Lemma roman_bytes_ud : ud_check 6 (map bytes (map snd roman_table)) &&
  ud_check 6 (map bytes (map fst roman_table)) = true.
Proof. vm_compute. reflexivity. Qed.

Lemma roman_bytes_nodup : nodup_str (map bytes (map snd roman_table)) &&
  nodup_str (map bytes (map fst roman_table)) = true.
Proof. vm_compute. reflexivity. Qed.

Lemma roman_keys : has_empty_key roman_table || has_empty_key (invert roman_table) = false.
Proof. vm_compute. reflexivity. Qed.

Lemma roman_single :
  forallb (fun row => match fst row with [_] => true | _ => false end) roman_table = true.
Proof. vm_compute. reflexivity. Qed.

Lemma roman_injective : forall s s' r,
  translates roman_table s r -> translates roman_table s' r -> s = s'.
Proof.
  pose proof roman_nodup as H. apply andb_true_iff in H as [H _].
  pose proof roman_ud as U. apply andb_true_iff in U as [U _].
  apply code_reads_back; [apply nodup_str_spec; exact H|apply (ud_check_sound 6); exact U].
Qed.

Lemma roman_functional : forall s r r',
  translates roman_table s r -> translates roman_table s r' -> r = r'.
Proof.
  pose proof roman_nodup as H. apply andb_true_iff in H as [_ H].
  pose proof roman_ud as U. apply andb_true_iff in U as [_ U].
  apply code_functional; [apply nodup_str_spec; exact H|apply (ud_check_sound 6); exact U].
Qed.

Definition byte_table (tbl : table) : table := map (fun row => (bytes (fst row), bytes (snd row))) tbl.

Lemma roman_bytes_reversible : forall s r,
  (forall s', translates (byte_table roman_table) s r -> translates (byte_table roman_table) s' r -> s = s') /\
  (forall r', translates (byte_table roman_table) s r -> translates (byte_table roman_table) s r' -> r = r').
Proof.
  pose proof roman_bytes_nodup as H. apply andb_true_iff in H as [H1 H2].
  pose proof roman_bytes_ud as U. apply andb_true_iff in U as [U1 U2].
  rewrite map_map in H1, H2, U1, U2.
  intros s r. split.
  - intros s'. apply code_reads_back; unfold byte_table; rewrite map_map;
      [apply nodup_str_spec; exact H1|apply (ud_check_sound 6); exact U1].
  - intros r'. apply code_functional; unfold byte_table; rewrite map_map;
      [apply nodup_str_spec; exact H2|apply (ud_check_sound 6); exact U2].
Qed.

(** Native texts are exactly those with a romanization. *)
Lemma native_translates s : native roman_table s <-> exists r, translates roman_table s r.
Proof.
  split.
  - induction s as [|c s IH]; intros H.
    + exists [], []. repeat split. intros ? [].
    + destruct IH as (r & rows & H1 & -> & ->); [intros d Hd; apply H; right; exact Hd|].
      assert (In [c] (map fst roman_table)) as Hc by (apply H; left; reflexivity).
      apply in_map_iff in Hc as ([k v] & E & Hr). simpl in E. subst k.
      exists (v ++ concat (map snd rows)), (([c], v) :: rows). split; [|split; reflexivity].
      intros row [<-|Hrow]; auto.
  - intros (r & rows & H & -> & _) c Hc.
    pose proof roman_single as RS. rewrite forallb_forall in RS.
    apply in_concat in Hc as (k & Hk & Hc). apply in_map_iff in Hk as ([k' v] & E & Hr).
    simpl in E. subst k'. apply H in Hr. pose proof (RS _ Hr) as S1. simpl in S1.
    destruct k as [|d [|? ?]]; try discriminate. destruct Hc as [->|[]].
    apply in_map_iff. exists ([c], v). auto.
Qed.

Definition native_chars : list N := concat (map fst roman_table).

Lemma native_over s : native roman_table s <-> over native_chars s = true.
Proof.
  unfold over. rewrite forallb_forall. split.
  - intros H c Hc. apply memN_spec. apply in_concat. exists [c]. split; [apply H; exact Hc|left; reflexivity].
  - intros H c Hc. apply H, memN_spec in Hc. unfold native_chars in Hc.
    apply in_concat in Hc as (k & Hk & Hc). pose proof roman_single as RS. rewrite forallb_forall in RS.
    apply in_map_iff in Hk as ([k' v] & E & Hr). simpl in E. subst k'.
    pose proof (RS _ Hr) as S1. simpl in S1. destruct k as [|d [|? ?]]; try discriminate.
    destruct Hc as [->|[]]. apply in_map_iff. exists ([c], v). auto.
Qed.

Lemma nfc_native : forallb (fun r => over native_chars (lhs r) && over native_chars (rhs r)) nfc_ARAB = true.
Proof. vm_compute. reflexivity. Qed.

Lemma passes_over sigma layers s t :
  (forall rs r, In rs layers -> In r rs -> over sigma (rhs r) = true) ->
  over sigma s = true -> passes layers s t -> over sigma t = true.
Proof.
  revert s; induction layers as [|rs layers IH]; simpl; intros s H Hs P.
  - subst. exact Hs.
  - destruct P as (gs & Hc & P). apply IH in P; auto.
    + intros rs' r Hrs. apply H. right. exact Hrs.
    + apply (outs_over rs sigma s); auto. intros r Hr. apply (H rs); auto.
Qed.

(** The Arabic NFC grammar is total and functional and keeps text native. *)
Lemma arab_nfc ns sigma : (forall r, In r nfc_ARAB -> over sigma (rhs r) = true) ->
  exists nfc, fst_from_rules ns nfc_ARAB sigma = Some nfc /\
    (forall s, over sigma s = true ->
      exists n, nfc s = [n] /\ (native roman_table s -> native roman_table n)) /\
    (forall s, over sigma s = false -> nfc s = []).
Proof.
  intros Hs. pose proof nfc_nonempty as NE. apply andb_true_iff in NE as [NE _].
  apply nonempty_lhsb_spec in NE.
  pose proof (fst_from_rules_spec ns nfc_ARAB sigma NE Hs) as H.
  destruct (partition_unordered nfc_ARAB) as [ls| |] eqn:P.
  - destruct H as (f & Hf & H1 & H2). exists f. split; [exact Hf|]. split; [|exact H2].
    intros s Ho. destruct (H1 s Ho) as (t & Ht & _ & Hp & _). exists t. split; auto.
    intros Hn. apply native_over. apply native_over in Hn. apply (passes_over _ ls s); auto.
    intros rs r Hrs Hr. pose proof nfc_native as N. rewrite forallb_forall in N.
    assert (In r nfc_ARAB) as Hin.
    { apply partition_sound in P as (_ & P & _). apply P, in_concat. exists rs. auto. }
    apply N, andb_true_iff in Hin. apply Hin.
  - exfalso. pose proof nfc_partitions as Q. apply andb_true_iff in Q as [Q _]. rewrite P in Q. discriminate.
  - exfalso. pose proof nfc_partitions as Q. apply andb_true_iff in Q as [Q _]. rewrite P in Q. discriminate.
Qed.

(** ** FROM_ARAB and TO_ARAB *)
Lemma from_arab_spec ns nfc_rules tbl sigma nfc : fst_from_rules ns nfc_rules sigma = Some nfc ->
  has_empty_key tbl = false ->
  exists f, from_arab ns nfc_rules tbl sigma = Some f /\
    forall s r, In r (f s) <-> exists n, In n (nfc s) /\ translates tbl n r.
Proof.
  intros Hn He. unfold from_arab, star_fst. rewrite Hn, He.
  destruct (compose_fsts_run_fuel ns (length [nfc; star_outs tbl]) (fun _ => []) [nfc; star_outs tbl])
    as (f & Hf & H); [lia|discriminate|].
  exists f. split; [exact Hf|]. intros s r. rewrite H. unfold run_chain. simpl.
  rewrite in_flat_map. split.
  - intros (n & Hin & Hr). exists n. split; auto. apply (star_outs_spec tbl He).
    apply in_flat_map in Hr as (x & Hx & [<-|[]]). exact Hx.
  - intros (n & Hin & Hr). exists n. split; auto. apply in_flat_map. exists r.
    split; [apply (star_outs_spec tbl He); exact Hr|left; reflexivity].
Qed.

Lemma to_arab_spec tbl : has_empty_key (invert tbl) = false ->
  exists g, to_arab tbl = Some g /\ forall r n, In n (g r) <-> translates tbl n r.
Proof.
  intros He. unfold to_arab, star_fst. rewrite He. exists (star_outs (invert tbl)). split; auto.
  intros r n. rewrite (star_outs_spec _ He). apply translates_invert.
Qed.

Lemma round_trip ns sigma : (forall r, In r nfc_ARAB -> over sigma (rhs r) = true) ->
  exists nfc f g, fst_from_rules ns nfc_ARAB sigma = Some nfc /\
    from_arab ns nfc_ARAB roman_table sigma = Some f /\ to_arab roman_table = Some g /\
    (forall s, over sigma s = true -> native roman_table s ->
       exists n r, nfc s = [n] /\ In r (f s) /\ In n (g r)) /\
    (forall s r, In r (f s) -> exists n, nfc s = [n] /\
       (forall r', In r' (f s) -> r' = r) /\ (forall n', In n' (g r) <-> n' = n)) /\
    (forall r n n', In n (g r) -> In n' (g r) -> n = n') /\
    (forall r n, In n (g r) -> native roman_table n).
Proof.
  intros Hs. pose proof roman_keys as K. apply orb_false_iff in K as [K1 K2].
  destruct (arab_nfc ns sigma Hs) as (nfc & Hn & N1 & N2).
  destruct (from_arab_spec ns nfc_ARAB roman_table sigma nfc Hn K1) as (f & Hf & Fs).
  destruct (to_arab_spec roman_table K2) as (g & Hg & Gs).
  exists nfc, f, g. split; [exact Hn|]. split; [exact Hf|]. split; [exact Hg|].
  split; [|split; [|split]].
  - intros s Ho Hnat. destruct (N1 s Ho) as (n & En & Hnn). specialize (Hnn Hnat).
    apply native_translates in Hnn as (r & Hr). exists n, r. split; auto. split.
    + apply Fs. exists n. rewrite En. split; [left; reflexivity|exact Hr].
    + apply Gs. exact Hr.
  - intros s r Hr. apply Fs in Hr as (n & Hin & Hr).
    destruct (over sigma s) eqn:Ho; [|rewrite N2 in Hin by exact Ho; contradiction].
    destruct (N1 s Ho) as (n0 & En & _). rewrite En in Hin. destruct Hin as [->|[]].
    exists n. split; [exact En|]. split.
    + intros r' Hr'. apply Fs in Hr' as (n' & Hin' & Hr'). rewrite En in Hin'.
      destruct Hin' as [->|[]]. apply (roman_functional n'); auto.
    + intros n'. rewrite Gs. split; [intros H; apply (roman_injective n' n r); auto|intros ->; exact Hr].
  - intros r n n' H H'. apply Gs in H, H'. apply (roman_injective n n' r); auto.
  - intros r n H. apply Gs in H. apply native_translates. exists r. exact H.
Qed.

(** ** The API wrapper *)
Lemma arab_nfc_empty ns sigma nfc : (forall r, In r nfc_ARAB -> over sigma (rhs r) = true) ->
  fst_from_rules ns nfc_ARAB sigma = Some nfc -> nfc [] = [[]].
Proof.
  intros Hs Hn. pose proof nfc_nonempty as NE. apply andb_true_iff in NE as [NE _].
  apply nonempty_lhsb_spec in NE.
  pose proof (fst_from_rules_spec ns nfc_ARAB sigma NE Hs) as H.
  destruct (partition_unordered nfc_ARAB) as [ls| |] eqn:P; try congruence.
  destruct H as (f & Hf & H1 & _). rewrite Hn in Hf. injection Hf as <-.
  destruct (H1 [] eq_refl) as (t & Ht & _ & Hp & _). rewrite Ht. f_equal.
  apply (no_lhs_passes ls); [|exact Hp].
  intros l r Hl Hr (a & b & E). apply partition_sound in P as (_ & P & _).
  apply (NE r); [apply P, in_concat; exists l; auto|].
  destruct a; [|discriminate]. destruct (lhs r); [reflexivity|discriminate].
Qed.

Lemma obligatory_nth tau s i : i <= length s ->
  nth_error (obligatory_suffixes tau s) i = Some (to_reversible_roman tau (skipn i s)).
Proof.
  revert i; induction s as [|c s IH]; intros i Hi.
  - simpl in Hi. assert (i = 0) as -> by lia. reflexivity.
  - destruct i as [|i]; [reflexivity|]. simpl in Hi.
    cbn [obligatory_suffixes nth_error skipn]. apply IH. lia.
Qed.

Lemma stretches_spec tau s o n : In (o, n) (stretches tau s) <->
  n < length s /\ In o (tau (firstn (S n) s)).
Proof.
  unfold stretches. rewrite in_flat_map. split.
  - intros (m & Hm & H). apply in_map_iff in H as (o' & E & H). inversion E; subst.
    apply in_seq in Hm. split; [lia|exact H].
  - intros [H1 H2]. exists n. split; [apply in_seq; lia|]. apply in_map_iff. exists o. auto.
Qed.

Lemma wrapper_whole tau s o : s <> [] -> In o (tau s) -> In o (to_reversible_roman tau s).
Proof.
  destruct s as [|c s]; [contradiction|]. intros _ H. unfold to_reversible_roman.
  cbn [obligatory_suffixes].
  assert (In (o, length s) (stretches tau (c :: s))) as Hs.
  { apply stretches_spec. split; [simpl; lia|].
    change (S (length s)) with (length (c :: s)). rewrite firstn_all. exact H. }
  destruct (stretches tau (c :: s)) as [|p ps] eqn:E; [contradiction|].
  apply in_flat_map. exists (o, length s). split; [exact Hs|]. cbn [fst snd].
  rewrite obligatory_nth by lia. rewrite skipn_all. unfold to_reversible_roman.
  simpl. left. apply app_nil_r.
Qed.

Lemma wrapper_copies tau s : (forall a x b o, s = a ++ x ++ b -> x <> [] -> ~ In o (tau x)) ->
  to_reversible_roman tau s = [s].
Proof.
  induction s as [|c s IH]; intros H; [reflexivity|].
  unfold to_reversible_roman. cbn [obligatory_suffixes].
  destruct (stretches tau (c :: s)) as [|[o n] ps] eqn:E.
  - assert (to_reversible_roman tau s = [s]) as IH'.
    { apply IH. intros a x b o Eq Hx. apply (H (c :: a) x b o); auto. rewrite Eq. reflexivity. }
    unfold to_reversible_roman in IH'. destruct (obligatory_suffixes tau s); [discriminate|].
    rewrite IH'. reflexivity.
  - exfalso. assert (In (o, n) (stretches tau (c :: s))) as Hin by (rewrite E; left; reflexivity).
    apply stretches_spec in Hin as [_ Hin].
    apply (H [] (firstn (S n) (c :: s)) (skipn (S n) (c :: s)) o); auto.
    + simpl. f_equal. symmetry. apply firstn_skipn.
    + discriminate.
Qed.

Lemma api_keeps_round_trip ns sigma : (forall r, In r nfc_ARAB -> over sigma (rhs r) = true) ->
  exists nfc f g, fst_from_rules ns nfc_ARAB sigma = Some nfc /\
    from_arab ns nfc_ARAB roman_table sigma = Some f /\ to_arab roman_table = Some g /\
    forall s, over sigma s = true -> native roman_table s ->
      exists n r, nfc s = [n] /\ In r (to_reversible_roman f s) /\ In n (g r).
Proof.
  intros Hs. destruct (round_trip ns sigma Hs) as (nfc & f & g & Hn & Hf & Hg & H & _).
  exists nfc, f, g. split; [exact Hn|]. split; [exact Hf|]. split; [exact Hg|].
  intros s Ho Hnat. destruct (H s Ho Hnat) as (n & r & E & Hr & Hgr). exists n, r.
  split; [exact E|]. split; [|exact Hgr].
  destruct s as [|c s]; [|apply wrapper_whole; [discriminate|exact Hr]].
  pose proof roman_keys as K. apply orb_false_iff in K as [K1 K2].
  destruct (from_arab_spec ns nfc_ARAB roman_table sigma nfc Hn K1) as (f' & Hf' & Fs).
  rewrite Hf in Hf'. injection Hf' as <-. apply Fs in Hr as (n' & Hin & Hr). rewrite E in Hin.
  destruct Hin as [->|[]].
  assert (r = []) as ->; [|left; reflexivity].
  pose proof (arab_nfc_empty ns sigma nfc Hs Hn) as E0. rewrite E in E0. injection E0 as ->.
  apply (roman_functional []); [exact Hr|]. exists []. repeat split. intros ? [].
Qed.

(** Text without any romanizable character. *)
Lemma nfc_dom ns sigma nfc c s : (forall r, In r nfc_ARAB -> over sigma (rhs r) = true) ->
  fst_from_rules ns nfc_ARAB sigma = Some nfc -> ~ In [c] (map fst roman_table) ->
  forall n, In n (nfc s) -> In c s -> In c n.
Proof.
  intros Hs Hn Hc n Hin Hcs.
  pose proof nfc_nonempty as NE. apply andb_true_iff in NE as [NE _]. apply nonempty_lhsb_spec in NE.
  pose proof (fst_from_rules_spec ns nfc_ARAB sigma NE Hs) as H.
  destruct (partition_unordered nfc_ARAB) as [ls| |] eqn:P; try congruence.
  destruct H as (f & Hf & H1 & H2). rewrite Hn in Hf. injection Hf as <-.
  destruct (over sigma s) eqn:Ho; [|rewrite H2 in Hin by exact Ho; contradiction].
  destruct (H1 s Ho) as (t & Ht & _ & Hp & _). rewrite Ht in Hin. destruct Hin as [->|[]].
  assert (forall l r, In l ls -> In r l -> ~ In c (lhs r)) as Hl.
  { intros l r Hl Hr Hcl. apply partition_sound in P as (_ & P & _).
    assert (In r nfc_ARAB) as Hr' by (apply P, in_concat; exists l; auto).
    pose proof nfc_native as N. rewrite forallb_forall in N. apply N, andb_true_iff in Hr' as [Hr' _].
    apply native_over in Hr'. apply Hc, Hr'. exact Hcl. }
  clear - Hl Hp Hcs. revert s Hp Hcs. induction ls as [|rs ls IH]; simpl; intros s Hp Hcs.
  - subst. exact Hcs.
  - destruct Hp as (gs & Hcut & Hp). apply (IH (fun l r H => Hl l r (or_intror H)) (outs gs)); auto.
    clear Hp. revert Hcs. induction Hcut as [|d s gs Hno Hcut IHc|r s gs Hr Hcut IHc]; intros Hcs.
    + exact Hcs.
    + destruct Hcs as [->|Hcs]; [left; reflexivity|right; apply IHc; auto].
    + apply in_or_app. right. apply IHc. apply in_app_or in Hcs as [Hcs|Hcs]; auto.
      exfalso. apply (Hl rs r); auto. left; reflexivity.
Qed.

Lemma api_passes_foreign ns sigma : (forall r, In r nfc_ARAB -> over sigma (rhs r) = true) ->
  exists f, from_arab ns nfc_ARAB roman_table sigma = Some f /\
    forall s, (forall c, In c s -> ~ In [c] (map fst roman_table)) -> to_reversible_roman f s = [s].
Proof.
  intros Hs. pose proof roman_keys as K. apply orb_false_iff in K as [K1 K2].
  destruct (arab_nfc ns sigma Hs) as (nfc & Hn & _).
  destruct (from_arab_spec ns nfc_ARAB roman_table sigma nfc Hn K1) as (f & Hf & Fs).
  exists f. split; [exact Hf|]. intros s Hfor. apply wrapper_copies.
  intros a x b o E Hx Ho. apply Fs in Ho as (n & Hin & Ht).
  destruct x as [|c x]; [contradiction|].
  assert (~ In [c] (map fst roman_table)) as Hc.
  { apply Hfor. rewrite E. apply in_or_app. right. left. reflexivity. }
  apply Hc. assert (native roman_table n) as Hnat by (apply native_translates; eauto).
  apply Hnat. apply (nfc_dom ns sigma nfc c (c :: x) Hs Hn Hc n Hin). left. reflexivity.
Qed.

(** Alef followed by a combining madda: rewritten together it becomes the
    romanization of alef with madda, rewritten separately that of its parts. *)
Definition alef_madda : str := [1575; 1619]%N.

Definition is_some {A} (o : option A) : bool := match o with Some _ => true | None => false end.

Lemma api_ambiguous : exists f g s r1 r2,
  from_arab (fun _ => 1) nfc_ARAB roman_table native_chars = Some f /\ to_arab roman_table = Some g /\
  f s = [r1] /\ In r1 (to_reversible_roman f s) /\ In r2 (to_reversible_roman f s) /\ r1 <> r2 /\
  g r2 = [s] /\ g r1 <> [s].
Proof.
  assert (match from_arab (fun _ => 1) nfc_ARAB roman_table native_chars, to_arab roman_table with
          | Some f, Some g =>
            match f alef_madda, to_reversible_roman f alef_madda with
            | [r], [r1; r2] => (str_eqb r r1 && negb (str_eqb r1 r2) &&
                match g r2 with [s] => str_eqb s alef_madda | _ => false end &&
                match g r1 with [s] => negb (str_eqb s alef_madda) | _ => true end) ||
                (str_eqb r r2 && negb (str_eqb r1 r2) &&
                match g r1 with [s] => str_eqb s alef_madda | _ => false end &&
                match g r2 with [s] => negb (str_eqb s alef_madda) | _ => true end)
            | _, _ => false
            end
          | _, _ => false
          end = true) as H by (vm_compute; reflexivity).
  destruct (from_arab (fun _ => 1) nfc_ARAB roman_table native_chars) as [f|]; [|discriminate].
  destruct (to_arab roman_table) as [g|]; [|discriminate].
  destruct (f alef_madda) as [|r [|? ?]] eqn:Ef; try discriminate.
  destruct (to_reversible_roman f alef_madda) as [|r1 [|r2 [|? ?]]] eqn:Et; try discriminate.
  apply orb_true_iff in H as [H|H]; rewrite !andb_true_iff in H; destruct H as [[[H1 H2] H3] H4];
    apply str_eqb_eq in H1; apply negb_true_iff, str_eqb_neq in H2; subst r.
  - exists f, g, alef_madda, r1, r2. rewrite Ef, Et. repeat split; simpl; auto.
    + destruct (g r2) as [|s [|? ?]]; try discriminate. apply str_eqb_eq in H3. subst. reflexivity.
    + intros E. rewrite E in H4. rewrite str_eqb_refl in H4. discriminate.
  - exists f, g, alef_madda, r2, r1. rewrite Ef, Et. repeat split; simpl; auto.
    + destruct (g r1) as [|s [|? ?]]; try discriminate. apply str_eqb_eq in H3. subst. reflexivity.
    + intros E. rewrite E in H4. rewrite str_eqb_refl in H4. discriminate.
Qed.

Lemma closure_exact tbl f : star_fst tbl = Some f -> forall s t, In t (f s) <-> translates tbl s t.
Proof.
  unfold star_fst. destruct (has_empty_key tbl) eqn:E; [discriminate|]. intros H. injection H as <-.
  apply star_outs_spec. exact E.
Qed.
