(** The shipped letters of Arabic script, and their romanization. *)
From Coq Require Import String Sorted Lia.
From Verif Require Import Base RuleModel RuleSpec RuleProofs IdemProofs NfcTables NfcProofs RomanModel RomanSpec RomanTables RomanProofs
  DataModel DataSpec DataProofs LetterModel LetterTables LetterSpec LetterProofs.
Local Open Scope list_scope.

Definition str_dec : forall a b : str, {a = b} + {a <> b} := list_eq_dec N.eq_dec.
Definition each_once (l : list str) : list str := nodup str_dec l.
Lemma each_once_enumerates : enumerates each_once.
Proof. intro l. split; [apply NoDup_nodup|]. intro y. apply nodup_In. Qed.

Definition all_tests (es : list entry) : bool :=
  match letters_test es with
  | Pass => match coverage_test (map fst roman_table) es with Pass => true | _ => false end
  | _ => false
  end.
Definition reads (names : list (str * str)) (prefixes : list str) (es : list entry) : bool :=
  match fill_letters (lookup_in names) (fun _ => false) (fun _ => true) each_once prefixes es with
  | Ok es => all_tests es
  | _ => false
  end.
Lemma shipped_ok : reads letter_chars letter_prefixes letter_entries = true.
Proof. vm_cast_no_check (eq_refl true). Qed.

Lemma fill_order lookup is_cc has_name f g prefixes es : enumerates f -> enumerates g ->
  fill_letters lookup is_cc has_name f prefixes es = fill_letters lookup is_cc has_name g prefixes es.
Proof.
  intros Hf Hg. induction es as [|e es IH]; [reflexivity|]. cbn [fill_letters].
  rewrite (convert_order lookup is_cc has_name f g prefixes [] (letter e) Hf Hg). now rewrite IH.
Qed.

Lemma all_tests_spec es : all_tests es = true ->
  letters_test es = Pass /\ coverage_test (map fst roman_table) es = Pass.
Proof.
  unfold all_tests. destruct (letters_test es); try discriminate.
  destruct (coverage_test (map fst roman_table) es); try discriminate. auto.
Qed.

Lemma reads_spec names prefixes es f : reads names prefixes es = true -> enumerates f ->
  exists es', fill_letters (lookup_in names) (fun _ => false) (fun _ => true) f prefixes es = Ok es' /\
    letters_test es' = Pass /\ coverage_test (map fst roman_table) es' = Pass.
Proof.
  intros H Hf. rewrite (fill_order _ _ _ f each_once _ _ Hf each_once_enumerates). unfold reads in H.
  destruct (fill_letters (lookup_in names) (fun _ => false) (fun _ => true) each_once prefixes es)
    as [es'| | |]; try discriminate.
  exists es'. split; [reflexivity|]. exact (all_tests_spec es' H).
Qed.
Lemma shipped f : enumerates f ->
  exists es, fill_letters (lookup_in letter_chars) (fun _ => false) (fun _ => true) f letter_prefixes letter_entries = Ok es /\
    letters_test es = Pass /\ coverage_test (map fst roman_table) es = Pass.
Proof. exact (reads_spec letter_chars letter_prefixes letter_entries f shipped_ok). Qed.

(** ** Coverage *)
Lemma minus_spec a b : is_empty (minus a b) = true <-> incl a b.
Proof.
  unfold minus. induction a as [|s a IH]; cbn [filter].
  - split; [intros _ x []|reflexivity].
  - destruct (existsb (str_eqb s) b) eqn:E; cbn [negb].
    + rewrite IH. apply existsb_In in E. split.
      * intros H x [<-|Hx]; auto.
      * intros H x Hx. apply H. now right.
    + cbn [is_empty]. split; [discriminate|]. intro H. specialize (H s (or_introl eq_refl)).
      apply existsb_In in H. congruence.
Qed.
Lemma coverage_spec roman es : coverage_test roman es = Pass <->
  forall s, In s roman <-> exists e, In e es /\ raw (letter e) = s.
Proof.
  unfold coverage_test. set (letters := map (fun e => raw (letter e)) es).
  assert (L : forall s, In s letters <-> exists e, In e es /\ raw (letter e) = s).
  { intro s. unfold letters. rewrite in_map_iff. split; intros (e & H1 & H2); eauto. }
  pose proof (minus_spec letters roman) as M1. pose proof (minus_spec roman letters) as M2.
  destruct (is_empty (minus letters roman)), (is_empty (minus roman letters)).
  - split; [|reflexivity]. intros _ s. rewrite <- L. split; [apply M2|apply M1]; reflexivity.
  - split; [discriminate|]. intro H. assert (K : incl roman letters) by (intros s Hs; apply L, H, Hs).
    apply M2 in K. discriminate.
  - split; [discriminate|]. intro H. assert (K : incl letters roman) by (intros s Hs; apply H, L, Hs).
    apply M1 in K. discriminate.
  - split; [discriminate|]. intro H. assert (K : incl letters roman) by (intros s Hs; apply H, L, Hs).
    apply M1 in K. discriminate.
Qed.

(** ** Round trips *)
Lemma lhs_two : forallb (fun r => Nat.ltb 1 (List.length (lhs r))) nfc_ARAB = true.
Proof. vm_compute. reflexivity. Qed.

Lemma identity_on_spec s outs : identity_on s outs = true <-> (exists t, In t outs) /\ forall t, In t outs -> t = s.
Proof.
  unfold identity_on. destruct outs as [|t outs]; cbn [is_empty].
  - split; [discriminate|]. intros ((t & []) & _).
  - rewrite forallb_forall. split.
    + intro H. split; [exists t; now left|]. intros u Hu. specialize (H u Hu). apply str_eqb_eq in H. auto.
    + intros (_ & H) u Hu. apply str_eqb_eq. symmetry. auto.
Qed.

Lemma nfc_one rs ns sigma nfc c : (forall r, In r rs -> 1 < List.length (lhs r)) -> nonempty_lhs rs ->
  (forall r, In r rs -> over sigma (rhs r) = true) -> fst_from_rules ns rs sigma = Some nfc ->
  over sigma [c] = true -> nfc [c] = [[c]].
Proof.
  intros H2 Hn Hs Hf Ho. apply (no_lhs_identity ns rs sigma nfc Hn Hs Hf); [exact Ho|].
  intros r Hr (a & b & E). specialize (H2 r Hr).
  assert (L : List.length [c] = List.length (a ++ lhs r ++ b)) by now rewrite E.
  rewrite !app_length in L. cbn [List.length] in L. lia.
Qed.

Lemma roundtrip_ok ns sigma es :
  (forall r, In r nfc_ARAB -> over sigma (rhs r) = true) ->
  (forall e, In e es -> exists c, raw (letter e) = [c]) ->
  (forall e, In e es -> over sigma (raw (letter e)) = true) ->
  (forall e, In e es -> In (raw (letter e)) (map fst roman_table)) ->
  exists from to, from_arab ns nfc_ARAB roman_table sigma = Some from /\ to_arab roman_table = Some to /\
    roundtrip_test from to es = Pass.
Proof.
  intros Hs H1 H2 H3. destruct (round_trip ns sigma Hs) as (nfc & f & g & Hn & Hf & Hg & R1 & R2 & R3 & _).
  exists f, g. split; [exact Hf|]. split; [exact Hg|]. unfold roundtrip_test.
  assert (K : forallb (fun e => identity_on (raw (letter e)) (roundtrip f g (raw (letter e)))) es = true);
    [|now rewrite K].
  apply forallb_forall. intros e He. destruct (H1 e He) as (c & Ec).
  pose proof (H2 e He) as Ho. pose proof (H3 e He) as Hr. rewrite Ec in *.
  assert (N1 : nfc [c] = [[c]]).
  { pose proof nfc_nonempty as NE. apply andb_true_iff in NE as [NE _]. apply nonempty_lhsb_spec in NE.
    pose proof lhs_two as LT. rewrite forallb_forall in LT.
    refine (nfc_one nfc_ARAB ns sigma nfc c _ NE Hs Hn Ho).
    intros r Hr'. apply Nat.ltb_lt. exact (LT r Hr'). }
  apply identity_on_spec. unfold roundtrip. split.
  - destruct (R1 [c] Ho) as (n & r & E & F1 & F2).
    { intros d [<-|[]]. exact Hr. }
    exists n. apply in_flat_map. exists r. auto.
  - intros t Ht. apply in_flat_map in Ht as (r & F1 & F2).
    destruct (R2 [c] r F1) as (n & E & _ & G). apply G in F2. rewrite N1 in E. congruence.
Qed.

(** ** The shipped codes *)
Definition small (s : str) : bool := forallb (fun c => (97 <=? c)%N && (c <=? 122)%N) s.
Definition capital (s : str) : bool := forallb (fun c => (65 <=? c)%N && (c <=? 90)%N) s.
Fixpoint beforeb (a b : str) : bool :=
  match a, b with
  | [], _ :: _ => true
  | c :: s, d :: t => if (c <? d)%N then true else if (c =? d)%N then beforeb s t else false
  | _, [] => false
  end.
Fixpoint sortedb (l : list str) : bool :=
  match l with [] => true | a :: r => forallb (beforeb a) r && sortedb r end.
Definition two_or_three (s : str) : bool := Nat.eqb (List.length s) 2 || Nat.eqb (List.length s) 3.
Definition entry_codes_ok (e : entry) : bool :=
  forallb (fun c => small c && two_or_three c) (languages e) &&
  forallb (fun c => capital c && Nat.eqb (List.length c) 2) (regions e) &&
  sortedb (languages e) && sortedb (regions e) &&
  negb (is_empty (languages e) && is_empty (regions e)).
Lemma shipped_codes_ok : forallb entry_codes_ok letter_entries = true.
Proof. vm_cast_no_check (eq_refl true). Qed.

Lemma beforeb_spec a : forall b, beforeb a b = true -> before a b.
Proof.
  induction a as [|c a IH]; intros [|d b] H; try discriminate; [constructor|]. cbn [beforeb] in H.
  destruct (N.ltb c d) eqn:E; [apply N.ltb_lt in E; now constructor|].
  destruct (N.eqb c d) eqn:E2; [|discriminate]. apply N.eqb_eq in E2. subst. apply before_later. auto.
Qed.
Lemma sortedb_spec l : sortedb l = true -> StronglySorted before l.
Proof.
  induction l as [|a l IH]; intro H; [constructor|]. cbn [sortedb] in H. apply andb_true_iff in H as [H1 H2].
  constructor; [auto|]. apply Forall_forall. intros x Hx. apply beforeb_spec.
  rewrite forallb_forall in H1. auto.
Qed.
Lemma codes_generic es : forallb entry_codes_ok es = true -> forall e, In e es ->
  (languages e <> [] \/ regions e <> []) /\
  StronglySorted before (languages e) /\ StronglySorted before (regions e) /\
  (forall c, In c (languages e) -> small_letters c /\ (List.length c = 2 \/ List.length c = 3)) /\
  (forall c, In c (regions e) -> capital_letters c /\ List.length c = 2).
Proof.
  intros H e He. rewrite forallb_forall in H. specialize (H e He). unfold entry_codes_ok in H.
  rewrite !andb_true_iff in H. destruct H as ((((H1 & H2) & H3) & H4) & H5).
  rewrite forallb_forall in H1, H2.
  split; [|split; [now apply sortedb_spec|split; [now apply sortedb_spec|split]]].
  - destruct (languages e), (regions e); cbn in H5; try discriminate; [right|left|left]; discriminate.
  - intros c Hc. specialize (H1 c Hc). apply andb_true_iff in H1 as [S T]. split.
    + unfold small in S. rewrite forallb_forall in S. intros d Hd. specialize (S d Hd).
      apply andb_true_iff in S as [S1 S2]. apply N.leb_le in S1, S2. auto.
    + unfold two_or_three in T. apply orb_true_iff in T as [T|T]; apply Nat.eqb_eq in T; auto.
  - intros c Hc. specialize (H2 c Hc). apply andb_true_iff in H2 as [S T]. split.
    + unfold capital in S. rewrite forallb_forall in S. intros d Hd. specialize (S d Hd).
      apply andb_true_iff in S as [S1 S2]. apply N.leb_le in S1, S2. auto.
    + now apply Nat.eqb_eq in T.
Qed.
Lemma shipped_codes : forall e, In e letter_entries ->
  (languages e <> [] \/ regions e <> []) /\
  StronglySorted before (languages e) /\ StronglySorted before (regions e) /\
  (forall c, In c (languages e) -> small_letters c /\ (List.length c = 2 \/ List.length c = 3)) /\
  (forall c, In c (regions e) -> capital_letters c /\ List.length c = 2).
Proof. exact (codes_generic letter_entries shipped_codes_ok). Qed.

Lemma three_letters_refuted : exists e c, In e letter_entries /\ In c (languages e) /\ List.length c <> 3.
Proof.
  exists (entry_of ["SMALL HIGH TAH"%string] [] ["ur"%string] []), (codes "ur").
  split; [left; reflexivity|]. split; [left; reflexivity|]. vm_compute. discriminate.
Qed.

Lemma no_target_refuted : exists lookup is_cc has_name set_list it,
  enumerates set_list /\ convert_item lookup is_cc has_name set_list [] [] it = Ok ([97%N], None) /\
  fill_strings lookup is_cc has_name set_list [] [] [it] = TypeError.
Proof.
  exists (fun _ => None), (fun _ => false), (fun _ => true), each_once,
    {| uname := []; raw := [97%N]; to_uname := []; to_raw := [] |}.
  split; [exact each_once_enumerates|]. split; reflexivity.
Qed.

Lemma filled_test lookup is_cc has_name set_list prefixes es es' :
  fill_letters lookup is_cc has_name set_list prefixes es = Ok es' ->
  letters_test es' <> Raises /\
  (letters_test es' = Pass <->
   es' <> [] /\ Forall (fun e => List.length (uname (letter e)) = 1) es' /\ in_code_order es').
Proof. intro H. exact (letters_test_spec es' (filled_one_char _ _ _ _ _ _ _ H)). Qed.
