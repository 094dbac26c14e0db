(** Proofs about the registry of letters. *)
From Coq Require Import Sorted Lia.
From Verif Require Import Base RuleModel DataModel DataSpec DataProofs LetterModel LetterSpec.

Section Fill.
  Variable lookup : str -> option str.
  Variable is_cc : N -> bool.
  Variable has_name : N -> bool.
  Variable set_list : list str -> list str.
  Notation convert := (convert_item lookup is_cc has_name set_list).
  Notation fill := (fill_letters lookup is_cc has_name set_list).

  Lemma entries_text prefixes names rw s :
    proto_entries_to_string lookup is_cc has_name prefixes names rw = Ok s <->
    letter_text lookup is_cc has_name prefixes names rw s.
  Proof.
    unfold letter_text. destruct names as [|n names].
    - destruct rw as [|c rw].
      + rewrite entries_names_only. split; [discriminate|].
        intros [(_ & H & _)|(H & _)]; now destruct H.
      + rewrite entries_raw_only by discriminate. split.
        * intros [= <-]. left. split; [reflexivity|]. split; [discriminate|reflexivity].
        * intros [(_ & _ & ->)|(H & _)]; [reflexivity|now destruct H].
    - destruct rw as [|c rw].
      + rewrite entries_names_only, names_denote. split.
        * intros (H1 & H2 & H3). right. split; [exact H1|]. split; [now left|]. split; [exact H2|exact H3].
        * intros [(H & _)|(H1 & _ & H2 & H3)]; [discriminate|]. split; [exact H1|]. split; [exact H2|exact H3].
      + rewrite entries_both by discriminate. rewrite names_denote, forallb_forall. split.
        * intros (-> & Hn & H1 & H2 & H3). right. split; [exact H1|]. split; [right; auto|].
          split; [exact H2|exact H3].
        * intros [(H & _)|(H1 & [H|(<- & Hn)] & H2 & H3)]; [discriminate|discriminate|].
          split; [reflexivity|]. split; [exact Hn|]. split; [exact H1|]. split; [exact H2|exact H3].
  Qed.

  Lemma convert_no_target prefixes it s d : no_target it ->
    (convert prefixes [] it = Ok (s, d) <->
     d = None /\ letter_text lookup is_cc has_name (set_list prefixes) (uname it) (raw it) s).
  Proof.
    intros [H1 H2]. unfold convert_item. rewrite H1, H2. cbn [is_empty andb].
    destruct (is_empty (uname it) && is_empty (raw it)) eqn:E.
    - apply andb_true_iff in E as [E1 E2]. apply is_empty_spec in E1, E2. rewrite E1, E2.
      split; [discriminate|]. intros (_ & [(_ & H & _)|(H & _)]); now destruct H.
    - rewrite bind_ok. split.
      + intros (a & Ha & [= <- <-]). split; [reflexivity|]. now apply entries_text.
      + intros (-> & H). exists s. split; [now apply entries_text|reflexivity].
  Qed.

  Lemma fill_spec prefixes es es' : Forall (fun e => no_target (letter e)) es ->
    (fill prefixes es = Ok es' <->
     Forall2 (fun e e' => same_but_raw e e' /\
       letter_text lookup is_cc has_name (set_list prefixes) (uname (letter e)) (raw (letter e)) (raw (letter e'))) es es').
  Proof.
    intro H. revert es'. induction H as [|e es He _ IH]; intro es'.
    - cbn [fill_letters]. split; [intros [= <-]; constructor|]. intro H. inversion H. reflexivity.
    - cbn [fill_letters]. rewrite bind_ok. split.
      + intros ((s & d) & H1 & H2). apply bind_ok in H2 as (l & H2 & [= <-]).
        apply (convert_no_target _ _ _ _ He) in H1 as (_ & H1). constructor; [|now apply IH].
        split; [repeat split|]. exact H1.
      + intro H. inversion H as [|? e' ? l ((S1 & S2 & S3 & S4 & S5) & HT) HF]; subst.
        exists (raw (letter e'), None). split; [apply convert_no_target; auto|].
        apply bind_ok. exists l. split; [now apply IH|].
        destruct e' as [[u r tu tr] ls rs]. cbn in *. subst. unfold with_raw. reflexivity.
  Qed.

  Hypothesis named : forall n ch c, lookup n = Some ch -> In c ch -> has_name c = true.

  Lemma text_again prefixes names rw s : letter_text lookup is_cc has_name prefixes names rw s ->
    letter_text lookup is_cc has_name prefixes names s s.
  Proof.
    intros [(H1 & H2 & ->)|(H1 & _ & H3 & H4)]; [left; auto|].
    right. split; [exact H1|]. split; [right; split; [reflexivity|]|split; [exact H3|exact H4]].
    clear H1 H3. induction H4 as [|n c names s (full & p & -> & (L & _) & _) _ IH]; [intros c []|].
    intros c' [<-|H]; [exact (named _ _ _ L (or_introl eq_refl))|auto].
  Qed.

  Lemma convert_again prefixes to_prefixes it s d : convert prefixes to_prefixes it = Ok (s, d) ->
    convert prefixes to_prefixes (with_raw it s) = Ok (s, d).
  Proof.
    unfold convert_item, with_raw. cbn [uname raw to_uname to_raw].
    destruct (is_empty (uname it) && is_empty (raw it)) eqn:E; [discriminate|].
    rewrite bind_ok. intros (a & Ha & H).
    assert (s = a) as ->.
    { destruct (is_empty (to_uname it) && is_empty (to_raw it)); [now injection H|].
      apply bind_ok in H as (b & _ & H). now injection H. }
    apply entries_text in Ha.
    assert (a <> []) as N.
    { destruct Ha as [(_ & Hn & ->)|(Hn & _ & _ & H4)]; [exact Hn|]. intro K. subst.
      inversion H4. congruence. }
    assert (E2 : is_empty (uname it) && is_empty a = false).
    { destruct a; [congruence|]. apply andb_false_r. }
    rewrite E2. apply text_again in Ha. apply entries_text in Ha. rewrite Ha. exact H.
  Qed.

  Lemma fill_again prefixes es es' : fill prefixes es = Ok es' -> fill prefixes es' = Ok es'.
  Proof.
    revert es'. induction es as [|e es IH]; intros es'; cbn [fill_letters].
    - intros [= <-]. reflexivity.
    - rewrite bind_ok. intros ((s & d) & H1 & H2). apply bind_ok in H2 as (l & H2 & [= <-]).
      cbn [fill_letters letter languages regions fst]. rewrite (convert_again _ _ _ _ _ H1).
      cbn [bind fst]. rewrite (IH _ H2). reflexivity.
  Qed.
End Fill.

(** ** Strings with targets *)
Section Strings.
  Variable lookup : str -> option str.
  Variable is_cc : N -> bool.
  Variable has_name : N -> bool.
  Variable set_list : list str -> list str.
  Notation convert := (convert_item lookup is_cc has_name set_list).
  Notation fill := (fill_strings lookup is_cc has_name set_list).

  Lemma fill_strings_spec prefixes to_prefixes its its' :
    fill prefixes to_prefixes its = Ok its' <->
    Forall2 (fun it it' => uname it' = uname it /\ to_uname it' = to_uname it /\
      convert prefixes to_prefixes it = Ok (raw it', Some (to_raw it'))) its its'.
  Proof.
    revert its'. induction its as [|it its IH]; intro its'; cbn [fill_strings].
    - split; [intros [= <-]; constructor|]. intro H. inversion H. reflexivity.
    - rewrite bind_ok. split.
      + intros ((s & d) & H1 & H2). cbn [snd fst] in H2. destruct d as [d|]; [|discriminate].
        apply bind_ok in H2 as (l & H2 & [= <-]). constructor; [auto|now apply IH].
      + intro H. inversion H as [|? it' ? l (H1 & H2 & H3) HF]; subst.
        exists (raw it', Some (to_raw it')). split; [exact H3|]. cbn [snd fst].
        apply bind_ok. exists l. split; [now apply IH|].
        destruct it'; cbn in *; subst; reflexivity.
  Qed.

  Lemma fill_strings_target prefixes to_prefixes its its' it :
    fill prefixes to_prefixes its = Ok its' -> In it its -> ~ no_target it.
  Proof.
    intros H Hi [H1 H2]. apply fill_strings_spec in H.
    induction H as [|a b l l' (_ & _ & H3) _ IH]; [destruct Hi|]. destruct Hi as [->|Hi]; [|auto].
    apply convert_ok in H3 as (_ & H3 & _). destruct H3 as [_ H3]. specialize (H3 (conj H1 H2)). discriminate.
  Qed.
End Strings.

(** ** The test of the letters *)
Lemma existsb_In s l : existsb (str_eqb s) l = true <-> In s l.
Proof.
  rewrite existsb_exists. split; [intros (x & H & E); apply str_eqb_eq in E; now subst|].
  intro H. exists s. split; [exact H|]. now apply str_eqb_eq.
Qed.

Definition one_char (e : entry) : Prop := length (uname (letter e)) = 1 -> exists c, raw (letter e) = [c].

Lemma sorted_seen p (seen : list N) : (forall q, In q seen -> (q <= p)%N) -> forall c, (p < c)%N ->
  existsb (str_eqb [c]) (map (fun c => [c]) seen) = false.
Proof.
  intros H c Hc. destruct (existsb _ _) eqn:E; [|reflexivity]. exfalso.
  apply existsb_In, in_map_iff in E as (q & [= ->] & Hq). specialize (H _ Hq). lia.
Qed.

Lemma letters_from_some n es : Forall one_char es -> forall p (seen : list N),
  (forall q, In q seen -> (q <= p)%N) -> In p seen ->
  letters_from n (Some [p]) (map (fun c => [c]) seen) es <> Raises /\
  (letters_from n (Some [p]) (map (fun c => [c]) seen) es = Pass <->
   n = length es + length seen /\ Forall (fun e => length (uname (letter e)) = 1) es /\
   exists cs, map (fun e => raw (letter e)) es = map (fun c => [c]) cs /\ StronglySorted N.lt cs /\
     Forall (N.lt p) cs).
Proof.
  induction 1 as [|e es He _ IH]; intros p seen Hs Hp; cbn [letters_from].
  - rewrite map_length. destruct (Nat.eqb n (length seen)) eqn:E; split; try discriminate.
    + apply Nat.eqb_eq in E. split; [intros _|auto]. split; [exact E|]. split; [constructor|].
      exists []. repeat split; constructor.
    + apply Nat.eqb_neq in E. split; [discriminate|]. intros (K & _). now destruct E.
  - destruct (Nat.eqb (length (uname (letter e))) 1) eqn:E1; cbn [negb].
    2:{ split; [discriminate|]. split; [discriminate|]. intros (_ & H & _).
        inversion H as [|? ? K _]. apply Nat.eqb_neq in E1. contradiction. }
    apply Nat.eqb_eq in E1. destruct (He E1) as (c & Ec). rewrite Ec. cbn [is_empty ord].
    destruct (N.ltb p c) eqn:E2.
    + apply N.ltb_lt in E2. rewrite (sorted_seen p seen Hs c E2).
      change ([c] :: map (fun c => [c]) seen) with (map (fun c => [c]) (c :: seen)).
      destruct (IH c (c :: seen)) as (I1 & I2).
      { intros q [<-|Hq]; [lia|]. specialize (Hs _ Hq). lia. }
      { now left. }
      split; [exact I1|]. rewrite I2. clear I1 I2. cbn [length map].
      split.
      * intros (K1 & K2 & cs & K3 & K4 & K5). split; [lia|]. split; [now constructor|].
        exists (c :: cs). split; [cbn [map]; now rewrite Ec, K3|]. split; [now constructor|].
        constructor; [exact E2|]. apply (Forall_impl _ (P := N.lt c)); [intros; lia|exact K5].
      * intros (K1 & K2 & cs & K3 & K4 & K5). split; [lia|]. inversion K2; subst. split; [assumption|].
        destruct cs as [|c' cs]; [discriminate|]. cbn [map] in K3. rewrite Ec in K3.
        injection K3 as <- K3. inversion K4; subst. exists cs. auto.
    + apply N.ltb_ge in E2.
      assert (X : forall x, (if existsb (str_eqb [c]) (map (fun c0 => [c0]) seen) then Fail else Fail) = x -> x = Fail).
      { intros x <-. now destruct (existsb _ _). }
      specialize (X _ eq_refl). rewrite X. split; [discriminate|]. split; [discriminate|].
      intros (_ & _ & cs & K3 & _ & K5). destruct cs as [|c' cs]; [discriminate|]. cbn [map] in K3.
      rewrite Ec in K3. injection K3 as <- K3. inversion K5. lia.
Qed.

Lemma letters_test_spec es : Forall one_char es ->
  letters_test es <> Raises /\
  (letters_test es = Pass <->
   es <> [] /\ Forall (fun e => length (uname (letter e)) = 1) es /\ in_code_order es).
Proof.
  intro H. unfold letters_test, in_code_order. destruct es as [|e es]; cbn [is_empty].
  - split; [discriminate|]. split; [discriminate|]. intros (K & _). now destruct K.
  - inversion H as [|? ? He Hes]; subst. cbn [letters_from].
    destruct (Nat.eqb (length (uname (letter e))) 1) eqn:E1; cbn [negb].
    2:{ split; [discriminate|]. split; [discriminate|]. intros (_ & K & _).
        inversion K as [|? ? K1 _]. apply Nat.eqb_neq in E1. contradiction. }
    apply Nat.eqb_eq in E1. destruct (He E1) as (c & Ec). rewrite Ec. cbn [is_empty existsb].
    change [[c]] with (map (fun c => [c]) [c]).
    destruct (letters_from_some (length (e :: es)) es Hes c [c]) as (I1 & I2).
    { intros q [<-|[]]. lia. } { now left. }
    split; [exact I1|]. rewrite I2. clear I1 I2. cbn [length map]. split.
    + intros (_ & K2 & cs & K3 & K4 & K5). split; [discriminate|]. split; [now constructor|].
      exists (c :: cs). split; [cbn [map]; now rewrite Ec, K3|now constructor].
    + intros (_ & K2 & cs & K3 & K4). split; [lia|]. inversion K2; subst. split; [assumption|].
      destruct cs as [|c' cs]; [discriminate|]. cbn [map] in K3. rewrite Ec in K3.
      injection K3 as <- K3. inversion K4; subst. exists cs. auto.
Qed.

Lemma filled_one_char lookup is_cc has_name set_list prefixes es es' :
  fill_letters lookup is_cc has_name set_list prefixes es = Ok es' -> Forall one_char es'.
Proof.
  revert es'. induction es as [|e es IH]; intros es'; cbn [fill_letters].
  - intros [= <-]. constructor.
  - rewrite bind_ok. intros ((s & d) & H1 & H2). apply bind_ok in H2 as (l & H2 & [= <-]).
    constructor; [|exact (IH _ H2)]. unfold one_char, with_raw. cbn [letter uname raw fst].
    apply convert_item_facts in H1 as (_ & _ & H1 & _). intro L.
    destruct (uname (letter e)) as [|n [|? ?]]; try discriminate.
    specialize (H1 ltac:(discriminate)). apply names_denote in H1 as (_ & _ & H1).
    inversion H1 as [|? c ? s' _ H1']; subst. inversion H1'; subst. eauto.
Qed.

(** ** The tests of the codes *)
Section Codes.
  Variable entity : Type.
  Variable by_2 by_3 : str -> option entity.
  Variable alpha_2 : entity -> option str.
  Variable islower isupper : str -> bool.

  Lemma known_spec shorter code : ~ In 3 shorter -> (length code = 3 \/ In (length code) shorter) ->
    (known_code entity by_2 by_3 alpha_2 code = true <-> shortest_code by_2 by_3 alpha_2 shorter code).
  Proof.
    intros Hs Hc. unfold known_code, shortest_code. destruct (Nat.eqb (length code) 3) eqn:E.
    - apply Nat.eqb_eq in E. rewrite E. split.
      + intro H. left. split; [reflexivity|]. destruct (by_3 code) as [x|]; [|discriminate].
        exists x. split; [reflexivity|]. destruct (alpha_2 x); [discriminate|reflexivity].
      + intros [(_ & x & -> & ->)|(H & _)]; [reflexivity|contradiction].
    - apply Nat.eqb_neq in E. destruct Hc as [Hc|Hc]; [contradiction|]. split.
      + intro H. right. split; [exact Hc|]. destruct (by_2 code) as [x|]; [eauto|discriminate].
      + intros [(H & _)|(_ & x & ->)]; [contradiction|reflexivity].
  Qed.

  Lemma language_ok_spec code : language_ok entity by_2 by_3 alpha_2 islower code = true <->
    islower code = true /\ shortest_code by_2 by_3 alpha_2 [1; 2] code.
  Proof.
    unfold language_ok. destruct code as [|a [|b [|c [|d r]]]]; cbn [is_empty length Nat.ltb Nat.leb negb].
    - split; [discriminate|]. intros (_ & [(H & _)|([H|[H|[]]] & _)]); discriminate.
    - destruct (islower [a]); cbn [negb]; [|split; [discriminate|intros (H & _); discriminate]].
      rewrite (known_spec [1; 2]); [tauto|intros [H|[H|[]]]; discriminate|right; now left].
    - destruct (islower [a; b]); cbn [negb]; [|split; [discriminate|intros (H & _); discriminate]].
      rewrite (known_spec [1; 2]); [tauto|intros [H|[H|[]]]; discriminate|right; right; now left].
    - destruct (islower [a; b; c]); cbn [negb]; [|split; [discriminate|intros (H & _); discriminate]].
      rewrite (known_spec [1; 2]); [tauto|intros [H|[H|[]]]; discriminate|now left].
    - split; [discriminate|]. intros (_ & [(H & _)|([H|[H|[]]] & _)]); discriminate.
  Qed.
  Lemma region_ok_spec code : region_ok entity by_2 by_3 alpha_2 isupper code = true <->
    isupper code = true /\ shortest_code by_2 by_3 alpha_2 [2] code.
  Proof.
    unfold region_ok. destruct code as [|a [|b [|c [|d r]]]]; cbn [is_empty length Nat.ltb Nat.leb negb].
    - split; [discriminate|]. intros (_ & [(H & _)|([H|[]] & _)]); discriminate.
    - split; [discriminate|]. intros (_ & [(H & _)|([H|[]] & _)]); discriminate.
    - destruct (isupper [a; b]); cbn [negb]; [|split; [discriminate|intros (H & _); discriminate]].
      rewrite (known_spec [2]); [tauto|intros [H|[]]; discriminate|right; now left].
    - destruct (isupper [a; b; c]); cbn [negb]; [|split; [discriminate|intros (H & _); discriminate]].
      rewrite (known_spec [2]); [tauto|intros [H|[]]; discriminate|now left].
    - split; [discriminate|]. intros (_ & [(H & _)|([H|[]] & _)]); discriminate.
  Qed.

  Lemma all_codes (ok : str -> bool) (field : entry -> list str) es :
    (if forallb (fun e => forallb ok (field e)) es then Pass else Fail) = Pass <->
    forall e c, In e es -> In c (field e) -> ok c = true.
  Proof.
    destruct (forallb _ es) eqn:E.
    - split; [intros _ e c He Hc|auto]. rewrite forallb_forall in E. specialize (E e He).
      rewrite forallb_forall in E. auto.
    - split; [discriminate|]. intro H. exfalso. assert (K : forallb (fun e => forallb ok (field e)) es = true).
      { apply forallb_forall. intros e He. apply forallb_forall. intros c Hc. exact (H e c He Hc). }
      congruence.
  Qed.
  Lemma languages_test_spec es : languages_test entity by_2 by_3 alpha_2 islower es = Pass <->
    forall e c, In e es -> In c (languages e) -> islower c = true /\ shortest_code by_2 by_3 alpha_2 [1; 2] c.
  Proof.
    unfold languages_test. rewrite all_codes. split; intros H e c He Hc; apply language_ok_spec; eauto.
  Qed.
  Lemma regions_test_spec es : regions_test entity by_2 by_3 alpha_2 isupper es = Pass <->
    forall e c, In e es -> In c (regions e) -> isupper c = true /\ shortest_code by_2 by_3 alpha_2 [2] c.
  Proof.
    unfold regions_test. rewrite all_codes. split; intros H e c He Hc; apply region_ok_spec; eauto.
  Qed.

  Hypothesis two : forall c x, by_2 c = Some x -> alpha_2 x = Some c.
  Hypothesis three : forall c d x, by_3 c = Some x -> by_3 d = Some x -> c = d.
  Lemma one_code es c d x e e' : languages_test entity by_2 by_3 alpha_2 islower es = Pass ->
    In e es -> In e' es -> In c (languages e) -> In d (languages e') -> stands_for by_2 by_3 c x -> stands_for by_2 by_3 d x -> c = d.
  Proof.
    intros H He He' Hc Hd Sc Sd. rewrite languages_test_spec in H.
    destruct (H _ _ He Hc) as (_ & Kc). destruct (H _ _ He' Hd) as (_ & Kd).
    assert (A : forall k, stands_for by_2 by_3 k x -> shortest_code by_2 by_3 alpha_2 [1; 2] k ->
      (by_3 k = Some x /\ alpha_2 x = None) \/ alpha_2 x = Some k).
    { intros k [(L & S)|(L & S)] [(L2 & y & B & C)|(L2 & y & B)].
      - rewrite B in S. injection S as ->. auto.
      - rewrite L in L2. destruct L2 as [L2|[L2|[]]]; discriminate.
      - contradiction.
      - right. auto. }
    destruct (A c Sc Kc) as [(A1 & A2)|A1], (A d Sd Kd) as [(B1 & B2)|B1]; try congruence.
    exact (three _ _ _ A1 B1).
  Qed.
End Codes.
