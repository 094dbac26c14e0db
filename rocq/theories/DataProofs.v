(** Proofs for C14-C16. *)
From Verif Require Import Base RuleModel DataModel DataSpec.

Lemma is_empty_spec {A} (l : list A) : is_empty l = true <-> l = [].
Proof. destruct l; simpl; split; intros; auto; discriminate. Qed.

Lemma is_empty_false {A} (l : list A) : is_empty l = false <-> l <> [].
Proof. destruct l; simpl; split; intros; auto; try discriminate. congruence. Qed.

Lemma bind_ok {A B} (r : out A) (k : A -> out B) b : bind r k = Ok b <-> exists a, r = Ok a /\ k a = Ok b.
Proof.
  destruct r; simpl; split; intros H; try discriminate; eauto;
    destruct H as (x & E & Hk); try discriminate; injection E as <-; exact Hk.
Qed.

(** ** One hit *)
Lemma flat_map_one {A B} (h : A -> list B) l x : (forall p, length (h p) <= 1) ->
  flat_map h l = [x] <->
  exists a p b, l = a ++ p :: b /\ h p = [x] /\ forall q, In q a \/ In q b -> h q = [].
Proof.
  intros H1. induction l as [|q l IH]; simpl.
  - split; [discriminate|]. intros ([|? a] & p & b & E & _); discriminate.
  - pose proof (H1 q) as Hq. destruct (h q) as [|y [|? ?]] eqn:E; simpl in Hq; [| |lia]; simpl.
    + rewrite IH. split.
      * intros (a & p & b & -> & Hp & Hr). exists (q :: a), p, b. split; [reflexivity|]. split; auto.
        intros r [[->|Hr']|Hr']; auto.
      * intros ([|q' a] & p & b & El & Hp & Hr); simpl in El; injection El as -> ->.
        -- congruence.
        -- exists a, p, b. split; [reflexivity|]. split; auto. intros r [?|?]; apply Hr; simpl; auto.
    + split.
      * intros Ex. injection Ex as -> Er. exists [], q, l. split; [reflexivity|]. split; auto.
        intros r [[]|Hr]. clear - Hr Er. induction l as [|z l IH]; [contradiction|].
        simpl in Er. apply app_eq_nil in Er as [E1 E2]. destruct Hr as [->|Hr]; auto.
      * intros ([|q' a] & p & b & El & Hp & Hr); simpl in El; injection El as -> ->.
        -- rewrite E in Hp. injection Hp as ->. f_equal.
           assert (forall r, In r b -> h r = []) as Hb by auto. clear - Hb.
           induction b as [|z b IH]; [reflexivity|]. simpl. rewrite Hb by (left; reflexivity). simpl.
           apply IH. intros r Hr. apply Hb. right. exact Hr.
        -- exfalso. rewrite Hr in E by (left; left; reflexivity). discriminate.
Qed.

Section Names.
  Variable lookup : str -> option str.
  Variable is_cc has_name : N -> bool.

  (** The spelling is not the name of a sequence of characters. *)
  Definition no_sequence (suffix : str) (prefixes : list str) : Prop :=
    forall p ch, In p prefixes -> lookup (spelling suffix p) = Some ch -> exists c, ch = [c].

  Definition hits (suffix p : str) : list (str * str) :=
    match lookup (spelling suffix p) with
    | Some [c] => if is_cc c then [] else [([c], spelling suffix p)]
    | _ => []
    end.

  Definition all_hits (suffix : str) (prefixes : list str) : list (str * str) :=
    flat_map (hits suffix) (prefixes ++ [[]]).

  Lemma hits_one suffix p : length (hits suffix p) <= 1.
  Proof.
    unfold hits. destruct (lookup (spelling suffix p)) as [[|c [|? ?]]|]; simpl; try lia.
    destruct (is_cc c); simpl; lia.
  Qed.

  Lemma hits_spec suffix p x : hits suffix p = [x] <->
    exists c, names_char lookup is_cc (spelling suffix p) c /\ x = ([c], spelling suffix p).
  Proof.
    unfold hits, names_char. destruct (lookup (spelling suffix p)) as [[|c [|? ?]]|].
    - split; [discriminate|]. intros (c & [H _] & _). discriminate.
    - destruct (is_cc c) eqn:E; split.
      + discriminate.
      + intros (d & [H H'] & _). congruence.
      + intros H. injection H as <-. exists c. auto.
      + intros (d & [H H'] & ->). injection H as ->. reflexivity.
    - split; [discriminate|]. intros (d & [H _] & _). discriminate.
    - split; [discriminate|]. intros (d & [H _] & _). discriminate.
  Qed.

  Lemma hits_nil suffix p : hits suffix p = [] <-> ~ exists c, names_char lookup is_cc (spelling suffix p) c.
  Proof.
    split.
    - intros H (c & Hc). assert (hits suffix p = [([c], spelling suffix p)]) as E.
      { apply hits_spec. exists c. auto. }
      congruence.
    - intros H. pose proof (hits_one suffix p) as L. destruct (hits suffix p) as [|x [|? ?]] eqn:E; auto.
      + exfalso. apply hits_spec in E as (c & Hc & _). eauto.
      + simpl in L. lia.
  Qed.

  Lemma collect_ok suffix ps acc : no_sequence suffix ps ->
    collect lookup is_cc suffix ps acc = Ok (acc ++ flat_map (hits suffix) ps).
  Proof.
    revert acc; induction ps as [|p ps IH]; intros acc H; simpl.
    - rewrite app_nil_r. reflexivity.
    - assert (no_sequence suffix ps) as Hps by (intros q ch Hq; apply H; right; exact Hq).
      unfold hits at 1. destruct (lookup (spelling suffix p)) as [ch|] eqn:E.
      + destruct (H p ch (or_introl eq_refl) E) as (c & ->). simpl. rewrite IH by exact Hps.
        destruct (is_cc c); simpl; [reflexivity|]. rewrite <- app_assoc. reflexivity.
      + apply IH. exact Hps.
  Qed.

  Lemma collect_seq suffix ps acc p ch : In p ps -> lookup (spelling suffix p) = Some ch ->
    (forall c, ch <> [c]) -> collect lookup is_cc suffix ps acc = TypeError.
  Proof.
    revert acc; induction ps as [|q ps IH]; intros acc Hp Hl Hch; [contradiction|].
    simpl. destruct Hp as [->|Hp].
    - rewrite Hl. destruct ch as [|c [|? ?]]; simpl; auto. exfalso. apply (Hch c). reflexivity.
    - destruct (lookup (spelling suffix q)) as [ch'|]; [|apply IH; auto].
      destruct ch' as [|c [|? ?]]; simpl; auto.
  Qed.

  Lemma sequence_dec suffix ps : no_sequence suffix ps \/
    exists p ch, In p ps /\ lookup (spelling suffix p) = Some ch /\ forall c, ch <> [c].
  Proof.
    induction ps as [|p ps IH].
    - left. intros ? ? [].
    - destruct (lookup (spelling suffix p)) as [ch|] eqn:E.
      + destruct ch as [|c [|d ch]].
        * right. exists p, []. repeat split; auto; [left; reflexivity|discriminate].
        * destruct IH as [IH|(q & ch & Hq & H1 & H2)].
          -- left. intros q ch [<-|Hq] H; [rewrite E in H; injection H as <-; eauto|eapply IH; eauto].
          -- right. exists q, ch. repeat split; auto. right; exact Hq.
        * right. exists p, (c :: d :: ch). repeat split; auto; [left; reflexivity|discriminate].
      + destruct IH as [IH|(q & ch & Hq & H1 & H2)].
        * left. intros q ch [<-|Hq] H; [congruence|eapply IH; eauto].
        * right. exists q, ch. repeat split; auto. right; exact Hq.
  Qed.

  Lemma name_to_char_hits prefixes suffix : no_sequence suffix (prefixes ++ [[]]) ->
    name_to_char lookup is_cc prefixes suffix =
    match all_hits suffix prefixes with [x] => Ok x | _ => ValueError end.
  Proof. intros H. unfold name_to_char. rewrite collect_ok by exact H. reflexivity. Qed.

  Definition unambiguous (prefixes : list str) (suffix : str) (c : N) (full : str) : Prop :=
    exists p, full = spelling suffix p /\ names_char lookup is_cc full c /\
      only (fun q => exists d, names_char lookup is_cc (spelling suffix q) d) (prefixes ++ [[]]) p.

  Lemma name_to_char_ok prefixes suffix c full : no_sequence suffix (prefixes ++ [[]]) ->
    name_to_char lookup is_cc prefixes suffix = Ok ([c], full) <-> unambiguous prefixes suffix c full.
  Proof.
    intros H. rewrite name_to_char_hits by exact H.
    assert (all_hits suffix prefixes = [([c], full)] <-> unambiguous prefixes suffix c full) as E.
    { unfold all_hits. rewrite flat_map_one by apply hits_one. unfold unambiguous, only. split.
      - intros (a & p & b & El & Hp & Hr). apply hits_spec in Hp as (c' & Hc & Ex).
        injection Ex as -> ->. exists p. split; auto. split; auto. exists a, b. split; auto.
        split; [eauto|]. intros q Hq. apply hits_nil. auto.
      - intros (p & -> & Hc & a & b & El & Hp & Hr). exists a, p, b. split; auto. split.
        + apply hits_spec. eauto.
        + intros q Hq. apply hits_nil. auto. }
    rewrite <- E. destruct (all_hits suffix prefixes) as [|x [|y l]].
    - split; discriminate.
    - split; intros Hx; injection Hx as ->; reflexivity.
    - split; discriminate.
  Qed.

  Lemma name_to_char_cases prefixes suffix :
    match name_to_char lookup is_cc prefixes suffix with
    | Ok (ch, full) => exists c, ch = [c] /\ unambiguous prefixes suffix c full
    | ValueError => no_sequence suffix (prefixes ++ [[]]) /\ forall c full, ~ unambiguous prefixes suffix c full
    | TypeError => ~ no_sequence suffix (prefixes ++ [[]])
    | Other => False
    end.
  Proof.
    destruct (sequence_dec suffix (prefixes ++ [[]])) as [H|(p & ch & Hp & H1 & H2)].
    - pose proof (name_to_char_hits prefixes suffix H) as E.
      destruct (all_hits suffix prefixes) as [|[ch full] [|y l]] eqn:F.
      + rewrite E. cbv iota beta.  split; auto. intros c full Hu. apply name_to_char_ok in Hu; auto. congruence.
      + rewrite E. cbv iota beta. assert (In (ch, full) (all_hits suffix prefixes)) as Hin
          by (rewrite F; left; reflexivity).
        unfold all_hits in Hin. apply in_flat_map in Hin as (q & _ & Hq). unfold hits in Hq.
        destruct (lookup (spelling suffix q)) as [[|c [|? ?]]|]; try contradiction.
        destruct (is_cc c); [contradiction|]. destruct Hq as [Hq|[]]. injection Hq as <- <-.
        exists c. split; auto. apply name_to_char_ok; auto.
      + rewrite E. cbv iota beta. split; auto. intros c f Hu. apply name_to_char_ok in Hu; auto. congruence.
    - unfold name_to_char. rewrite (collect_seq suffix _ [] p ch Hp H1 H2). simpl.
      intros Hno. destruct (Hno p ch Hp H1) as (c & ->). apply (H2 c). reflexivity.
  Qed.

  Lemma no_sequence_perm suffix l l' : Permutation l l' -> no_sequence suffix l -> no_sequence suffix l'.
  Proof. intros P H p ch Hp. apply H. eapply Permutation_in; [symmetry; exact P|exact Hp]. Qed.

  Lemma name_to_char_perm l l' suffix : Permutation l l' ->
    name_to_char lookup is_cc l suffix = name_to_char lookup is_cc l' suffix.
  Proof.
    intros P. assert (Permutation (l ++ [[]]) (l' ++ [[]])) as P' by (apply Permutation_app_tail; exact P).
    destruct (sequence_dec suffix (l ++ [[]])) as [H|(p & ch & Hp & H1 & H2)].
    - rewrite !name_to_char_hits by (auto; eapply no_sequence_perm; eauto).
      pose proof (Permutation_flat_map (hits suffix) P' : Permutation (all_hits suffix l) (all_hits suffix l')) as Q.
      destruct (all_hits suffix l) as [|x [|y m]].
      + apply Permutation_nil in Q. rewrite Q. reflexivity.
      + apply Permutation_length_1_inv in Q. rewrite Q. reflexivity.
      + apply Permutation_length in Q. destruct (all_hits suffix l') as [|? [|? ?]];
          simpl in Q; try lia. reflexivity.
    - unfold name_to_char. rewrite (collect_seq suffix _ [] p ch Hp H1 H2).
      rewrite (collect_seq suffix (l' ++ [[]]) [] p ch); auto. eapply Permutation_in; eauto.
  Qed.

  Lemma name_chars_perm l l' names : Permutation l l' ->
    name_chars lookup is_cc l names = name_chars lookup is_cc l' names.
  Proof.
    intros P. induction names as [|n names IH]; simpl; auto.
    rewrite (name_to_char_perm l l' n P), IH. reflexivity.
  Qed.

  Lemma entries_perm l l' names rw : Permutation l l' ->
    proto_entries_to_string lookup is_cc has_name l names rw =
    proto_entries_to_string lookup is_cc has_name l' names rw.
  Proof.
    intros P. unfold proto_entries_to_string, names_to_string.
    rewrite (name_chars_perm l l' names P). reflexivity.
  Qed.

  (** A way to list a set. *)
  Definition enumerates (f : list str -> list str) : Prop :=
    forall l, NoDup (f l) /\ forall x, In x (f l) <-> In x l.

  Lemma enumerations_agree f g l : enumerates f -> enumerates g -> Permutation (f l) (g l).
  Proof.
    intros F G. destruct (F l) as [F1 F2], (G l) as [G1 G2]. apply NoDup_Permutation; auto.
    intros x. rewrite F2, G2. reflexivity.
  Qed.

  Lemma convert_order f g l l' it : enumerates f -> enumerates g ->
    convert_item lookup is_cc has_name f l l' it = convert_item lookup is_cc has_name g l l' it.
  Proof.
    intros F G. pose proof (enumerations_agree f g l F G) as P.
    pose proof (enumerations_agree f g l' F G) as P'.
    unfold convert_item. destruct (is_empty (uname it) && is_empty (raw it)); auto.
    rewrite (entries_perm (f l) (g l) _ _ P). destruct (proto_entries_to_string _ _ _ (g l) _ _); simpl; auto.
    destruct (is_empty (to_uname it) && is_empty (to_raw it)); auto.
    assert (Permutation (if is_empty (f l') then f l else f l') (if is_empty (g l') then g l else g l')) as Q.
    { destruct (f l') as [|x m] eqn:E.
      - apply Permutation_nil in P'. rewrite P'. exact P.
      - destruct (g l') as [|y m'] eqn:E'; [|exact P'].
        symmetry in P'. apply Permutation_nil in P'. discriminate. }
    rewrite (entries_perm _ _ _ _ Q). reflexivity.
  Qed.

  (** ** Names spelled out *)
  Definition spells_names (prefixes names : list str) (s : str) : Prop :=
    Forall2 (fun n c => exists full, unambiguous prefixes n c full) names s.

  Lemma name_chars_ok prefixes names l :
    name_chars lookup is_cc prefixes names = Ok l <->
    (forall n, In n names -> no_sequence n (prefixes ++ [[]])) /\
    spells_names prefixes names (concat l) /\ length l = length names /\ Forall (fun x => length x = 1) l.
  Proof.
    revert l; induction names as [|n names IH]; intros l; simpl.
    - split.
      + intros H. injection H as <-. split; [intros ? []|]. split; [constructor|]. split; [reflexivity|constructor].
      + intros (_ & _ & L & _). destruct l; [reflexivity|discriminate].
    - rewrite bind_ok. split.
      + intros ([ch full] & H1 & H2). apply bind_ok in H2 as (l' & H2 & H3). injection H3 as <-.
        pose proof (name_to_char_cases prefixes n) as C. rewrite H1 in C. destruct C as (c & -> & Hu).
        apply IH in H2 as (A & B & L & F). simpl. repeat split.
        * intros m [<-|Hm]; [|auto]. destruct (sequence_dec n (prefixes ++ [[]])) as [D|(p & ch & Hp & D1 & D2)]; auto.
          exfalso. unfold name_to_char in H1. rewrite (collect_seq n _ [] p ch Hp D1 D2) in H1. discriminate.
        * constructor; [eauto|exact B].
        * lia.
        * constructor; auto.
      + intros (A & B & L & F). destruct l as [|ch l]; [discriminate|]. simpl in *.
        inversion F as [|? ? F1 F2]; subst. destruct ch as [|c [|? ?]]; try discriminate.
        simpl in B. inversion B as [|? ? ? ? (full & Hu) B']; subst.
        exists ([c], full). split; [apply name_to_char_ok; auto|].
        apply bind_ok. exists l. split; [|reflexivity]. apply IH. auto.
  Qed.

  Lemma names_to_string_ok prefixes names s :
    names_to_string lookup is_cc prefixes names = Ok s <->
    names <> [] /\ (forall n, In n names -> no_sequence n (prefixes ++ [[]])) /\
    spells_names prefixes names s.
  Proof.
    unfold names_to_string. rewrite bind_ok. split.
    - intros (l & H1 & H2). apply name_chars_ok in H1 as (A & B & L & F).
      destruct l as [|x l]; [discriminate|]. injection H2 as <-.
      split; [destruct names; discriminate|]. auto.
    - intros (H0 & A & B). exists (map (fun c => [c]) s).
      assert (concat (map (fun c : N => [c]) s) = s) as E.
      { clear. induction s as [|c s IH]; simpl; congruence. }
      split.
      + apply name_chars_ok. rewrite E, map_length. repeat split; auto.
        * clear - B. induction B; simpl; auto.
        * clear. induction s; simpl; constructor; auto.
      + destruct B as [|n c names s Hn B]; [contradiction|].
        change (Ok (concat (map (fun c0 => [c0]) (c :: s))) = @Ok str (c :: s)). rewrite E. reflexivity.
  Qed.

  (** ** C15 *)
  Lemma entries_both prefixes names rw s : rw <> [] -> names <> [] ->
    proto_entries_to_string lookup is_cc has_name prefixes names rw = Ok s <->
    s = rw /\ forallb has_name rw = true /\ names_to_string lookup is_cc prefixes names = Ok rw.
  Proof.
    intros H1 H2. unfold proto_entries_to_string.
    destruct rw as [|c rw]; [contradiction|]. destruct names as [|n names]; [contradiction|].
    cbn [is_empty negb andb]. destruct (forallb has_name (c :: rw)) eqn:E; cbn [negb].
    - rewrite bind_ok. split.
      + intros (u & Hu & H). destruct (str_eqb u (c :: rw)) eqn:Eu; [|discriminate].
        apply str_eqb_eq in Eu. simpl in H. injection H as <-. subst u. auto.
      + intros (-> & _ & Hu). exists (c :: rw). split; auto. rewrite str_eqb_refl. reflexivity.
    - split; [discriminate|]. intros (_ & F & _). congruence.
  Qed.

  Lemma entries_raw_only prefixes rw : rw <> [] ->
    proto_entries_to_string lookup is_cc has_name prefixes [] rw = Ok rw.
  Proof. destruct rw; [contradiction|]. reflexivity. Qed.

  Lemma entries_names_only prefixes names :
    proto_entries_to_string lookup is_cc has_name prefixes names [] = names_to_string lookup is_cc prefixes names.
  Proof.
    unfold proto_entries_to_string. simpl. destruct (names_to_string lookup is_cc prefixes names); reflexivity.
  Qed.

  Definition denoted (prefixes names : list str) (rw s : str) : Prop :=
    (rw <> [] \/ names <> []) /\ (rw <> [] -> s = rw) /\
    (names <> [] -> names_to_string lookup is_cc prefixes names = Ok s).

  Lemma entries_denoted prefixes names rw s :
    proto_entries_to_string lookup is_cc has_name prefixes names rw = Ok s -> denoted prefixes names rw s.
  Proof.
    intros H. unfold denoted. destruct rw as [|c rw].
    - rewrite entries_names_only in H. destruct names as [|n names]; [discriminate|].
      repeat split; auto; try contradiction. right; discriminate.
    - destruct names as [|n names].
      + rewrite entries_raw_only in H by discriminate. injection H as <-.
        repeat split; auto; try contradiction. left; discriminate.
      + apply entries_both in H as (-> & _ & H); try discriminate.
        repeat split; auto. left; discriminate.
  Qed.

  Lemma denoted_nonempty prefixes names rw s : denoted prefixes names rw s -> s <> [].
  Proof.
    intros ([H|H] & H1 & H2).
    - rewrite H1; auto.
    - specialize (H2 H). apply names_to_string_ok in H2 as (_ & _ & H2).
      destruct H2; [contradiction|discriminate].
  Qed.

  Lemma convert_ok f l l' it s d :
    convert_item lookup is_cc has_name f l l' it = Ok (s, d) ->
    denoted (f l) (uname it) (raw it) s /\
    (d = None <-> to_uname it = [] /\ to_raw it = []) /\
    (forall t, d = Some t -> denoted (if is_empty (f l') then f l else f l') (to_uname it) (to_raw it) t).
  Proof.
    intros H. unfold convert_item in H.
    destruct (is_empty (uname it) && is_empty (raw it)); [discriminate|].
    apply bind_ok in H as (src & H1 & H2). apply entries_denoted in H1.
    destruct (is_empty (to_uname it) && is_empty (to_raw it)) eqn:E.
    - injection H2 as <- <-. split; [exact H1|]. split; [|discriminate].
      apply andb_true_iff in E as [E1 E2]. apply is_empty_spec in E1, E2. split; auto.
    - apply bind_ok in H2 as (dst & H2 & H3). injection H3 as <- <-. split; [exact H1|]. split.
      + split; [discriminate|]. intros [E1 E2]. rewrite E1, E2 in E. discriminate.
      + intros t Ht. injection Ht as <-. apply entries_denoted in H2. exact H2.
  Qed.
End Names.

(** ** Statements in elementary terms *)
Lemma name_resolution lookup is_cc prefixes suffix :
  match name_to_char lookup is_cc prefixes suffix with
  | Ok (ch, full) => exists c, ch = [c] /\ exists p,
      full = spelling suffix p /\ names_char lookup is_cc full c /\
      only (fun q => exists d, names_char lookup is_cc (spelling suffix q) d) (prefixes ++ [[]]) p
  | ValueError =>
      (forall p ch, In p (prefixes ++ [[]]) -> lookup (spelling suffix p) = Some ch -> exists c, ch = [c]) /\
      forall p, ~ only (fun q => exists d, names_char lookup is_cc (spelling suffix q) d) (prefixes ++ [[]]) p
  | TypeError => ~ forall p ch, In p (prefixes ++ [[]]) -> lookup (spelling suffix p) = Some ch -> exists c, ch = [c]
  | Other => False
  end.
Proof.
  pose proof (name_to_char_cases lookup is_cc prefixes suffix) as H.
  destruct (name_to_char lookup is_cc prefixes suffix) as [[ch full]| | |].
  - exact H.
  - destruct H as [H1 H2]. split; [exact H1|]. intros p Hp.
    assert (exists c, names_char lookup is_cc (spelling suffix p) c) as (c & Hc).
    { destruct Hp as (a & b & _ & Hp & _). exact Hp. }
    apply (H2 c (spelling suffix p)). exists p. auto.
  - exact H.
  - exact H.
Qed.

Lemma unique_name_resolves lookup is_cc prefixes suffix c p :
  (forall q ch, In q (prefixes ++ [[]]) -> lookup (spelling suffix q) = Some ch -> exists d, ch = [d]) ->
  only (fun q => exists d, names_char lookup is_cc (spelling suffix q) d) (prefixes ++ [[]]) p ->
  names_char lookup is_cc (spelling suffix p) c ->
  name_to_char lookup is_cc prefixes suffix = Ok ([c], spelling suffix p).
Proof. intros H1 H2 H3. apply name_to_char_ok; [exact H1|]. exists p. auto. Qed.

Lemma spelling_text suffix prefix :
  (forall c s, prefix = c :: s -> py_space c = false) -> (forall c s, suffix = c :: s -> py_space c = false) ->
  spelling suffix [] = suffix /\ (prefix <> [] -> spelling suffix prefix = prefix ++ 32%N :: suffix).
Proof.
  intros H1 H2. split.
  - unfold spelling. simpl. destruct suffix as [|c s]; [reflexivity|]. simpl. rewrite (H2 c s eq_refl). reflexivity.
  - intros Hp. unfold spelling. destruct prefix as [|c s]; [contradiction|]. simpl.
    rewrite (H1 c s eq_refl). reflexivity.
Qed.

Lemma same_character_twice : exists lookup is_cc prefixes suffix c,
  (forall p, In p (prefixes ++ [[]]) -> names_char lookup is_cc (spelling suffix p) c) /\
  name_to_char lookup is_cc prefixes suffix = ValueError.
Proof.
  exists (fun _ => Some [1%N]), (fun _ => false), [[]], [65%N], 1%N. split.
  - intros p _. split; reflexivity.
  - reflexivity.
Qed.

Lemma sequence_names : exists lookup is_cc prefixes suffix ch,
  lookup suffix = Some ch /\ length ch = 2 /\ spelling suffix [] = suffix /\
  name_to_char lookup is_cc prefixes suffix = TypeError.
Proof.
  exists (fun n => if str_eqb n [65%N] then Some [2985; 3016]%N else None), (fun _ => false), [], [65%N], [2985; 3016]%N.
  vm_compute. auto.
Qed.

Lemma names_denote lookup is_cc prefixes names s :
  names_to_string lookup is_cc prefixes names = Ok s <->
  names <> [] /\
  (forall n, In n names -> forall p ch, In p (prefixes ++ [[]]) -> lookup (spelling n p) = Some ch -> exists c, ch = [c]) /\
  Forall2 (fun n c => exists full p, full = spelling n p /\ names_char lookup is_cc full c /\
    only (fun q => exists d, names_char lookup is_cc (spelling n q) d) (prefixes ++ [[]]) p) names s.
Proof. apply names_to_string_ok. Qed.

Lemma nothing_given lookup is_cc has_name f l l' it : uname it = [] -> raw it = [] ->
  convert_item lookup is_cc has_name f l l' it = ValueError.
Proof. intros H1 H2. unfold convert_item. rewrite H1, H2. reflexivity. Qed.

Lemma convert_item_facts lookup is_cc has_name f l l' it s d :
  convert_item lookup is_cc has_name f l l' it = Ok (s, d) ->
  s <> [] /\ (raw it <> [] -> s = raw it) /\
  (uname it <> [] -> names_to_string lookup is_cc (f l) (uname it) = Ok s) /\
  (d = None <-> to_uname it = [] /\ to_raw it = []) /\
  (forall t, d = Some t -> t <> [] /\ (to_raw it <> [] -> t = to_raw it) /\
     (to_uname it <> [] ->
      names_to_string lookup is_cc (match f l' with [] => f l | _ => f l' end) (to_uname it) = Ok t)).
Proof.
  intros H. apply convert_ok in H as (H1 & H2 & H3).
  pose proof (denoted_nonempty _ _ _ _ _ _ H1) as N1. destruct H1 as (_ & H1 & H1').
  repeat split; auto.
  - apply H2; auto.
  - apply H2; auto.
  - intros [? ?]. apply H2. auto.
  - apply H3 in H. apply (denoted_nonempty _ _ _ _ _ _ H).
  - apply H3 in H. apply H.
  - intros Hn. apply H3 in H as (_ & _ & H). rewrite <- (H Hn). destruct (f l'); reflexivity.
Qed.
