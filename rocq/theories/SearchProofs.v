From Verif Require Import Base Utf8Model Utf8Spec Utf8Proofs DelimModel DelimSpec DelimProofs KbestModel KbestSpec
  KbestProofs RejoinProofs.

(** ** Rejoining *)
Lemma join_spaced ps : join_blank ps = spaced ps.
Proof.
  induction ps as [|p [|q ps] IH]; auto.
  - simpl. rewrite app_nil_r. reflexivity.
  - change (join_blank (p :: q :: ps)) with (p ++ 32%N :: join_blank (q :: ps)). rewrite IH. reflexivity.
Qed.
Lemma fold_total l : fold_left Z.add l 0%Z = total l.
Proof.
  assert (forall l a, fold_left Z.add l a = (a + total l)%Z) as G.
  { clear. induction l as [|x l IH]; intros a; cbn [fold_left total fold_right]; [lia|]. rewrite IH. unfold total. lia. }
  rewrite G. lia.
Qed.

Lemma path_pick lists : forall p c, lattice_path (map (map snd) lists) p c ->
  exists hs, pick lists p = Fine hs /\ choice lists hs /\ total (map snd hs) = c /\ length p = length lists.
Proof.
  induction lists as [|l lists IH]; intros p c H; simpl in H; inversion H as [|ws j w lat p' c' Hw HP]; subst.
  - exists []. repeat split; constructor.
  - destruct (IH _ _ HP) as (hs & E & C & T & L).
    rewrite nth_error_map in Hw. change (option_map snd (@nth_error hyp l j) = Some w) in Hw.
    destruct (@nth_error hyp l j) as [h|] eqn:N; [|discriminate]. injection Hw as <-.
    exists (h :: hs). cbn [pick]. unfold at_. rewrite N, E. cbn [bind].
    repeat split; auto.
    + constructor; auto. eapply nth_error_In; eauto.
    + cbn [map total fold_right]. unfold total in *. lia.
    + simpl. lia.
Qed.
Lemma choice_path lists hs : choice lists hs ->
  exists p, lattice_path (map (map snd) lists) p (total (map snd hs)) /\ pick lists p = Fine hs.
Proof.
  induction 1 as [|l ls a r I C IH].
  - exists []. repeat split; constructor.
  - destruct IH as (p & HP & E). apply In_nth_error in I. destruct I as (j & N). change (@nth_error hyp l j = Some a) in N. exists (S j :: p). split.
    + cbn [map]. apply (lp_cons (map snd l) j (snd a) (map (map snd) ls) p (total (map snd r))); auto.
      rewrite nth_error_map. change (option_map snd (@nth_error hyp l j) = Some (snd a)). rewrite N. reflexivity.
    + cbn [pick]. unfold at_. rewrite N, E. reflexivity.
Qed.
Lemma lattice_path_cost lat p c d : lattice_path lat p c -> lattice_path lat p d -> c = d.
Proof.
  intros H. revert d. induction H as [|ws l w lat p c N H IH]; intros d Hd; inversion Hd as [|ws' l' w' lat' p' c' N' H']; subst; auto.
  rewrite N in N'. injection N' as <-. f_equal. apply IH; auto.
Qed.
Lemma some_choice {A} (lists : list (list A)) : Forall (fun l => l <> []) lists -> exists hs, choice lists hs.
Proof.
  induction 1 as [|l ls N HF IH]; [exists []; constructor|]. destruct IH as (hs & C).
  destruct l as [|a l]; [contradiction|]. exists (a :: hs). constructor; auto. left; auto.
Qed.

Lemma rejoin_spec search lists k : k_shortest search -> 2 <= length lists ->
  Forall (fun l => l <> []) lists -> 1 <= k ->
  exists out, RejoinList search lists k = Fine out /\ out <> [] /\ length out <= k /\
    (forall h, In h out -> exists hs, choice lists hs /\ h = joined hs) /\
    forall hs, choice lists hs -> In (joined hs) out \/
      (length out = k /\ forall h, In h out -> (snd h <= total (map snd hs))%Z).
Proof.
  intros HS Hl HF Hk. destruct (HS (map (map snd) lists) k) as (ND & HP & HL & HB).
  set (found := search (map (map snd) lists) k) in *.
  assert (exists out, map_run (fun c => qcheck (Nat.eqb (length c) (length lists))
          (bind (pick lists c) (fun hs => Fine (join_blank (map fst hs), fold_left Z.add (map snd hs) 0%Z)))) found = Fine out /\
          Forall2 (fun c h => exists hs, pick lists c = Fine hs /\ choice lists hs /\ h = joined hs) found out) as (out & E & F).
  { clear ND HL HB. clearbody found. induction found as [|c found IH]; [exists []; split; [reflexivity|constructor]|].
    destruct IH as (out & E & F). { intros p I. apply HP. right; auto. }
    destruct (HP c (or_introl eq_refl)) as (cost & P). destruct (path_pick lists c cost P) as (hs & E' & C & T & L).
    exists (joined hs :: out). split.
    - cbn [map_run]. rewrite L, Nat.eqb_refl, E'. cbn [qcheck bind]. rewrite E. cbn [bind]. unfold joined.
      rewrite join_spaced, fold_total. reflexivity.
    - constructor; eauto. }
  assert (found <> []) as Hne.
  { intros E0. destruct (some_choice lists HF) as (hs & C). destruct (choice_path lists hs C) as (p & P & _).
    rewrite E0 in HB. destruct (HB p _ P (fun x => x)) as [E1 _]. simpl in E1. lia. }
  exists out. pose proof (Forall2_len _ _ _ F) as Len. repeat split.
  - unfold RejoinList. destruct lists as [|l1 [|l2 ls]]; simpl in Hl; [lia|lia|].
    fold found. destruct found as [|f0 found']; [contradiction|]. exact E.
  - intros ->. destruct found; [contradiction|discriminate].
  - lia.
  - intros h I. clear - F I. induction F as [|c h' found out (hs & _ & C & E) F IH]; [destruct I|].
    destruct I as [<-|I]; eauto.
  - intros hs C. destruct (choice_path lists hs C) as (p & P & E').
    destruct (in_dec (list_eq_dec Nat.eq_dec) p found) as [I|N].
    + left. clear - F I E'. induction F as [|c h' found out (hs' & Ep & _ & ->) F IH]; [destruct I|].
      destruct I as [->|I]; [left|right; auto]. congruence.
    + right. destruct (HB p _ P N) as [E1 G]. split; [congruence|]. intros h I.
      assert (exists c cost, In c found /\ lattice_path (map (map snd) lists) c cost /\ snd h = cost) as (c & cost & Ic & Pc & <-).
      { clear - F I HP. clearbody found. induction F as [|c h' found out (hs' & Ep & _ & ->) F IH]; [destruct I|].
        destruct I as [<-|I].
        - destruct (HP c (or_introl eq_refl)) as (cost & P). exists c, cost. repeat split; auto; [left; auto|].
          destruct (path_pick lists c cost P) as (hs & E' & _ & T & _). rewrite Ep in E'. injection E' as ->. exact T.
        - destruct IH as (c' & cost & Ic & Pc & Es); auto. { intros p Ip. apply HP. right; auto. }
          exists c', cost. repeat split; auto. right; auto. }
      eapply G; eauto.
Qed.

Lemma min_element (out : list hyp) : out <> [] -> exists h, In h out /\ forall h', In h' out -> (snd h <= snd h')%Z.
Proof.
  induction out as [|a out IH]; [contradiction|]. intros _. destruct out as [|b out].
  - exists a. split; [left; auto|]. intros h' [->|[]]. lia.
  - destruct IH as (h & I & M); [discriminate|]. destruct (Z_le_dec (snd a) (snd h)).
    + exists a. split; [left; auto|]. intros h' [->|I']; [lia|]. specialize (M h' I'). lia.
    + exists h. split; [right; auto|]. intros h' [->|I']; [lia|]. apply M. exact I'.
Qed.
Lemma rejoin_best search lists k out : k_shortest search -> 2 <= length lists ->
  Forall (fun l => l <> []) lists -> 1 <= k -> RejoinList search lists k = Fine out ->
  exists h, In h out /\ forall hs, choice lists hs -> (snd h <= total (map snd hs))%Z.
Proof.
  intros HS Hl HF Hk E. destruct (rejoin_spec search lists k HS Hl HF Hk) as (out' & E' & Hne & _ & _ & G).
  rewrite E in E'. injection E' as <-. destruct (min_element out Hne) as (h & I & M). exists h. split; auto.
  intros hs C. destruct (G hs C) as [I'|[_ H]]; [|auto]. apply (M _ I').
Qed.

(** No search returns anything for k = 0. *)
Lemma rejoin_zero search lists : k_shortest search -> 2 <= length lists -> RejoinList search lists 0 = Check.
Proof.
  intros HS Hl. destruct (HS (map (map snd) lists) 0) as (_ & _ & HL & _). unfold RejoinList.
  destruct lists as [|a [|b l]]; simpl in Hl; [lia|lia|].
  destruct (search (map (map snd) (a :: b :: l)) 0); [reflexivity|simpl in HL; lia].
Qed.

(** ** White space *)
Lemma encoding_app a b x y : encoding a x -> encoding b y -> encoding (a ++ b) (x ++ y).
Proof.
  intros (p & H1 & ->) (q & H2 & ->). exists (p ++ q). split; [apply Forall2_app; auto|]. symmetry. apply concat_app.
Qed.
Lemma encoding_blank : encoding [32%N] [32%N].
Proof.
  exists [[32%N]]. split; auto. constructor; [|constructor]. split; [|reflexivity]. constructor. unfold in_range. lia.
Qed.
Lemma words_facts ws text l : words_of ws text l -> Forall (fun w => w <> [] /\ Forall (fun c => ~ ws c) w) l.
Proof. induction 1; auto. Qed.
Lemma spaced_words l : Forall (fun w => w <> [] /\ Forall (fun c => ~ white_space c) w) l ->
  words_of white_space (spaced l) l.
Proof.
  intros H. destruct H as [|w l [Hw Hn] HF]; [apply words_none; constructor|]. simpl.
  assert (words_of white_space (flat_map (fun q => 32%N :: q) l) l) as G.
  { clear w Hw Hn. induction HF as [|w l [Hw Hn] HF IH]; simpl; [apply words_none; constructor|].
    apply (words_cons white_space [32%N] w); auto.
    - constructor; auto. unfold white_space. auto.
    - destruct l; [left; auto|right]. simpl. eexists _, _. split; [reflexivity|]. unfold white_space. auto. }
  apply (words_cons white_space [] w); auto. destruct l; [left; auto|right]. simpl.
  eexists _, _. split; [reflexivity|]. unfold white_space. auto.
Qed.
Lemma encoding_spaced l ts : Forall2 encoding l ts -> encoding (spaced l) (spaced ts).
Proof.
  intros H. destruct H as [|w t l ts Hw HF]; [exists []; split; [constructor|reflexivity]|]. simpl.
  apply encoding_app; auto. induction HF as [|w' t' l ts Hw' HF IH]; simpl; [exists []; split; [constructor|reflexivity]|].
  apply (encoding_app [32%N] (w' ++ _) [32%N]); [apply encoding_blank|]. apply encoding_app; auto.
Qed.
Lemma normalized s ts : text_words s ts -> norm_ws s = Fine (spaced ts) /\ text_words (spaced ts) ts.
Proof.
  intros H. split.
  - unfold norm_ws. apply tokens_spec in H. rewrite H. cbn [bind]. rewrite join_spaced. reflexivity.
  - destruct H as (cs & l & _ & Hw & HF). exists (spaced l), l. repeat split; auto.
    + apply encoding_spaced; auto.
    + apply spaced_words. eapply words_facts; eauto.
Qed.

(** ** Witnesses *)
Lemma length_ignored : exists hyps a, SimpleAlign 1 hyps = Fine a /\ kept a = hyps /\
  exists h, In h (kept a) /\ GetWordCount (fst h) <> Fine 1.
Proof.
  exists [([97; 32; 98]%N, 0%Z)]. eexists. split; [vm_compute; reflexivity|]. split; [reflexivity|].
  eexists. split; [left; reflexivity|]. vm_compute. discriminate.
Qed.
Lemma nothing_left : exists hyps a, hyps <> [] /\ SimpleAlign 3 hyps = Fine a /\ kept a = [].
Proof.
  exists [([97]%N, 0%Z); ([97; 32; 98]%N, 0%Z)]. eexists. split; [discriminate|].
  split; [vm_compute; reflexivity|reflexivity].
Qed.
Lemma blank_aborts : exists hyps a, SimpleAlign 0 hyps = Fine a /\ kept a <> [] /\ BuildAlign a = Check.
Proof.
  exists [([32]%N, 0%Z)]. eexists. split; [vm_compute; reflexivity|]. split; [discriminate|vm_compute; reflexivity].
Qed.

Definition zero_stod (_ : str) : option Z := Some 0%Z.
Lemma auto_k : exists lines indices lists k, InitializeKbestRejoiner zero_stod lines indices 0 = Fine (lists, k) /\
  k <> longest (concat lists) /\
  forall search, k_shortest search -> GetRejoinedList search (lists, k) 0 = Check.
Proof.
  exists [[120; 9; 97; 9; 48]; [121; 9; 98; 9; 48]]%N, [0; 0]%Z. eexists _, _.
  split; [vm_compute; reflexivity|]. split; [vm_compute; discriminate|].
  intros search H. unfold GetRejoinedList. cbn [fst snd length Nat.ltb Nat.leb at_ nth_error bind].
  rewrite rejoin_zero; auto.
Qed.
Lemma limit_ignored : exists lists out, forall search, RejoinList search lists 1 = Fine out /\ 1 < length out.
Proof. exists [[([97]%N, 0%Z); ([98]%N, 1%Z)]]. eexists. intros search. split; [reflexivity|]. simpl. lia. Qed.
Lemma repeated_input : exists lines es segs indices lists k,
  Forall2 (entry_of zero_stod) lines es /\ spread segs = es /\ Forall (fun s => snd s <> []) segs /\
  length segs = length indices /\
  InitializeKbestRejoiner zero_stod lines indices 1 = Fine (lists, k) /\ ~ grouped indices segs lists.
Proof.
  exists [[120; 9; 97; 9; 48]; [120; 9; 98; 9; 48]]%N, [([120]%N, ([97]%N, 0%Z)); ([120]%N, ([98]%N, 0%Z))],
    [([120]%N, [([97]%N, 0%Z)]); ([120]%N, [([98]%N, 0%Z)])], [0; 0]%Z.
  eexists _, _. split.
  { constructor; [|constructor; [|constructor]]; exists [48]%N; (split; [apply fields_spec|]; reflexivity). }
  split; [reflexivity|]. split; [repeat constructor; discriminate|]. split; [reflexivity|].
  split; [vm_compute; reflexivity|]. intros (H & _). vm_compute in H. discriminate.
Qed.
Lemma negative_index : exists lines indices lists k,
  InitializeKbestRejoiner zero_stod lines indices 1 = Fine (lists, k) /\
  ~ exists es segs, Forall2 (entry_of zero_stod) lines es /\ runs es segs /\ grouped indices segs lists.
Proof.
  exists [[120; 9; 97; 9; 48]]%N, [-1; 0]%Z. eexists _, _. split; [vm_compute; reflexivity|].
  intros (es & segs & _ & _ & (H & _ & _)). destruct segs as [|a [|b segs]]; vm_compute in H; discriminate.
Qed.
