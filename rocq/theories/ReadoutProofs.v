(** Proofs about reading strings out of lattices. *)
From Coq Require Import List NArith ZArith Bool Lia Sorting.Sorted.
From Verif Require Import PathModel PathSpec PathProofs ReadoutModel ReadoutSpec.
Import ListNotations.

Section Proofs.

Variable W : Type.
Variable wone wzero : W.
Variable wtimes : W -> W -> W.
Variable weqb : W -> W -> bool.

Notation acc := (accepted wzero weqb).
Notation rds := (reads wone wzero wtimes weqb).
Notation outp := (outputs wone wzero wtimes weqb).

Lemma leads_fun (m : fst_t W) p l t l' t' :
  leads m p l t -> leads m p l' t' -> l = l' /\ t = t'.
Proof.
  intros (s & E & F) (s' & E' & F'). rewrite E in E'. injection E' as <-.
  rewrite F in F'. injection F' as <- <-. split; reflexivity.
Qed.

Lemma accepted_reads (m : fst_t W) p : acc m p -> exists r, rds m p r.
Proof.
  intros (l & t & H & _). eexists. exists l, t. split; [exact H|reflexivity].
Qed.

Lemma reads_fun (m : fst_t W) p r r' : rds m p r -> rds m p r' -> r = r'.
Proof.
  intros (l & t & H & ->) (l' & t' & H' & ->).
  destruct (leads_fun m p l t l' t' H H') as [<- <-]. reflexivity.
Qed.

Lemma collect_cases n fuel (m : fst_t W) it out it' :
  collect wone wzero wtimes weqb n fuel m it = Ok (out, it') ->
  match out with
  | [] => done it = true
  | o :: out' =>
    done it = false /\ o = observe wone wtimes it /\
    exists it1 n1, next wzero weqb fuel m it = Ok it1 /\
      collect wone wzero wtimes weqb n1 fuel m it1 = Ok (out', it')
  end.
Proof.
  destruct n as [|n]; cbn [collect]; destruct (done it) eqn:Ed; intros H.
  - injection H as <- <-. reflexivity.
  - discriminate.
  - injection H as <- <-. reflexivity.
  - destruct (next wzero weqb fuel m it) as [it1| |] eqn:En; try discriminate.
    cbn [bind] in H.
    destruct (collect wone wzero wtimes weqb n fuel m it1) as [[o1 i1]| |] eqn:Ec;
      try discriminate.
    cbn [bind fst snd] in H. injection H as <- <-.
    split; [reflexivity|]. split; [reflexivity|].
    exists it1, n. split; [reflexivity|exact Ec].
Qed.

(** * All strings *)

Lemma all_strings (m : fst_t W) :
  acyclic m -> acyclic_property m = true -> connected wzero weqb m ->
  exists ps outs bound,
    StronglySorted before ps /\
    (forall p, In p ps <-> acc m p) /\
    Forall2 (rds m) ps outs /\
    forall n fuel, bound <= n -> bound <= fuel ->
      lattice_to_labels wone wzero wtimes weqb n fuel m
      = Ok (true, map second outs) /\
      lattice_to_strings wone wzero wtimes weqb n fuel m
      = Ok (true, map (fun o => bytes (second o)) outs) /\
      lattice_to_weighted_strings wone wzero wtimes weqb n fuel m
      = Ok (true, map (fun o => (bytes (second o), third o)) outs) /\
      lattice_to_strings_repeated wone wzero wtimes weqb n fuel m
      = Ok (match outs with [] => false | _ => true end,
            map (fun o => bytes (second o)) outs).
Proof.
  intros Ha Hp Hc.
  destruct (connected_paths W wone wzero wtimes weqb m Ha Hc)
    as (ps & bound & Hs & Hin & H).
  destruct (H bound bound false) as (it0 & outs & it0' & E0 & C0 & F0);
    [lia|lia|discriminate|].
  exists ps, outs, bound. split; [exact Hs|]. split; [exact Hin|].
  split; [exact F0|]. intros n fuel Hn Hf.
  assert (Huniq : forall out, Forall2 (rds m) ps out -> out = outs).
  { clear - F0. revert outs F0.
    induction ps as [|p ps IH]; intros outs F0 out F1.
    - inversion F0; inversion F1; reflexivity.
    - inversion F0; inversion F1; subst. f_equal.
      + eapply reads_fun; eassumption.
      + apply IH; assumption. }
  destruct (H n fuel false Hn Hf) as (it & out & it' & E & C & F);
    [discriminate|].
  destruct (H n fuel true Hn Hf) as (it1 & out1 & it1' & E1 & C1 & F1);
    [intros _; exact Hp|].
  apply Huniq in F. apply Huniq in F1. subst out out1.
  unfold lattice_to_labels, lattice_to_strings, lattice_to_weighted_strings,
    lattice_to_strings_repeated.
  rewrite Hp, E, E1. cbn [negb bind orb].
  rewrite C, C1. cbn [bind fst].
  split; [reflexivity|]. split; [reflexivity|]. split; [reflexivity|].
  pose proof (collect_cases _ _ _ _ _ _ C) as K. destruct outs as [|o outs].
  - rewrite K. reflexivity.
  - destruct K as (-> & _). reflexivity.
Qed.

Lemma follow_olabels (m : fst_t W) : deterministic m ->
  forall p p' s l l' t t',
  follow m s p = Some (l, t) -> follow m s p' = Some (l', t') ->
  map olabel l = map olabel l' -> p = p'.
Proof.
  intros Hd. induction p as [|j p IH]; intros p' s l l' t t' E E' Hm.
  - injection E as <- <-. destruct p' as [|j' p']; [reflexivity|].
    cbn [follow] in E'. destruct (nth_error (arcs m s) j') as [a|]; [|discriminate].
    destruct (follow m (nextstate a) p') as [[l1 t1]|]; [|discriminate].
    injection E' as <- <-. discriminate.
  - cbn [follow] in E. destruct (nth_error (arcs m s) j) as [a|] eqn:Ea; [|discriminate].
    destruct (follow m (nextstate a) p) as [[l1 t1]|] eqn:E1; [|discriminate].
    injection E as <- <-.
    destruct p' as [|j' p'].
    { injection E' as <- <-. discriminate. }
    cbn [follow] in E'. destruct (nth_error (arcs m s) j') as [a'|] eqn:Ea'; [|discriminate].
    destruct (follow m (nextstate a') p') as [[l2 t2]|] eqn:E2; [|discriminate].
    injection E' as <- <-. cbn [map] in Hm. injection Hm as Ho Hm.
    assert (j = j').
    { pose proof (Hd s) as Hn. rewrite NoDup_nth_error in Hn. apply Hn.
      - rewrite map_length. apply nth_error_Some. congruence.
      - rewrite !nth_error_map, Ea, Ea'. simpl. congruence. }
    subst j'. rewrite Ea in Ea'. injection Ea' as <-.
    f_equal. eapply IH; eassumption.
Qed.

Lemma reads_second (m : fst_t W) p l t r :
  rds m p r -> leads m p l t -> second r = map olabel l.
Proof.
  intros (l' & t' & H' & ->) H.
  destruct (leads_fun m p l' t' l t H' H) as [-> _]. reflexivity.
Qed.

Lemma same_output (m : fst_t W) p p' r r' :
  deterministic m -> rds m p r -> rds m p' r' -> second r = second r' -> p = p'.
Proof.
  intros Hd (l & t & (s & Es & El) & ->) (l' & t' & (s' & Es' & El') & ->) H.
  rewrite Es in Es'. injection Es' as <-.
  eapply follow_olabels; eassumption.
Qed.

Lemma different_strings (m : fst_t W) ps outs :
  deterministic m -> StronglySorted before ps -> Forall2 (rds m) ps outs ->
  NoDup (map second outs).
Proof.
  intros Hd Hs HF. apply sorted_nodup in Hs.
  induction HF as [|p r ps outs Hr HF IH]; [constructor|].
  inversion Hs as [|p1 ps1 Hnot Hs1]; subst. simpl. constructor; [|apply IH, Hs1].
  intros Hin. apply in_map_iff in Hin as (r' & E & Hr').
  assert (Hp : exists p', In p' ps /\ rds m p' r').
  { clear - HF Hr'. induction HF as [|p q ps outs Hpq HF IH]; [destruct Hr'|].
    destruct Hr' as [<-|Hr']; [exists p; split; [left; reflexivity|exact Hpq]|].
    destruct (IH Hr') as (p' & Hp & Hq). exists p'. split; [right; exact Hp|exact Hq]. }
  destruct Hp as (p' & Hp & Hrd).
  assert (p = p') by (eapply same_output; [exact Hd|exact Hr|exact Hrd|congruence]).
  subst p'. contradiction.
Qed.

(** * One string *)

Definition unique_path (m : fst_t W) (p : list nat) : Prop :=
  acc m p /\ forall q, acc m q -> q = p.

Lemma one_top_paths (m : fst_t W) :
  acyclic m -> connected wzero weqb m ->
  exists bound, forall fuel out0, bound <= fuel ->
  exists b out, lattice_to_one_top_string wzero weqb fuel m out0 = Ok (b, out) /\
    (b = true <-> exists p, unique_path m p) /\
    (b = true -> forall p r, acc m p -> rds m p r -> out = bytes (second r)).
Proof.
  intros Ha Hc.
  destruct (connected_paths W wone wzero wtimes weqb m Ha Hc)
    as (ps & bound & Hs & Hin & H).
  exists bound. intros fuel out0 Hf.
  destruct (H bound fuel false (le_n _) Hf) as (it & outs & it' & E & C & F);
    [discriminate|].
  unfold lattice_to_one_top_string. rewrite E. cbn [bind orb].
  apply collect_cases in C. apply sorted_nodup in Hs.
  destruct outs as [|o outs].
  - rewrite C. exists false, out0. split; [reflexivity|]. split; [|discriminate].
    split; [discriminate|]. intros (p & Hp & _). apply Hin in Hp.
    inversion F; subst. destruct Hp.
  - destruct C as (-> & -> & it1 & n1 & -> & C). cbn [bind].
    apply collect_cases in C. destruct outs as [|o outs].
    + rewrite C. cbn [negb]. eexists true, _. split; [reflexivity|].
      inversion F as [|p r ps' outs' Hr F' E1 E2]; subst. inversion F'; subst.
      split.
      * split; [|reflexivity]. intros _. exists p. split.
        -- apply Hin. left; reflexivity.
        -- intros q Hq. apply Hin in Hq. destruct Hq as [<-|[]]. reflexivity.
      * intros _ q r Hq Hqr. apply Hin in Hq. destruct Hq as [<-|[]].
        rewrite <- (reads_fun m p _ _ Hr Hqr). reflexivity.
    + destruct C as (-> & _). cbn [negb]. eexists false, _.
      split; [reflexivity|]. split; [|discriminate].
      split; [discriminate|]. intros (p & Hp & Hq).
      inversion F as [|p1 r1 ps1 outs1 Hr1 F1 E1 E2]; subst.
      inversion F1 as [|p2 r2 ps2 outs2 Hr2 F2 E3 E4]; subst.
      assert (p1 = p) by (apply Hq, Hin; left; reflexivity).
      assert (p2 = p) by (apply Hq, Hin; right; left; reflexivity).
      subst. inversion Hs as [|x l Hn _]; subst. exfalso. apply Hn. left; reflexivity.
Qed.

Definition has_output (m : fst_t W) (x : list N) : Prop := exists w, outp m x w.

Lemma unique_output (m : fst_t W) :
  deterministic m ->
  (exists p, unique_path m p) <-> (exists x, only (has_output m) x).
Proof.
  intros Hd. split.
  - intros (p & Hp & Hu). destruct (accepted_reads m p Hp) as ([[il x] w] & Hr).
    exists x. split.
    + exists w, p, il. split; assumption.
    + intros y (w' & q & il' & Hq & Hr'). rewrite (Hu q Hq) in Hr'.
      pose proof (reads_fun m p _ _ Hr Hr') as K. injection K as _ -> _. reflexivity.
  - intros (x & (w & p & il & Hp & Hr) & Hu). exists p. split; [exact Hp|].
    intros q Hq. destruct (accepted_reads m q Hq) as ([[il' y] w'] & Hr').
    eapply same_output; [exact Hd|exact Hr'|exact Hr|].
    apply Hu. exists w', q, il'. split; assumption.
Qed.

Lemma output_string (m : fst_t W) p r x :
  acc m p -> rds m p r -> only (has_output m) x -> second r = x.
Proof.
  intros Hp Hr (_ & Hu). destruct r as [[il y] w]. apply Hu.
  exists w, p, il. split; assumption.
Qed.

Lemma one_top_iff (m : fst_t W) :
  acyclic m -> connected wzero weqb m -> deterministic m ->
  exists bound, forall fuel out0, bound <= fuel ->
  (exists b out, lattice_to_one_top_string wzero weqb fuel m out0 = Ok (b, out)) /\
  forall out,
    lattice_to_one_top_string wzero weqb fuel m out0 = Ok (true, out) <->
    exists x, only (has_output m) x /\ out = bytes x.
Proof.
  intros Ha Hc Hd. destruct (one_top_paths m Ha Hc) as (bound & H).
  exists bound. intros fuel out0 Hf.
  destruct (H fuel out0 Hf) as (b & out & E & Hb & Ho).
  split; [exists b, out; exact E|]. intros out'. rewrite E. split.
  - intros K. injection K as -> ->.
    destruct (proj1 Hb eq_refl) as (p & Hp).
    destruct (proj1 (unique_output m Hd) (ex_intro _ p Hp)) as (x & Hx).
    exists x. split; [exact Hx|].
    destruct (accepted_reads m p (proj1 Hp)) as (r & Hr).
    rewrite (Ho eq_refl p r (proj1 Hp) Hr). f_equal.
    eapply output_string; [exact (proj1 Hp)|exact Hr|exact Hx].
  - intros (x & Hx & ->).
    destruct (proj2 (unique_output m Hd) (ex_intro _ x Hx)) as (p & Hp).
    assert (b = true) as -> by (apply Hb; exists p; exact Hp).
    destruct (accepted_reads m p (proj1 Hp)) as (r & Hr).
    rewrite (Ho eq_refl p r (proj1 Hp) Hr). do 3 f_equal.
    eapply output_string; [exact (proj1 Hp)|exact Hr|exact Hx].
Qed.

(** * The test of the numbers of arcs *)

Lemma coaccessible (m : fst_t W) : acyclic m -> connected wzero weqb m ->
  forall p l t, leads m p l t -> exists q, acc m (p ++ q).
Proof.
  intros [rank down] Hc.
  assert (H : forall k p l t, rank t < k -> leads m p l t ->
              exists q, acc m (p ++ q)).
  { induction k as [|k IH]; intros p l t Hk Hl; [lia|].
    destruct (is_final wzero weqb m t) eqn:Ef.
    - exists []. rewrite app_nil_r. exists l, t. split; assumption.
    - destruct (arcs m t) as [|a as_] eqn:Ea.
      + rewrite (Hc p l t Hl Ea) in Ef. discriminate.
      + assert (Hd : rank (nextstate a) < rank t)
          by (apply down; rewrite Ea; left; reflexivity).
        assert (Hl' : leads m (p ++ [0]) (l ++ [a]) (nextstate a)).
        { destruct Hl as (s & Es & El). exists s. split; [exact Es|].
          rewrite (follow_app W m p s l t [0] El). simpl. rewrite Ea. reflexivity. }
        destruct (IH (p ++ [0]) (l ++ [a]) (nextstate a) ltac:(lia) Hl') as (q & Hq).
        exists (0 :: q). rewrite <- app_assoc in Hq. exact Hq. }
  intros p l t. apply (H (S (rank t))). lia.
Qed.

Lemma leads_step (m : fst_t W) p l t j a :
  leads m p l t -> nth_error (arcs m t) j = Some a ->
  leads m (p ++ [j]) (l ++ [a]) (nextstate a).
Proof.
  intros (s & Es & El) Ha. exists s. split; [exact Es|].
  rewrite (follow_app W m p s l t [j] El). simpl. rewrite Ha. reflexivity.
Qed.

Lemma many_arcs (m : fst_t W) :
  good_dfa wzero weqb m ->
  existsb (fun s => Nat.ltb 1 (length (arcs m s))) (seq 0 (num_states m)) = true ->
  ~ exists p, unique_path m p.
Proof.
  intros (Ha & _ & Hc & Hd & Hr & _) H (p & Hp & Hu).
  apply existsb_exists in H as (s & Hs & Hl). apply in_seq in Hs.
  apply Nat.ltb_lt in Hl.
  destruct (Hr s) as (q & l & Hq); [lia|].
  destruct (nth_error (arcs m s) 0) as [a0|] eqn:E0;
    [|apply nth_error_None in E0; lia].
  destruct (nth_error (arcs m s) 1) as [a1|] eqn:E1;
    [|apply nth_error_None in E1; lia].
  destruct (coaccessible m Ha Hc _ _ _ (leads_step m q l s 0 a0 Hq E0)) as (q0 & K0).
  destruct (coaccessible m Ha Hc _ _ _ (leads_step m q l s 1 a1 Hq E1)) as (q1 & K1).
  pose proof (Hu _ K0) as U0. pose proof (Hu _ K1) as U1.
  rewrite <- U1 in U0. rewrite <- !app_assoc in U0.
  apply app_inv_head in U0. discriminate.
Qed.

Lemma few_arcs_follow (m : fst_t W) :
  (forall s, s < num_states m -> length (arcs m s) <= 1) ->
  enough_states m ->
  forall p q l t l' t', leads m p l t -> leads m q l' t' ->
  length p <= length q -> exists r, q = p ++ r.
Proof.
  intros Hfew Hen p. induction p as [|j p IH] using rev_ind;
    intros q l t l' t' Hp Hq Hlen.
  - exists q. reflexivity.
  - destruct Hp as (s & Es & El).
    assert (Hp : exists l1 t1, leads m p l1 t1 /\ j < length (arcs m t1)).
    { destruct (follow m s p) as [[l1 t1]|] eqn:E1.
      - exists l1, t1. split; [exists s; split; assumption|].
        rewrite (follow_app W m p s l1 t1 [j] E1) in El. simpl in El.
        destruct (nth_error (arcs m t1) j) eqn:En; [|discriminate].
        apply nth_error_Some. congruence.
      - exfalso. clear - E1 El. revert s l t E1 El.
        induction p as [|i p IH]; intros s l t E1 El; cbn [follow app] in *;
          [discriminate|].
        destruct (nth_error (arcs m s) i) as [a|]; [|discriminate].
        destruct (follow m (nextstate a) (p ++ [j])) as [[l2 t2]|] eqn:E2; [|discriminate].
        destruct (follow m (nextstate a) p) as [[l3 t3]|] eqn:E3; [discriminate|].
        exact (IH _ _ _ E3 E2). }
    destruct Hp as (l1 & t1 & Hp & Hj).
    rewrite app_length in Hlen. simpl in Hlen.
    destruct (IH q l1 t1 l' t' Hp Hq) as (r & ->); [lia|].
    pose proof (Hfew t1 (Hen _ _ _ Hp)) as Hone.
    destruct r as [|i r]; [rewrite app_nil_r in Hlen; lia|].
    exists r. rewrite <- app_assoc. simpl.
    destruct Hq as (s' & Es' & El'). destruct Hp as (s1 & Es1 & El1).
    rewrite Es' in Es1. injection Es1 as <-.
    rewrite (follow_app W m p s' l1 t1 (i :: r) El1) in El'. simpl in El'.
    destruct (nth_error (arcs m t1) i) eqn:En; [|discriminate].
    assert (i < length (arcs m t1)) by (apply nth_error_Some; congruence).
    replace i with j by lia. reflexivity.
Qed.

Lemma few_arcs_prefix_free (m : fst_t W) p q :
  existsb (fun s => Nat.ltb 1 (length (arcs m s))) (seq 0 (num_states m)) = false ->
  enough_states m -> prefix_free wzero weqb m ->
  acc m p -> acc m q -> p = q.
Proof.
  intros H Hen Hpf.
  assert (Hfew : forall s, s < num_states m -> length (arcs m s) <= 1).
  { intros s Hs. destruct (Nat.ltb_spec 1 (length (arcs m s))); [|lia].
    assert (existsb (fun s => Nat.ltb 1 (length (arcs m s)))
              (seq 0 (num_states m)) = true) as K.
    { apply existsb_exists. exists s. split; [apply in_seq; lia|].
      apply Nat.ltb_lt. assumption. }
    rewrite H in K. discriminate. }
  assert (Hle : forall p q, length p <= length q -> acc m p -> acc m q -> p = q).
  { intros p' q' Hlen (l & t & Hl & Hf) (l' & t' & Hl' & Hf').
    destruct (few_arcs_follow m Hfew Hen p' q' l t l' t' Hl Hl' Hlen) as (r & ->).
    destruct r as [|i r]; [rewrite app_nil_r; reflexivity|].
    exfalso. destruct Hl as (s & Es & El). destruct Hl' as (s' & Es' & El').
    rewrite Es in Es'. injection Es' as <-.
    rewrite (follow_app W m p' s l t (i :: r) El) in El'. simpl in El'.
    rewrite (Hpf t Hf) in El'. destruct i; discriminate. }
  intros Hp Hq. destruct (Nat.le_ge_cases (length p) (length q)).
  - apply Hle; assumption.
  - symmetry. apply Hle; assumption.
Qed.

(** * The cascade *)

Variable wle : W -> W -> Prop.
Variable compile : list N -> fst_t W.
Variable rewrite : fst_t W -> option (fst_t W).
Variable known_acceptor known_no_epsilons : fst_t W -> bool.
Variable project rm_epsilon : fst_t W -> fst_t W.
Variable determinize : bool -> fst_t W -> fst_t W.

Notation rlat := (rewrite_lattice compile rewrite known_acceptor
                    known_no_epsilons project rm_epsilon).
Notation bst := (best wone wzero wtimes weqb wle).

Lemma only_iff (P Q : list N -> Prop) x :
  (forall y, P y <-> Q y) -> (only P x <-> only Q x).
Proof.
  intros H. unfold only. rewrite (H x).
  split; intros [A B]; (split; [exact A|]); intros y Hy; apply B, H, Hy.
Qed.

Lemma one_top_rewrite input l :
  rlat input = Some l ->
  good_dfa wzero weqb (determinize true l) ->
  (forall x, (exists w, outp (determinize true l) x w) <-> bst l x) ->
  exists bound, forall fuel, bound <= fuel ->
    (exists b out,
       one_top_string wzero weqb compile rewrite known_acceptor
         known_no_epsilons project rm_epsilon determinize fuel input
       = Ok (b, out)) /\
    (forall out,
       one_top_string wzero weqb compile rewrite known_acceptor
         known_no_epsilons project rm_epsilon determinize fuel input
       = Ok (true, out) <->
       exists x, only (bst l) x /\ out = bytes x) /\
    (forall out0 out,
       one_top_direct wzero weqb compile rewrite known_acceptor
         known_no_epsilons project rm_epsilon determinize fuel input out0
       = Ok (true, out) <->
       exists x, only (bst l) x /\ out = bytes x).
Proof.
  intros El Hg Hb. pose proof Hg as (Ha & _ & Hc & Hd & _ & _).
  destruct (one_top_iff _ Ha Hc Hd) as (bound & H).
  exists bound. intros fuel Hf. unfold one_top_string, one_top_direct, one_top_lattice.
  rewrite El. cbv zeta.
  assert (Hdir : forall out0 out,
    lattice_to_one_top_string wzero weqb fuel (determinize true l) out0
      = Ok (true, out) <-> exists x, only (bst l) x /\ out = bytes x).
  { intros out0 out. destruct (H fuel out0 Hf) as [_ K]. rewrite K.
    split; intros (x & Hx & ->); exists x; (split; [|reflexivity]);
      [apply (only_iff _ _ x Hb)|apply (only_iff _ _ x Hb)]; exact Hx. }
  destruct (existsb _ _) eqn:Ex.
  - split; [exists false, []; reflexivity|]. split; [|exact Hdir].
    intros out. split; [discriminate|]. intros (x & Hx & _). exfalso.
    apply (many_arcs _ Hg Ex). apply (unique_output _ Hd).
    exists x. apply (only_iff _ _ x Hb), Hx.
  - split; [apply (H fuel [] Hf)|]. split; [apply Hdir|exact Hdir].
Qed.

Lemma one_top_no_lattice input fuel out0 :
  rlat input = None ->
  one_top_string wzero weqb compile rewrite known_acceptor
    known_no_epsilons project rm_epsilon determinize fuel input
  = Ok (false, []) /\
  one_top_direct wzero weqb compile rewrite known_acceptor
    known_no_epsilons project rm_epsilon determinize fuel input out0
  = Ok (false, out0).
Proof.
  intros H. unfold one_top_string, one_top_direct, one_top_lattice.
  rewrite H. split; reflexivity.
Qed.

Lemma one_top_acceptor input l :
  rlat input = Some l ->
  good_dfa wzero weqb (determinize true l) ->
  start (determinize true l) <> None ->
  prefix_free wzero weqb (determinize true l) ->
  (forall x, (exists w, outp (determinize true l) x w) <-> bst l x) ->
  (one_top_lattice compile rewrite known_acceptor known_no_epsilons project
     rm_epsilon determinize input = Some (determinize true l) <->
   exists x, only (bst l) x).
Proof.
  intros El Hg Hst Hpf Hb. pose proof Hg as (Ha & _ & Hc & Hd & _ & Hen).
  unfold one_top_lattice. rewrite El. cbv zeta.
  assert (Hu : (exists x, only (bst l) x) <->
               exists p, unique_path (determinize true l) p).
  { rewrite (unique_output _ Hd).
    split; intros (x & Hx); exists x; apply (only_iff _ _ x Hb), Hx. }
  rewrite Hu. destruct (existsb _ _) eqn:Ex.
  - split; [discriminate|]. intros K. destruct (many_arcs _ Hg Ex K).
  - split; [|reflexivity]. intros _.
    destruct (start (determinize true l)) as [s|] eqn:Es; [|congruence].
    assert (Hl : leads (determinize true l) [] [] s)
      by (exists s; split; [exact Es|reflexivity]).
    destruct (coaccessible _ Ha Hc _ _ _ Hl) as (p & Hp).
    exists p. split; [exact Hp|]. intros q Hq.
    eapply few_arcs_prefix_free; eassumption.
Qed.

End Proofs.

Lemma debug_plain gensyms labels :
  Forall (fun x => x <> 0%N) labels ->
  (forall find, gensyms = Some find -> Forall (fun x => find x = []) labels) ->
  labels_to_debug_string gensyms labels = bytes labels.
Proof.
  intros Hz Hg.
  assert (H : concat (map (debug_symbol gensyms) labels) = bytes labels).
  { induction labels as [|x labels IH]; [reflexivity|].
    inversion Hz as [|y l Hx Hz']; subst. unfold bytes. cbn [map concat filter].
    destruct (N.eqb_spec x 0) as [->|_]; [congruence|]. cbn [negb map].
    fold (bytes labels). rewrite IH; [|exact Hz'|].
    - destruct gensyms as [find|]; [|reflexivity].
      specialize (Hg find eq_refl). inversion Hg as [|z l E Hg']; subst.
      unfold debug_symbol. rewrite E. reflexivity.
    - intros find E. specialize (Hg find E). inversion Hg; assumption. }
  destruct labels as [|x labels]; [reflexivity|exact H].
Qed.

Lemma debug_epsilon :
  exists labels, labels_to_debug_string None labels <> labels_to_string labels.
Proof. exists [0%N]. discriminate. Qed.

(** The acceptor of a and ab, both with weight 0 *)
Definition tie_machine : fst_t (option N) :=
  machine_of [None; Some 0%N; Some 0%N]
    [[Arc 97%N 97%N (Some 0%N) 1]; [Arc 98%N 98%N (Some 0%N) 2]; []] true.

Lemma tie_follow p l t :
  follow tie_machine 0 p = Some (l, t) ->
  (p = [] /\ t = 0) \/ (p = [0] /\ t = 1) \/ (p = [0; 0] /\ t = 2).
Proof.
  destruct p as [|[|i] p]; simpl; intros H.
  - injection H as _ <-. auto.
  - destruct p as [|[|j] p]; simpl in H.
    + injection H as _ <-. auto.
    + destruct p as [|[|k] p]; simpl in H.
      * injection H as _ <-. auto.
      * discriminate.
      * destruct k; discriminate.
    + destruct j; discriminate.
  - destruct i; discriminate.
Qed.

Lemma tie_good : good_dfa None teqb tie_machine.
Proof.
  split; [|split; [reflexivity|split; [|split; [|split]]]].
  - exists (fun s => 2 - s). intros [|[|[|s]]] a H; simpl in H.
    + destruct H as [<-|[]]. simpl. lia.
    + destruct H as [<-|[]]. simpl. lia.
    + destruct H.
    + destruct s; destruct H.
  - intros p l t (s & Es & El) Ha. injection Es as <-.
    destruct (tie_follow p l t El) as [[_ ->]|[[_ ->]|[_ ->]]];
      [discriminate Ha|discriminate Ha|reflexivity].
  - intros [|[|[|s]]]; simpl; [| | |destruct s; simpl];
      repeat constructor; intros [].
  - intros [|[|[|s]]] Hs; simpl in Hs.
    + exists [], []. exists 0. split; reflexivity.
    + exists [0], [Arc 97%N 97%N (Some 0%N) 1]. exists 0. split; reflexivity.
    + exists [0; 0], [Arc 97%N 97%N (Some 0%N) 1; Arc 98%N 98%N (Some 0%N) 2].
      exists 0. split; reflexivity.
    + lia.
  - intros p l t (s & Es & El). injection Es as <-.
    destruct (tie_follow p l t El) as [[_ ->]|[[_ ->]|[_ ->]]]; simpl; lia.
Qed.

Lemma tie_outputs x w :
  outputs (Some 0%N) None ttimes teqb tie_machine x w ->
  w = Some 0%N /\ (x = [97%N] \/ x = [97%N; 98%N]).
Proof.
  intros (p & il & (l & t & (s & Es & El) & Hf) & (l' & t' & (s' & Es' & El') & Hr)).
  injection Es as <-. injection Es' as <-. rewrite El in El'. injection El' as <- <-.
  destruct (tie_follow p l t El) as [[-> ->]|[[-> ->]|[-> ->]]].
  - discriminate Hf.
  - simpl in El. injection El as <-. injection Hr as _ -> ->. auto.
  - simpl in El. injection El as <-. injection Hr as _ -> ->. auto.
Qed.

Lemma tie_best x :
  x = [97%N] \/ x = [97%N; 98%N] ->
  best (Some 0%N) None ttimes teqb tle tie_machine x.
Proof.
  intros Hx. exists (Some 0%N). split.
  - destruct Hx as [-> | ->].
    + exists [0], [97%N]. split; (exists [Arc 97%N 97%N (Some 0%N) 1], 1;
        split; [exists 0; split; reflexivity|reflexivity]).
    + exists [0; 0], [97%N; 98%N].
      split; (exists [Arc 97%N 97%N (Some 0%N) 1; Arc 98%N 98%N (Some 0%N) 2], 2;
        split; [exists 0; split; reflexivity|reflexivity]).
  - intros x' w' H. apply tie_outputs in H as [-> _]. simpl. lia.
Qed.

(** Two best outputs, and the acceptor overload does not notice. *)
Lemma tie_not_noticed :
  exists (l : fst_t (option N)) (determinize : bool -> fst_t (option N) -> fst_t (option N)) x y,
    let compile := fun _ => l in
    let rewrite := fun m => Some m in
    let known := fun _ : fst_t (option N) => true in
    let same := fun m : fst_t (option N) => m in
    good_dfa None teqb (determinize true l) /\
    (forall z, (exists w, outputs (Some 0%N) None ttimes teqb (determinize true l) z w)
               <-> best (Some 0%N) None ttimes teqb tle l z) /\
    best (Some 0%N) None ttimes teqb tle l x /\
    best (Some 0%N) None ttimes teqb tle l y /\ x <> y /\
    one_top_lattice compile rewrite known known same same determinize []
    = Some (determinize true l) /\
    one_top_string None teqb compile rewrite known known same same determinize 9 []
    = Ok (false, x).
Proof.
  exists tie_machine, (fun _ m => m), [97%N], [97%N; 98%N]. cbv zeta.
  split; [exact tie_good|]. split.
  - intros z. split.
    + intros (w & H). apply tie_outputs in H as [_ H]. apply tie_best, H.
    + intros (w & H & _). exists w. exact H.
  - split; [apply tie_best; auto|]. split; [apply tie_best; auto|].
    split; [discriminate|]. split; reflexivity.
Qed.
