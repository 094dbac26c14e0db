(** Proofs about the rewrite manager. *)
From Verif Require Import Base.
From Verif Require Import GrammarModel ManagerModel ManagerSpec.
From Coq Require Import Lia.

Lemma parens_arcs arcs : forall parens,
  parens_of_arcs [] arcs parens =
  if forallb (fun a => negb (full_pair a && N.eqb (fst a) (snd a))) arcs
  then Returned ([], parens ++ filter full_pair arcs)
  else Aborted.
Proof.
  induction arcs as [|[i o] arcs IH]; intros parens.
  - simpl. rewrite app_nil_r. reflexivity.
  - cbn [parens_of_arcs mem forallb filter].
    replace (full_pair (i, o)) with (negb (N.eqb i 0) && negb (N.eqb o 0))
      by reflexivity.
    cbn [fst snd].
    destruct (N.eqb i 0), (N.eqb o 0); cbn [andb negb].
    1-3: apply IH.
    destruct (N.eqb i o); cbn [negb andb]; [reflexivity|].
    rewrite IH, <- app_assoc. reflexivity.
Qed.

Lemma parens_states states : forall parens,
  parens_of_states [] states parens =
  if forallb (fun a => negb (full_pair a && N.eqb (fst a) (snd a))) (concat states)
  then Returned (parens ++ full_pairs states)
  else Aborted.
Proof.
  induction states as [|arcs states IH]; intros parens.
  - unfold full_pairs. simpl. rewrite app_nil_r. reflexivity.
  - cbn [parens_of_states concat]. unfold full_pairs. cbn [concat].
    rewrite parens_arcs, forallb_app, filter_app.
    destruct (forallb _ arcs); cbn [andb]; [|reflexivity].
    rewrite IH, <- app_assoc. reflexivity.
Qed.

Lemma parens_spec states :
  (make_parentheses states = Returned (full_pairs states) /\
   forall l r, In (l, r) (full_pairs states) -> l <> r) \/
  (make_parentheses states = Aborted /\
   exists l, In (l, l) (full_pairs states)).
Proof.
  unfold make_parentheses. rewrite parens_states. cbn [app].
  destruct (forallb _ (concat states)) eqn:E.
  - left. split; [reflexivity|]. intros l r H.
    unfold full_pairs in H. apply filter_In in H as [H Hf].
    rewrite forallb_forall in E. specialize (E _ H). cbn [fst snd] in E.
    rewrite Hf in E. cbn [andb] in E. intros ->. rewrite N.eqb_refl in E. discriminate.
  - right. split; [reflexivity|].
    assert (H : exists a, In a (concat states) /\
              full_pair a && N.eqb (fst a) (snd a) = true).
    { clear - E. induction (concat states) as [|a l IH]; [discriminate|].
      cbn [forallb] in E.
      destruct (full_pair a && N.eqb (fst a) (snd a)) eqn:Ea.
      - exists a. split; [left; reflexivity|exact Ea].
      - destruct (IH E) as (b & Hb & Eb). exists b. split; [right; exact Hb|exact Eb]. }
    destruct H as ([l r] & H & K). apply andb_true_iff in K as [K1 K2].
    cbn [fst snd] in K2. apply N.eqb_eq in K2. subst r.
    exists l. unfold full_pairs. apply filter_In. split; assumption.
Qed.

Lemma parens_reuse :
  exists states ps, make_parentheses states = Returned ps /\ ~ proper_parens ps.
Proof.
  exists [[(1, 2); (1, 3)]]%N, [(1, 2); (1, 3)]%N. split; [reflexivity|].
  intros H. inversion H as [|x l Hn _]; subst. apply Hn. left; reflexivity.
Qed.

(** * Assignments *)

Lemma assign_fold arcs : forall m,
  fold_left assign_arc arcs m = rev (filter full_pair arcs) ++ m.
Proof.
  induction arcs as [|[i o] arcs IH]; intros m; [reflexivity|].
  cbn [fold_left]. rewrite IH. cbn [filter].
  replace (full_pair (i, o)) with (negb (N.eqb i 0) && negb (N.eqb o 0))
    by reflexivity.
  cbn [assign_arc].
  destruct (N.eqb i 0), (N.eqb o 0); cbn [andb negb rev]; try reflexivity.
  rewrite <- app_assoc. reflexivity.
Qed.

Lemma assign_fold_states states : forall m,
  fold_left (fun m arcs => fold_left assign_arc arcs m) states m
  = rev (full_pairs states) ++ m.
Proof.
  induction states as [|arcs states IH]; intros m; [reflexivity|].
  cbn [fold_left]. rewrite IH, assign_fold. unfold full_pairs. cbn [concat].
  rewrite filter_app, rev_app_distr, <- app_assoc. reflexivity.
Qed.

Lemma map_find_split m k v :
  map_find k m = Some v <->
  exists a b, m = a ++ (k, v) :: b /\ ~ In k (map fst a).
Proof.
  induction m as [|[k' v'] m IH]; cbn [map_find].
  - split; [discriminate|]. intros ([|x a] & b & E & _); discriminate.
  - destruct (N.eqb_spec k k') as [<-|Hk].
    + split.
      * intros E. injection E as <-. exists [], m. split; [reflexivity|intros []].
      * intros ([|[k1 v1] a] & b & E & Hn).
        -- injection E as <- _. reflexivity.
        -- injection E as <- <- _. exfalso. apply Hn. left; reflexivity.
    + rewrite IH. split.
      * intros (a & b & -> & Hn). exists ((k', v') :: a), b.
        split; [reflexivity|]. intros [E|H]; [cbn in E; congruence|contradiction].
      * intros ([|[k1 v1] a] & b & E & Hn).
        -- injection E as <- _ _. congruence.
        -- injection E as _ _ ->. exists a, b. split; [reflexivity|].
           intros H. apply Hn. right; exact H.
Qed.

Lemma find_assigned states k v :
  map_find k (rev (full_pairs states) ++ []) = Some v <-> assigned states k v.
Proof.
  rewrite app_nil_r, map_find_split. unfold assigned. split.
  - intros (a & b & E & Hn). exists (rev b), (rev a).
    split.
    + rewrite <- (rev_involutive (full_pairs states)), E, rev_app_distr.
      cbn [rev]. rewrite <- app_assoc. reflexivity.
    + rewrite map_rev, <- in_rev. exact Hn.
  - intros (a & b & E & Hn). exists (rev b), (rev a). split.
    + rewrite E, rev_app_distr. cbn [rev]. rewrite <- app_assoc. reflexivity.
    + rewrite map_rev, <- in_rev. exact Hn.
Qed.

Lemma assign_parens_spec m parens : forall acc,
  (exists vs, assign_parens m parens acc = Returned (acc ++ vs) /\
     Forall2 (fun (p : N * N) v => map_find (fst p) m = Some v) parens vs) \/
  (assign_parens m parens acc = Aborted /\
     exists p, In p parens /\ map_find (fst p) m = None).
Proof.
  induction parens as [|[l r] parens IH]; intros acc; cbn [assign_parens].
  - left. exists []. rewrite app_nil_r. split; [reflexivity|constructor].
  - destruct (map_find l m) as [v|] eqn:E.
    + destruct (IH (acc ++ [v])) as [(vs & -> & HF)|(-> & p & Hp & Ep)].
      * left. exists (v :: vs). rewrite <- app_assoc. split; [reflexivity|].
        constructor; [exact E|exact HF].
      * right. split; [reflexivity|]. exists p. split; [right; exact Hp|exact Ep].
    + right. split; [reflexivity|]. exists (l, r). split; [left; reflexivity|exact E].
Qed.

Lemma assignments_spec states parens :
  (exists vs, make_assignments states parens = Returned vs /\
     Forall2 (fun (p : N * N) v => assigned states (fst p) v) parens vs) \/
  (make_assignments states parens = Aborted /\
     exists p, In p parens /\ forall v, ~ assigned states (fst p) v).
Proof.
  unfold make_assignments. rewrite assign_fold_states.
  destruct (assign_parens_spec (rev (full_pairs states) ++ []) parens [])
    as [(vs & E & HF)|(E & p & Hp & En)].
  - left. exists vs. split; [exact E|].
    clear E. induction HF as [|p v ps vs H HF IH]; constructor; [|exact IH].
    apply find_assigned, H.
  - right. split; [exact E|]. exists p. split; [exact Hp|].
    intros v Hv. apply find_assigned in Hv. congruence.
Qed.

Lemma last_unique {A B : Type} (a b a' b' : list (A * B)) k v v' :
  a ++ (k, v) :: b = a' ++ (k, v') :: b' -> ~ In k (map fst b) -> ~ In k (map fst b') -> v = v'.
Proof.
  intros E Nb Nb'. apply app_eq_app in E as (m & [(-> & E)|(-> & E)]).
  - destruct m as [|x m]; [injection E as ->; reflexivity|]. cbn [app] in E; injection E as <- E; rewrite E in *. destruct Nb'. rewrite map_app. apply in_or_app. right. left. reflexivity.
  - destruct m as [|x m]; [injection E as ->; reflexivity|]. cbn [app] in E; injection E as <- E; rewrite E in *. destruct Nb. rewrite map_app. apply in_or_app. right. left. reflexivity.
Qed.
Lemma assigned_unique states k v v' : assigned states k v -> assigned states k v' -> v = v'.
Proof. intros (a & b & E & Nb) (a' & b' & E' & Nb'). rewrite E in E'. exact (last_unique _ _ _ _ _ _ _ E' Nb Nb'). Qed.
Lemma assigned_all_unique states (ps : list (N * N)) vs vs' :
  Forall2 (fun (q : N * N) v => assigned states (fst q) v) ps vs -> Forall2 (fun (q : N * N) v => assigned states (fst q) v) ps vs' -> vs = vs'.
Proof.
  intros H. revert vs'. induction H as [|q v ps vs A _ IH]; intros vs' H'; inversion H' as [|q' v' ps' vs2 A' H2]; subst; [reflexivity|]. f_equal; [exact (assigned_unique _ _ _ _ A A')|apply IH; assumption].
Qed.

Section Manager.

Variable F : Type.
Variable S : Type.
Variable input_symbols : F -> S.
Variable label_pairs : F -> list (list (N * N)).
Variable compose : F -> F -> F.
Variable pdt_compose : F -> F -> list (N * N) -> F.
Variable mpdt_compose : F -> F -> list (N * N) -> list N -> F.
Variable no_states : F -> bool.
Variable cleanup : F -> F.

Notation add := (add_to_map (F := F) (S := S) input_symbols).
Notation load := (load_far (F := F) (S := S) input_symbols).
Notation mrw := (mgr_rewrite (F := F) (S := S) label_pairs compose pdt_compose
                   mpdt_compose no_states cleanup).
Notation rrw := (rules_rewrite (F := F) (S := S) label_pairs compose pdt_compose
                   mpdt_compose no_states cleanup).

Lemma str_eqb_spec a b : str_eqb a b = true <-> a = b.
Proof. exact (str_eqb_eq a b). Qed.

Lemma find_put m k f k' :
  find_fst (put_fst (F := F) m k f) k' =
  if str_eqb k k' then Some f else find_fst m k'.
Proof.
  induction m as [|[k1 g] m IH]; cbn [put_fst find_fst]; [reflexivity|].
  destruct (str_eqb k1 k) eqn:E1; cbn [find_fst].
  - apply str_eqb_spec in E1. subst k1.
    destruct (str_eqb k k'); reflexivity.
  - destruct (str_eqb k1 k') eqn:E2.
    + apply str_eqb_spec in E2. subst k1.
      destruct (str_eqb k k') eqn:E3; [|reflexivity].
      apply str_eqb_spec in E3. subst k. exfalso.
      assert (str_eqb k' k' = true) by (apply str_eqb_spec; reflexivity).
      congruence.
    + exact IH.
Qed.

Lemma load_get_aux entries : forall mgr k,
  k <> symbol_key ->
  forall f, mgr_get (fold_left add entries mgr) k = Some f <->
  last_of entries k f \/ (~ In k (map fst entries) /\ mgr_get mgr k = Some f).
Proof.
  induction entries as [|[k1 g] entries IH]; intros mgr k Hk f.
  - simpl. split.
    + intros H. right. split; [intros []|exact H].
    + intros [([|x a] & b & E & _)|[_ H]]; [discriminate|discriminate|exact H].
  - cbn [fold_left map fst]. rewrite (IH _ k Hk f).
    assert (Hget : mgr_get (add mgr (k1, g)) k =
                   if str_eqb k1 k then Some g else mgr_get mgr k).
    { unfold add_to_map, mgr_get.
      destruct (str_eqb k1 symbol_key) eqn:E1; cbn [fsts].
      - apply str_eqb_spec in E1. subst k1.
        destruct (str_eqb symbol_key k) eqn:E2; [|reflexivity].
        apply str_eqb_spec in E2. congruence.
      - apply find_put. }
    rewrite Hget. split.
    + intros [(a & b & -> & Hn)|[Hn H]].
      * left. exists ((k1, g) :: a), b. split; [reflexivity|exact Hn].
      * destruct (str_eqb k1 k) eqn:E1.
        -- injection H as <-. apply str_eqb_spec in E1. subst k1.
           left. exists [], entries. split; [reflexivity|exact Hn].
        -- right. split; [|exact H]. intros [->|H1]; [|contradiction].
           assert (str_eqb k k = true) by (apply str_eqb_spec; reflexivity).
           congruence.
    + intros [([|[k2 g2] a] & b & E & Hn)|[Hn H]].
      * injection E as -> -> ->. right. split; [exact Hn|].
        assert (str_eqb k k = true) as -> by (apply str_eqb_spec; reflexivity).
        reflexivity.
      * injection E as -> -> ->. left. exists a, b. split; [reflexivity|exact Hn].
      * right. split; [intros K; apply Hn; right; exact K|].
        destruct (str_eqb k1 k) eqn:E1; [|exact H].
        apply str_eqb_spec in E1. subst k1. exfalso. apply Hn. left; reflexivity.
Qed.

Lemma load_symbol_key_aux entries : forall mgr,
  mgr_get mgr symbol_key = None ->
  mgr_get (fold_left add entries mgr) symbol_key = None.
Proof.
  induction entries as [|[k g] entries IH]; intros mgr H; [exact H|].
  cbn [fold_left]. apply IH. unfold add_to_map, mgr_get in *.
  destruct (str_eqb k symbol_key) eqn:E; cbn [fsts]; [exact H|].
  rewrite find_put, E. exact H.
Qed.

Lemma load_symbols_aux entries : forall mgr s,
  gensyms (fold_left add entries mgr) = Some s <->
  (exists f, last_of entries symbol_key f /\ s = input_symbols f) \/
  (~ In symbol_key (map fst entries) /\ gensyms mgr = Some s).
Proof.
  induction entries as [|[k g] entries IH]; intros mgr s.
  - simpl. split.
    + intros H. right. split; [intros []|exact H].
    + intros [(f & ([|x a] & b & E & _) & _)|[_ H]]; [discriminate|discriminate|exact H].
  - cbn [fold_left map fst]. rewrite IH.
    assert (Hg : gensyms (add mgr (k, g)) =
                 if str_eqb k symbol_key then Some (input_symbols g) else gensyms mgr).
    { unfold add_to_map. destruct (str_eqb k symbol_key); reflexivity. }
    rewrite Hg. split.
    + intros [(f & (a & b & -> & Hn) & ->)|[Hn H]].
      * left. exists f. split; [|reflexivity].
        exists ((k, g) :: a), b. split; [reflexivity|exact Hn].
      * destruct (str_eqb k symbol_key) eqn:E.
        -- injection H as <-. apply str_eqb_spec in E. subst k.
           left. exists g. split; [|reflexivity].
           exists [], entries. split; [reflexivity|exact Hn].
        -- right. split; [|exact H]. intros [->|H1]; [|contradiction].
           assert (str_eqb symbol_key symbol_key = true)
             by (apply str_eqb_spec; reflexivity). congruence.
    + intros [(f & ([|[k2 g2] a] & b & E & Hn) & ->)|[Hn H]].
      * injection E as -> -> ->. right. split; [exact Hn|].
        assert (str_eqb symbol_key symbol_key = true) as ->
          by (apply str_eqb_spec; reflexivity). reflexivity.
      * injection E as -> -> ->. left. exists f. split; [|reflexivity].
        exists a, b. split; [reflexivity|exact Hn].
      * right. split; [intros K; apply Hn; right; exact K|].
        destruct (str_eqb k symbol_key) eqn:E; [|exact H].
        apply str_eqb_spec in E. subst k. exfalso. apply Hn. left; reflexivity.
Qed.

Lemma load_spec entries mgr :
  exists mgr', load (Some entries) mgr = (true, mgr') /\
  (forall k f, mgr_get mgr' k = Some f <->
     k <> symbol_key /\ last_of entries k f) /\
  (forall s, gensyms mgr' = Some s <->
     exists f, last_of entries symbol_key f /\ s = input_symbols f).
Proof.
  exists (fold_left add entries empty_manager). split; [reflexivity|]. split.
  - intros k f. destruct (str_eqb k symbol_key) eqn:E.
    + apply str_eqb_spec in E. subst k.
      rewrite (load_symbol_key_aux entries empty_manager eq_refl).
      split; [discriminate|]. intros [H _]. congruence.
    + assert (Hk : k <> symbol_key).
      { intros ->. assert (str_eqb symbol_key symbol_key = true)
          by (apply str_eqb_spec; reflexivity). congruence. }
      rewrite (load_get_aux entries empty_manager k Hk f). split.
      * intros [H|[_ H]]; [split; assumption|discriminate].
      * intros [_ H]. left. exact H.
  - intros s. rewrite (load_symbols_aux entries empty_manager s). split.
    + intros [H|[_ H]]; [exact H|discriminate].
    + intros H. left. exact H.
Qed.

Lemma load_failure mgr :
  load None mgr = (false, empty_manager).
Proof. reflexivity. Qed.

Lemma set_spec (mgr : manager F S) k f :
  exists b mgr', mgr_set mgr k f = (b, mgr') /\
  (b = true <-> exists g, mgr_get mgr k = Some g) /\
  (forall k', mgr_get mgr' k' =
     if b && str_eqb k k' then Some f else mgr_get mgr k') /\
  gensyms mgr' = gensyms mgr.
Proof.
  unfold mgr_set. fold (mgr_get mgr k). destruct (mgr_get mgr k) as [g|] eqn:E.
  - eexists true, _. split; [reflexivity|]. split.
    + split; [intros _; exists g; reflexivity|reflexivity].
    + split; [|reflexivity]. intros k'. unfold mgr_get. cbn [fsts].
      apply find_put.
  - exists false, mgr. split; [reflexivity|]. split.
    + split; [discriminate|]. intros (g & H). discriminate.
    + split; reflexivity.
Qed.

Lemma has_rule_iff (mgr : manager F S) k :
  has_rule mgr k = true <-> exists f, mgr_get mgr k = Some f.
Proof.
  unfold has_rule. destruct (mgr_get mgr k) as [f|].
  - split; [intros _; exists f; reflexivity|reflexivity].
  - split; [discriminate|]. intros (f & H). discriminate.
Qed.

Lemma validate_triple_iff (mgr : manager F S) t :
  validate_triple mgr t = true <-> known_triple mgr t.
Proof.
  unfold validate_triple, known_triple, known_or_empty.
  rewrite <- !has_rule_iff.
  destruct (has_rule mgr (main_rule t)), (has_rule mgr (parens_rule t)),
    (has_rule mgr (assign_rule t)), (parens_rule t) as [|x l],
    (assign_rule t) as [|y l']; cbn [negb andb]; intuition congruence.
Qed.

Lemma set_rules_spec (mgr : manager F S) rules old :
  exists b, set_rules mgr rules old = (b, map parse_triple rules) /\
  (b = true <-> rules <> [] /\ Forall (fun r => known_triple mgr (parse_triple r)) rules).
Proof.
  eexists. split; [reflexivity|]. unfold validate_rules.
  destruct rules as [|r rules].
  - simpl. split; [discriminate|]. intros [H _]. congruence.
  - cbn [map]. change (parse_triple r :: map parse_triple rules)
      with (map parse_triple (r :: rules)).
    rewrite forallb_forall, Forall_forall. split.
    + intros H. split; [discriminate|]. intros x Hx.
      apply validate_triple_iff, H, in_map, Hx.
    + intros [_ H] t Ht. apply in_map_iff in Ht as (x & <- & Hx).
      apply validate_triple_iff, H, Hx.
Qed.

Lemma rules_app (mgr : manager F S) a b input :
  rrw mgr (a ++ b) input = and_then (rrw mgr a input) (rrw mgr b).
Proof.
  revert input. induction a as [|t a IH]; intros input; [reflexivity|].
  cbn [app rules_rewrite]. destruct (mrw mgr t input) as [f| |]; [|reflexivity|reflexivity].
  apply IH.
Qed.

(** A rule is refused although all names are known only if the composition
    is empty. *)
Lemma known_refused (mgr : manager F S) t input :
  known_triple mgr t -> (forall f, no_states f = false) -> mrw mgr t input <> Refused.
Proof.
  intros ((r & Hr) & Hp & Ha) Hn. unfold mgr_rewrite. rewrite Hr.
  unfold checked.
  destruct (parens_rule t) as [|x l] eqn:Ep.
  - rewrite Hn. discriminate.
  - destruct Hp as [Hp|(p & Hp)]; [discriminate|]. rewrite Hp.
    destruct (parens_spec (label_pairs p)) as [[-> _]|[-> _]]; [|discriminate].
    destruct (assign_rule t) as [|y l'] eqn:Ea.
    + rewrite Hn. discriminate.
    + destruct Ha as [Ha|(a & Ha)]; [discriminate|]. rewrite Ha.
      destruct (assignments_spec (label_pairs a) (full_pairs (label_pairs p)))
        as [(vs & -> & _)|[-> _]]; [|discriminate].
      rewrite Hn. discriminate.
Qed.

(** Without parentheses the assignments are not looked at, although
    ValidateRules wants them. *)
Lemma invalid_rewrites (f : F) :
  no_states (compose f f) = false ->
  exists (mgr : manager F S) rules,
    fst (set_rules mgr rules []) = false /\
    rrw mgr (snd (set_rules mgr rules [])) f = Returned (cleanup (compose f f)).
Proof.
  intros H. exists (Manager [([97%N], f)] None), [[97; 36; 36; 98]%N].
  split; [reflexivity|]. cbn. unfold checked. rewrite H. reflexivity.
Qed.

(** Without rules the input comes back, although SetRules returned false. *)
Lemma no_rules_identity (mgr : manager F S) old f :
  set_rules mgr [] old = (false, []) /\ rrw mgr [] f = Returned f.
Proof. split; reflexivity. Qed.

(** What a rule gives, and when the program ends *)
Notation comp := (composed label_pairs compose pdt_compose mpdt_compose).
Lemma checked_returned f g :
  checked no_states cleanup f = Returned g <-> no_states f = false /\ g = cleanup f.
Proof. unfold checked. destruct (no_states f); split; try discriminate; [intros [H _]; discriminate H|intros [= <-]; split; reflexivity|intros [_ ->]; reflexivity]. Qed.
Lemma checked_runs f : checked no_states cleanup f <> Aborted.
Proof. unfold checked. destruct (no_states f); discriminate. Qed.
Lemma rewrite_composed (mgr : manager F S) t input g :
  mrw mgr t input = Returned g <-> exists c, comp mgr t input c /\ no_states c = false /\ g = cleanup c.
Proof.
  unfold mgr_rewrite. split.
  - destruct (mgr_get mgr (main_rule t)) as [r|] eqn:Er; [|discriminate].
    destruct (parens_rule t) as [|x l] eqn:Ep.
    + intros H. apply checked_returned in H as [H1 H2]. exists (compose input r). split; [apply composed_plain; assumption|split; assumption].
    + destruct (mgr_get mgr (x :: l)) as [p|] eqn:Eg; [|discriminate].
      assert (Np : parens_rule t <> []) by (rewrite Ep; discriminate). rewrite <- Ep in Eg.
      destruct (parens_spec (label_pairs p)) as [[-> Hp]|[-> _]]; [|discriminate].
      destruct (assign_rule t) as [|y l'] eqn:Ea.
      * intros H. apply checked_returned in H as [H1 H2]. eexists. split; [eapply composed_pdt; eassumption|split; assumption].
      * destruct (mgr_get mgr (y :: l')) as [a|] eqn:Eh; [|discriminate].
        assert (Na : assign_rule t <> []) by (rewrite Ea; discriminate). rewrite <- Ea in Eh.
        destruct (assignments_spec (label_pairs a) (full_pairs (label_pairs p))) as [(vs & -> & Hv)|[-> _]]; [|discriminate].
        intros H. apply checked_returned in H as [H1 H2]. eexists. split; [eapply composed_mpdt; eassumption|split; assumption].
  - intros (c & H & Hc). destruct H as [r Er Ep|r p Er Np Eg Ea Hp|r p a vs Er Np Eg Na Eh Hp Hv]; rewrite Er.
    + rewrite Ep. apply checked_returned, Hc.
    + destruct (parens_rule t) as [|x l] eqn:Ep; [destruct (Np eq_refl)|]. rewrite Eg.
      destruct (parens_spec (label_pairs p)) as [[-> _]|[_ (l0 & B)]]; [|destruct (Hp l0 l0 B eq_refl)].
      rewrite Ea. apply checked_returned, Hc.
    + destruct (parens_rule t) as [|x l] eqn:Ep; [destruct (Np eq_refl)|]. rewrite Eg.
      destruct (parens_spec (label_pairs p)) as [[-> _]|[_ (l0 & B)]]; [|destruct (Hp l0 l0 B eq_refl)].
      destruct (assign_rule t) as [|y l'] eqn:Ea; [destruct (Na eq_refl)|]. rewrite Eh.
      destruct (assignments_spec (label_pairs a) (full_pairs (label_pairs p))) as [(vs' & -> & Hv')|[_ (q & Iq & Q)]].
      * rewrite (assigned_all_unique _ _ _ _ Hv' Hv). apply checked_returned, Hc.
      * exfalso. clear - Hv Iq Q. induction Hv as [|q' v ps vs A _ IH]; [destruct Iq|]. destruct Iq as [->|Iq]; [exact (Q v A)|exact (IH Iq)].
Qed.
Lemma rewrite_aborts (mgr : manager F S) t input :
  mrw mgr t input = Aborted <->
  exists r p, mgr_get mgr (main_rule t) = Some r /\ parens_rule t <> [] /\ mgr_get mgr (parens_rule t) = Some p /\
    ((exists l, In (l, l) (full_pairs (label_pairs p))) \/
     (forall l r, In (l, r) (full_pairs (label_pairs p)) -> l <> r) /\ assign_rule t <> [] /\
     exists a q, mgr_get mgr (assign_rule t) = Some a /\ In q (full_pairs (label_pairs p)) /\ forall v, ~ assigned (label_pairs a) (fst q) v).
Proof.
  unfold mgr_rewrite. split.
  - destruct (mgr_get mgr (main_rule t)) as [r|] eqn:Er; [|discriminate].
    destruct (parens_rule t) as [|x l] eqn:Ep; [intros H; destruct (checked_runs _ H)|].
    destruct (mgr_get mgr (x :: l)) as [p|] eqn:Eg; [|discriminate]. intros H. exists r, p. split; [reflexivity|]. split; [discriminate|]. split; [reflexivity|].
    destruct (parens_spec (label_pairs p)) as [[E Hp]|[_ B]]; [rewrite E in H|left; exact B]. right. split; [exact Hp|].
    destruct (assign_rule t) as [|y l'] eqn:Ea; [destruct (checked_runs _ H)|]. split; [discriminate|].
    destruct (mgr_get mgr (y :: l')) as [a|] eqn:Eh; [|discriminate H]. exists a.
    destruct (assignments_spec (label_pairs a) (full_pairs (label_pairs p))) as [(vs & E2 & Hv)|[_ (q & Iq & Q)]]; [rewrite E2 in H; destruct (checked_runs _ H)|].
    exists q. split; [reflexivity|]. split; [exact Iq|exact Q].
  - intros (r & p & Er & Np & Eg & H). rewrite Er. destruct (parens_rule t) as [|x l] eqn:Ep; [destruct (Np eq_refl)|]. rewrite Eg.
    destruct (parens_spec (label_pairs p)) as [[-> Hp]|[-> _]]; [|reflexivity].
    destruct H as [(l0 & B)|(_ & Na & a & q & Eh & Iq & Q)]; [destruct (Hp l0 l0 B eq_refl)|].
    destruct (assign_rule t) as [|y l'] eqn:Ea; [destruct (Na eq_refl)|]. rewrite Eh.
    destruct (assignments_spec (label_pairs a) (full_pairs (label_pairs p))) as [(vs & _ & Hv)|[-> _]]; [|reflexivity].
    exfalso. clear - Hv Iq Q. induction Hv as [|q' v ps vs A _ IH]; [destruct Iq|]. destruct Iq as [->|Iq]; [exact (Q v A)|exact (IH Iq)].
Qed.

End Manager.
