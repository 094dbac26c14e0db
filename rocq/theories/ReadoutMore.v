(** What the functions of the rule cascade return, given what the algorithms promise. *)
From Coq Require Import List NArith Bool.
From Verif Require Import PathModel PathSpec ReadoutModel ReadoutSpec ReadoutMoreSpec ReadoutProofs.
Import ListNotations.

Section More.
Variable W : Type.
Variable wone wzero : W.
Variable wtimes : W -> W -> W.
Variable weqb : W -> W -> bool.
Variable wle : W -> W -> Prop.
Variable compile : list N -> fst_t W.
Variable rewrite : fst_t W -> option (fst_t W).
Variable known_acceptor known_no_epsilons : fst_t W -> bool.
Variable project rm_epsilon : fst_t W -> fst_t W.
Variable determinize : bool -> fst_t W -> fst_t W.
Let lattice := rewrite_lattice compile rewrite known_acceptor known_no_epsilons project rm_epsilon.

Lemma lattice_none input : lattice input = None <-> rewrite (compile input) = None \/ exists m, rewrite (compile input) = Some m /\ start m = None.
Proof.
  unfold lattice, rewrite_lattice, check_and_cleanup. destruct (rewrite (compile input)) as [m|]; [|split; auto].
  destruct (start m) eqn:E; split; try discriminate; auto.
  - intros [H|(m' & H & H')]; [discriminate H|]. injection H as <-. congruence.
  - intros _. right. exists m. auto.
Qed.
Lemma lattice_some : (forall m, known_acceptor m = true -> acceptor m) -> (forall m, known_no_epsilons m = true -> epsilon_free m) ->
  (forall m, acceptor (project m)) -> (forall m x w, costs wone wzero wtimes weqb wle (project m) x w <-> costs wone wzero wtimes weqb wle m x w) ->
  (forall m, acceptor m -> acceptor (rm_epsilon m) /\ epsilon_free (rm_epsilon m) /\ forall x w, costs wone wzero wtimes weqb wle (rm_epsilon m) x w <-> costs wone wzero wtimes weqb wle m x w) ->
  forall input l, lattice input = Some l -> exists m, rewrite (compile input) = Some m /\ start m <> None /\ acceptor l /\ epsilon_free l /\
    forall x w, costs wone wzero wtimes weqb wle l x w <-> costs wone wzero wtimes weqb wle m x w.
Proof.
  intros Ka Ke Pa Pc Rm input l. unfold lattice, rewrite_lattice, check_and_cleanup. destruct (rewrite (compile input)) as [m|]; [|discriminate]. destruct (start m) eqn:E; [|discriminate]. intros H. exists m. split; [reflexivity|]. split; [congruence|].
  assert (A : acceptor (if known_acceptor m then m else project m) /\ forall x w, costs wone wzero wtimes weqb wle (if known_acceptor m then m else project m) x w <-> costs wone wzero wtimes weqb wle m x w).
  { destruct (known_acceptor m) eqn:K; [split; [exact (Ka m K)|reflexivity]|split; [apply Pa|apply Pc]]. }
  cbv zeta in H. destruct A as [A C]. destruct (known_no_epsilons _) eqn:K; injection H as <-.
  - split; [exact A|]. split; [exact (Ke _ K)|exact C].
  - destruct (Rm _ A) as (A' & E' & C'). split; [exact A'|]. split; [exact E'|]. intros x w. rewrite C'. apply C.
Qed.
Lemma rewrites_none optimal n fuel input : lattice input = None ->
  rewrites wone wzero wtimes weqb compile rewrite known_acceptor known_no_epsilons project rm_epsilon determinize optimal n fuel input = Ok (false, []) /\
  rewrites_repeated wone wzero wtimes weqb compile rewrite known_acceptor known_no_epsilons project rm_epsilon determinize optimal n fuel input = Ok (false, []).
Proof. unfold lattice. intros E. unfold rewrites, rewrites_repeated. rewrite E. auto. Qed.
Lemma rewrites_some optimal input l : lattice input = Some l -> good_dfa wzero weqb (determinize optimal l) ->
  (forall x, (exists w, outputs wone wzero wtimes weqb (determinize optimal l) x w) <-> if optimal then best wone wzero wtimes weqb wle l x else exists w, outputs wone wzero wtimes weqb l x w) ->
  exists xs bound, NoDup xs /\ (forall x, In x xs <-> if optimal then best wone wzero wtimes weqb wle l x else exists w, outputs wone wzero wtimes weqb l x w) /\
  forall n fuel, bound <= n -> bound <= fuel ->
    rewrites wone wzero wtimes weqb compile rewrite known_acceptor known_no_epsilons project rm_epsilon determinize optimal n fuel input = Ok (true, map bytes xs) /\
    rewrites_repeated wone wzero wtimes weqb compile rewrite known_acceptor known_no_epsilons project rm_epsilon determinize optimal n fuel input = Ok (match xs with [] => false | _ => true end, map bytes xs).
Proof.
  unfold lattice. intros E (Ac & Ap & Co & De & _) H. destruct (all_strings W wone wzero wtimes weqb _ Ac Ap Co) as (ps & outs & bound & So & Acc & Re & K).
  exists (map second outs), bound. split; [exact (different_strings W wone wzero wtimes weqb _ ps outs De So Re)|]. split.
  - intros x. rewrite <- H. unfold outputs. split.
    + intros Ix. apply in_map_iff in Ix as ([[il x'] w] & E' & Io). cbn in E'. subst x'. clear K So.
      assert (P : exists p, In p ps /\ reads wone wzero wtimes weqb (determinize optimal l) p (il, x, w)).
      { clear Acc. induction Re as [|p o ps os Ro _ IH]; [destruct Io|]. destruct Io as [->|Io]; [exists p; split; [left; reflexivity|exact Ro]|]. destruct (IH Io) as (q & Iq & Rq). exists q. split; [right; exact Iq|exact Rq]. }
      destruct P as (p & Ip & Rp). exists w, p, il. split; [apply Acc, Ip|exact Rp].
    + intros (w & p & il & Ap' & Rp). apply Acc in Ap'. clear K So Acc. apply in_map_iff.
      assert (P : exists o, In o outs /\ reads wone wzero wtimes weqb (determinize optimal l) p o).
      { induction Re as [|q o ps os Ro _ IH]; [destruct Ap'|]. destruct Ap' as [->|Iq]; [exists o; split; [left; reflexivity|exact Ro]|]. destruct (IH Iq) as (o' & Io & Ro'). exists o'. split; [right; exact Io|exact Ro']. }
      destruct P as (o & Io & Ro). exists o. split; [|exact Io]. assert (o = (il, x, w)) as -> by (eapply reads_fun; eassumption). reflexivity.
  - intros n fuel Ln Lf. destruct (K n fuel Ln Lf) as (_ & K2 & _ & K4). unfold rewrites, rewrites_repeated. rewrite E, K2, K4, map_map. split; [reflexivity|]. f_equal. f_equal. destruct outs; reflexivity.
Qed.
End More.

Lemma debug_app g a b : labels_to_debug_string g (a ++ b) = labels_to_debug_string g a ++ labels_to_debug_string g b.
Proof.
  assert (H : forall l, labels_to_debug_string g l = concat (map (debug_symbol g) l)) by (destruct l; reflexivity). rewrite !H, map_app, concat_app. reflexivity.
Qed.
Lemma debug_named find x : find x <> [] -> labels_to_debug_string (Some find) [x] = [91%N] ++ find x ++ [93%N].
Proof. intros N. unfold labels_to_debug_string, debug_symbol. destruct (find x) as [|c s]; [congruence|]. cbn [map concat]. rewrite app_nil_r. reflexivity. Qed.
Lemma debug_other g x : (forall find, g = Some find -> find x = []) -> labels_to_debug_string g [x] = [N.modulo x 256].
Proof. intros H. unfold labels_to_debug_string, debug_symbol. destruct g as [find|]; [rewrite (H find eq_refl)|]; reflexivity. Qed.
