From Coq Require Import String List NArith Bool Lia PeanoNat.
From Verif Require Import Base RuleModel RegexModel AlignModel AlignSpec NatModel NatSpec NatBytes.
Import ListNotations.
Local Open Scope list_scope.

(** ** Rewriting without contexts *)
Lemma anywhere K d ts out : rewriting K None None d ts out -> forall d', rewriting K None None d' ts out.
Proof.
  intro H. remember None as p eqn:Ep in H at 1. remember None as f eqn:Ef in H. induction H; intro d'; subst.
  - constructor.
  - constructor; try exact I; auto.
  - constructor; auto.
Qed.
Notation rew K := (rewriting K None None []).
Lemma rew_apply K l r rest out : In (l, r) K -> rew K rest out -> rew K (l ++ rest) (r ++ out).
Proof. intros H R. apply re_apply; try exact I; [exact H|]. eapply anywhere; eauto. Qed.
Lemma rew_copy K t rest out : (forall l r u, In (l, r) K -> t :: rest <> l ++ u) -> rew K rest out -> rew K (t :: rest) (t :: out).
Proof. intros H R. apply re_copy; [intros l r u A B; destruct (H l r u A B)|]. eapply anywhere; eauto. Qed.
Lemma rew_inv K t rest out : rew K (t :: rest) out ->
  (exists l r rest' out', In (l, r) K /\ t :: rest = l ++ rest' /\ rew K rest' out' /\ out = r ++ out') \/
  (exists out', (forall l r u, In (l, r) K -> t :: rest <> l ++ u) /\ rew K rest out' /\ out = t :: out').
Proof.
  intro H. remember (t :: rest) as ts eqn:E. remember (@nil tok) as d eqn:Ed in H. destruct H as [d|d l r rest' out' A _ _ R|d u rest' out' N R]; subst.
  - discriminate.
  - left. exists l, r, rest', out'. repeat split; auto. eapply anywhere; eauto.
  - injection E as -> ->. right. exists out'. split; [|split; [eapply anywhere; eauto|reflexivity]]. intros l r v A B. exact (N l r v A B I I).
Qed.
Lemma rew_nil K out : rew K [] out -> (forall l r, In (l, r) K -> l <> []) -> out = [].
Proof.
  intros H N. assert (G : forall d ts, rewriting K None None d ts out -> ts = [] -> out = []); [|exact (G _ _ H eq_refl)].
  clear H. intros d ts H E. destruct H as [d|d l r rest' out' A _ _ R|d u rest' out' Q R]; [reflexivity| |discriminate].
  apply app_eq_nil in E as [-> _]. now destruct (N [] r A).
Qed.

Section Shapes.
  Variable c : tok.
  Variable K : list (word * word).
  Definition shaped (w : word) : Prop := (exists t, w = [t] /\ t <> c) \/ (exists t u, w = [t; c; u] /\ t <> c /\ u <> c).
  Hypothesis Ks : forall l r, In (l, r) K -> shaped l.
  Definition one (t : tok) (o : word) : Prop := In ([t], o) K \/ (forall r, ~ In ([t], r) K) /\ o = [t].
  Definition result (w : word) (o : word) : Prop :=
    (exists t, w = [t] /\ one t o) \/
    (exists t u, w = [t; c; u] /\ (In (w, o) K \/ exists a b, o = a ++ c :: b /\ one u b /\
       (In ([t], a) K \/ (forall r, ~ In ([t], r) K) /\ (forall r, ~ In (w, r) K) /\ a = [t]))).
  Lemma step1 t rest out : hd_error rest <> Some c -> (rew K (t :: rest) out <-> exists a b, one t a /\ rew K rest b /\ out = a ++ b).
  Proof.
    intro H. split.
    - intro R. apply rew_inv in R as [(l & r & rest' & out' & A & E & R & ->)|(out' & N & R & ->)].
      + destruct (Ks l r A) as [(t' & -> & T)|(t' & u & -> & T & U)].
        * injection E as -> ->. exists r, out'. split; [now left|auto].
        * cbn in E. injection E as -> ->. now destruct H.
      + exists [t], out'. split; [|auto]. right. split; [|reflexivity]. intros r A. exact (N [t] r rest A eq_refl).
    - intros (a & b & [A|[N ->]] & R & ->).
      + exact (rew_apply K [t] a rest b A R).
      + apply rew_copy; [|exact R]. intros l r u A E. destruct (Ks l r A) as [(t' & -> & T)|(t' & v & -> & T & U)].
        * injection E as <- _. exact (N r A).
        * cbn in E. injection E as -> ->. now destruct H.
  Qed.
  Lemma one_c o : one c o <-> o = [c].
  Proof.
    split.
    - intros [A|[_ E]]; [|exact E]. destruct (Ks _ _ A) as [(t & [= <-] & T)|(t & u & E & _)]; [now destruct T|discriminate].
    - intros ->. right. split; [|reflexivity]. intros r A. destruct (Ks _ _ A) as [(t & [= <-] & T)|(t & u & E & _)]; [now destruct T|discriminate].
  Qed.
  Lemma step3 t u rest out : u <> c -> hd_error rest <> Some c ->
    (rew K (t :: c :: u :: rest) out <-> exists a b, result [t; c; u] a /\ rew K rest b /\ out = a ++ b).
  Proof.
    intros U H.
    assert (M : forall o, rew K (c :: u :: rest) o <-> exists a b, one u a /\ rew K rest b /\ o = c :: a ++ b).
    { intro o. rewrite step1 by (cbn; congruence). split.
      - intros (x & y & X & Y & ->). apply one_c in X. subst x. apply step1 in Y as (a & b & A & B & ->); [|exact H]. eauto 6.
      - intros (a & b & A & B & ->). exists [c], (a ++ b). split; [now apply one_c|]. split; [|reflexivity]. apply step1; eauto. }
    split.
    - intro R. apply rew_inv in R as [(l & r & rest' & out' & A & E & R & ->)|(out' & N & R & ->)].
      + destruct (Ks l r A) as [(t' & -> & T)|(t' & u' & -> & T & U')].
        * injection E as <- <-. apply M in R as (a & b & X & Y & ->). exists (r ++ c :: a), b. split; [|split; [exact Y|now rewrite <- app_assoc]].
          right. exists t, u. split; [reflexivity|]. right. exists r, a. auto.
        * cbn in E. injection E as <- <- <-. exists r, out'. split; [|auto]. right. exists t, u. auto.
      + apply M in R as (a & b & X & Y & ->). exists ([t] ++ c :: a), b. split; [|auto]. right. exists t, u. split; [reflexivity|]. right. exists [t], a.
        split; [reflexivity|]. split; [exact X|]. right. split; [|split; [|reflexivity]].
        * intros r A. exact (N [t] r _ A eq_refl).
        * intros r A. exact (N [t; c; u] r rest A eq_refl).
    - intros (a & b & [(t' & E & _)|(t' & u' & E & Q)] & B & ->); [discriminate|]. injection E as <- <-. destruct Q as [A|(x & y & -> & Y & [A|(N1 & N2 & ->)])].
      + exact (rew_apply K [t; c; u] a rest b A B).
      + rewrite <- app_assoc. apply (rew_apply K [t] x _ _ A). apply M. exists y, b. auto.
      + cbn [app]. apply rew_copy; [|apply M; exists y, b; auto]. intros l r v A E. destruct (Ks l r A) as [(t' & -> & T)|(t' & v' & -> & T & V)].
        * injection E as <- _. exact (N1 r A).
        * cbn in E. injection E as <- <- _. exact (N2 r A).
  Qed.
  Lemma heads ws : Forall shaped ws -> hd_error (concat ws) <> Some c.
  Proof. intro F. destruct F as [|w ws [(t & -> & T)|(t & u & -> & T & _)] F]; cbn; congruence. Qed.
  Lemma pieces ws : Forall shaped ws -> forall out, rew K (concat ws) out <-> exists os, Forall2 result ws os /\ out = concat os.
  Proof.
    intro F. induction F as [|w ws S F IH]; intro out.
    - split.
      + intro R. apply rew_nil in R as ->; [exists []; split; [constructor|reflexivity]|]. intros l r A ->. destruct (Ks _ _ A) as [(t & E & _)|(t & u & E & _)]; discriminate.
      + intros (os & G & ->). inversion G; subst. constructor.
    - pose proof (heads ws F) as H. cbn [concat].
      assert (X : rew K (w ++ concat ws) out <-> exists a b, result w a /\ rew K (concat ws) b /\ out = a ++ b).
      { destruct S as [(t & -> & T)|(t & u & -> & T & U)]; cbn [app].
        - rewrite step1 by exact H. split.
          + intros (a & b & A & B & ->). exists a, b. split; [left; eauto|auto].
          + intros (a & b & [(t' & [= <-] & A)|(t' & u & E & _)] & B & ->); [eauto|discriminate].
        - now apply step3. }
      rewrite X. split.
      + intros (a & b & A & B & ->). apply IH in B as (os & G & ->). exists (a :: os). split; [now constructor|reflexivity].
      + intros (os & G & ->). inversion G as [|? a ? os' A B]; subst. exists a, (concat os'). split; [exact A|]. split; [|reflexivity]. apply IH. eauto.
  Qed.
End Shapes.

(** ** Repeated symbols *)
Lemma halves K x : (forall l r, In (l, r) K -> exists y, l = [y; y] /\ r = [y]) -> In ([x; x], [x]) K ->
  forall n m out, m <= n -> (rew K (repeat x m) out <-> out = repeat x (Nat.div2 (S m))).
Proof.
  intros H A. assert (NE : forall l r, In (l, r) K -> l <> []) by (intros l r B; destruct (H l r B) as (y & -> & _); discriminate).
  induction n as [|n IH]; intros m out M.
  - assert (m = 0) by lia. subst. cbn. split; [intro R; exact (rew_nil K out R NE)|intros ->; constructor].
  - destruct m as [|[|m]].
    + cbn. split; [intro R; exact (rew_nil K out R NE)|intros ->; constructor].
    + cbn. split.
      * intro R. apply rew_inv in R as [(l & r & rest & o & B & E & R & ->)|(o & N & R & ->)].
        -- destruct (H l r B) as (y & -> & _). discriminate.
        -- apply (rew_nil K o R) in NE. now subst.
      * intros ->. apply rew_copy; [|constructor]. intros l r u B E. destruct (H l r B) as (y & -> & _). discriminate.
    + cbn [repeat]. change (Nat.div2 (S (S (S m)))) with (S (Nat.div2 (S m))). cbn [repeat]. split.
      * intro R. apply rew_inv in R as [(l & r & rest & o & B & E & R & ->)|(o & N & R & ->)].
        -- destruct (H l r B) as (y & -> & ->). cbn in E. injection E as E1 _ E3. subst y rest. apply IH in R; [|lia]. now subst.
        -- destruct (N [x; x] [x] (repeat x m) A eq_refl).
      * intros ->. apply (rew_apply K [x; x] [x] (repeat x m) _ A). apply IH; [lia|reflexivity].
Qed.
