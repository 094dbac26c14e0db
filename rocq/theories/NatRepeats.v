(** Removal of repeated letters. *)
From Coq Require Import String.
From Verif Require Import Base RuleModel RuleSpec RuleProofs RewriteProofs RegexModel AlignModel NatModel.
Local Open Scope list_scope.

Fixpoint prefix_freeb (rs : list rule) : bool :=
  match rs with [] => true | r :: rs' => if existsb (fun q => if prefixb (lhs r) (lhs q) then true else prefixb (lhs q) (lhs r)) rs' then false else prefix_freeb rs' end.
Lemma prefix_freeb_ok rs : prefix_freeb rs = true -> prefix_free rs.
Proof.
  assert (K : prefix_freeb rs = true -> NoDup rs /\ forall a b, In a rs -> In b rs -> a = b \/ ~ is_prefix (lhs a) (lhs b)).
  { induction rs as [|r rs IH]; intros H; [split; [constructor|intros a b []]|]. cbn [prefix_freeb] in H. destruct (existsb _ rs) eqn:X in H; [discriminate H|]. destruct (IH H) as [N P].
    assert (Q : forall q, In q rs -> ~ is_prefix (lhs r) (lhs q) /\ ~ is_prefix (lhs q) (lhs r)).
    { intros q I. assert (T : (if prefixb (lhs r) (lhs q) then true else prefixb (lhs q) (lhs r)) = false).
      { destruct (if prefixb (lhs r) (lhs q) then true else prefixb (lhs q) (lhs r)) eqn:T; [|reflexivity]. rewrite <- X. symmetry. apply existsb_exists. exists q. split; [exact I|exact T]. }
      destruct (prefixb (lhs r) (lhs q)) eqn:A; [discriminate T|]. split; apply prefixb_false; assumption. }
    split.
    - constructor; [|exact N]. intros I. destruct (Q r I) as [Q1 _]. apply Q1. exists []. rewrite app_nil_r. reflexivity.
    - intros a b [<-|Ia] [<-|Ib]; [left; reflexivity|right; apply Q; exact Ib|right; apply Q; exact Ia|exact (P a b Ia Ib)]. }
  intros H. destruct (K H) as [N P]. split; [exact N|]. intros a b Ia Ib Hn. destruct (P a b Ia Ib) as [->|X]; [congruence|exact X].
Qed.
Lemma ctx_cut_over rs lc rc sigma : (forall r, In r rs -> over sigma (rhs r) = true) -> forall o s gs, ctx_cut rs lc rc o s gs -> over sigma s = true -> over sigma (outs gs) = true.
Proof.
  intros Hr o s gs H. induction H as [o|o c s gs _ _ IH|o r s gs I _ _ _ IH]; intros Hs; [reflexivity| |].
  - cbn in Hs |- *. apply andb_prop in Hs as [H1 H2]. rewrite H1. exact (IH H2).
  - rewrite over_app in Hs. apply andb_prop in Hs as [_ H2]. change (outs (Sub r :: gs)) with (rhs r ++ outs gs). rewrite over_app, (Hr r I), (IH H2). reflexivity.
Qed.
Definition repeats (l : list char) : list rule := map (fun c => Rule (glyph c ++ glyph c) (glyph c)) l.
Lemma repeated_once l sigma s : forallb (fun r => match lhs r with [] => false | _ => over sigma (rhs r) end) (repeats l) = true -> prefix_freeb (repeats l) = true -> over sigma s = true ->
  exists o, remove_repeated_glyph l s = [o] /\ over sigma o = true.
Proof.
  intros A P Hs. rewrite forallb_forall in A. assert (Ne : nonempty_lhs (repeats l)) by (intros r I E; specialize (A r I); rewrite E in A; discriminate A).
  unfold remove_repeated_glyph, rewrite_ls, rewrite_op. fold (repeats l). destruct (scan_functional (repeats l) (left_ok None) (right_ok None) Ne (prefix_freeb_ok _ P) (List.length s) [] s (le_n _)) as (t & E).
  exists t. split; [exact E|]. assert (I : In t (scan (repeats l) (left_ok None) (right_ok None) [] 0 s)) by (rewrite E; left; reflexivity). apply scan_spec in I as (gs & C & ->); [|exact Ne]. cbn [rev app].
  apply (ctx_cut_over (repeats l) (left_ok None) (right_ok None) sigma) with (o := []) (s := s); [|exact C|exact Hs]. intros r J. specialize (A r J). destruct (lhs r); [discriminate A|exact A].
Qed.
Definition LOWER : list N := flat_map glyph ASCII_LC.
Lemma lower_checks :
  (if forallb (fun r => match lhs r with [] => false | _ => over LOWER (rhs r) end) (repeats OTHER_SUBSTRING) then
   if forallb (fun r => match lhs r with [] => false | _ => over LOWER (rhs r) end) (repeats ASCII_LC) then
   if prefix_freeb (repeats OTHER_SUBSTRING) then if prefix_freeb (repeats ASCII_LC) then forallb (fun c => if N.leb 97 c then N.leb c 122 else false) LOWER else false else false else false else false) = true.
Proof. vm_compute. reflexivity. Qed.
Lemma remove_repeated_ok s : over LOWER s = true -> exists o, remove_repeated_ltn s = [o] /\ over LOWER o = true.
Proof.
  intros H. pose proof lower_checks as K. repeat match type of K with (if ?b then _ else false) = true => let C := fresh "C" in destruct b eqn:C; [|discriminate K] end.
  destruct (repeated_once OTHER_SUBSTRING LOWER s C C1 H) as (o1 & E1 & H1). destruct (repeated_once ASCII_LC LOWER o1 C0 C2 H1) as (o2 & E2 & H2).
  exists o2. split; [|exact H2]. unfold remove_repeated_ltn. rewrite E1. cbn [flat_map]. rewrite E2. reflexivity.
Qed.
Lemma lower_range s : over LOWER s = true -> Forall (fun c => (97 <= c <= 122)%N) s.
Proof.
  intros H. pose proof lower_checks as K. repeat match type of K with (if ?b then _ else false) = true => let C := fresh "C" in destruct b eqn:C; [|discriminate K] end. rewrite forallb_forall in K.
  unfold over in H. rewrite forallb_forall in H. apply Forall_forall. intros c I. specialize (H c I). unfold memN in H. apply existsb_exists in H as (x & Ix & E). apply N.eqb_eq in E as <-. specialize (K _ Ix). cbn beta in K. destruct (97 <=? c)%N eqn:A; [|discriminate K]. apply N.leb_le in A, K. lia.
Qed.
