(** Replacements in a text of pieces happen inside the pieces, when no left side can reach from one piece into the next. *)
From Verif Require Import Base RuleModel RuleSpec.
From Coq Require Import Lia.

(** [l] without the start [s] *)
Fixpoint strip (s l : str) : option str :=
  match s, l with
  | [], _ => Some l
  | a :: s', b :: l' => if N.eqb a b then strip s' l' else None
  | _ :: _, [] => None
  end.
(** one of two texts is the start of the other *)
Fixpoint agree (a b : str) : bool :=
  match a, b with
  | x :: a', y :: b' => if N.eqb x y then agree a' b' else false
  | _, _ => true
  end.
Lemma strip_spec s l t : strip s l = Some t <-> l = s ++ t.
Proof.
  revert l. induction s as [|a s IH]; intros [|b l]; cbn [strip app].
  - split; [intros [= <-]; reflexivity|intros ->; reflexivity].
  - split; [intros [= <-]; reflexivity|intros ->; reflexivity].
  - split; discriminate.
  - destruct (N.eqb a b) eqn:E.
    + apply N.eqb_eq in E as ->. rewrite IH. split; [intros ->; reflexivity|intros [= ->]; reflexivity].
    + split; [discriminate|]. intros [= -> _]. rewrite N.eqb_refl in E. discriminate.
Qed.
Lemma agree_app a b x y : a ++ x = b ++ y -> agree a b = true.
Proof. revert b. induction a as [|c a IH]; intros [|e b]; cbn [agree app]; try reflexivity. intros [= -> H]. rewrite N.eqb_refl. exact (IH b H). Qed.

Section Tagged.
Variable A : Type.
Variable allowed : A -> A -> bool.
Notation piece := (A * str)%type.
(** the rest of [l] after some end of [p] begins like something that may follow *)
Fixpoint reaches (l : str) (k : nat) (p : str) (next : str -> bool) : bool :=
  match p with
  | [] => false
  | _ :: p' =>
    match k with
    | S k' => reaches l k' p' next
    | O =>
      if prefixb l p then reaches l (length l - 1) p' next
      else if match strip p l with Some t => next t | None => false end then true else reaches l 0 p' next
    end
  end.
Definition begins (ps : list piece) (a : A) (t : str) : bool := existsb (fun q => if agree t (snd q) then allowed a (fst q) else false) ps.
Fixpoint apart (rs : list rule) (ps : list piece) : bool :=
  match rs with
  | [] => true
  | r :: rs' =>
    if forallb (fun p => negb (reaches (lhs r) 0 (snd p) (begins ps (fst p)))) ps
    then apart rs' (map (fun p => (fst p, replace_all (lhs r) (rhs r) (snd p))) ps) else false
  end.
Inductive linked (ps : list piece) : list piece -> Prop :=
| linked_none : linked ps []
| linked_one p : In p ps -> linked ps [p]
| linked_more p q l : In p ps -> allowed (fst p) (fst q) = true -> linked ps (q :: l) -> linked ps (p :: q :: l).
Lemma linked_in ps l : linked ps l -> Forall (fun p => In p ps) l.
Proof. induction 1; constructor; auto. Qed.

(** within a piece *)
Lemma replace_app l r next p : forall k t, k <= length p -> (forall t', next t' = false -> prefixb t' t = false) ->
  reaches l k p next = false -> l <> [] -> replace_from l r k (p ++ t) = replace_from l r k p ++ replace_from l r 0 t.
Proof.
  intros k t K H R L. revert k K R. induction p as [|c p IH]; intros k K R.
  - cbn [length] in K. assert (k = 0) as -> by lia. reflexivity.
  - cbn [app replace_from]. cbn [reaches] in R. destruct k as [|k]; [|apply IH; [cbn [length] in K; lia|exact R]].
    destruct (prefixb l (c :: p)) eqn:Q.
    + assert (E : prefixb l (c :: p ++ t) = true).
      { apply prefixb_spec in Q. apply prefixb_spec. destruct Q as (z & Z). exists (z ++ t). rewrite app_assoc, <- Z. reflexivity. }
      rewrite E, <- app_assoc. f_equal. apply IH; [|exact R]. apply prefixb_spec in Q as (z & Z). pose proof (f_equal (@length N) Z) as F. rewrite app_length in F. cbn [length] in F. lia.
    + destruct (match strip (c :: p) l with Some t => next t | None => false end) eqn:N; [discriminate R|].
      assert (E : prefixb l (c :: p ++ t) = false).
      { destruct (prefixb l (c :: p ++ t)) eqn:Q2; [|reflexivity]. apply prefixb_spec in Q2 as (z & Z). change (c :: p ++ t) with ((c :: p) ++ t) in Z.
        apply app_eq_app in Z as (m & [(E1 & E2)|(E1 & E2)]).
        - rewrite <- Q. symmetry. apply prefixb_spec. exists m. exact E1.
        - rewrite (proj2 (strip_spec _ _ m) E1) in N. specialize (H _ N). rewrite <- H. symmetry. apply prefixb_spec. exists z. exact E2. }
      rewrite E. cbn [app]. f_equal. apply IH; [lia|exact R].
Qed.
Lemma begins_no ps a t : begins ps a t = false -> forall q, In q ps -> allowed a (fst q) = true -> agree t (snd q) = false.
Proof.
  intros H q I L. destruct (agree t (snd q)) eqn:E; [|reflexivity]. assert (X : begins ps a t = true); [|congruence]. apply existsb_exists. exists q. split; [exact I|]. rewrite E. exact L.
Qed.
Lemma replace_pieces l r ps w : l <> [] -> forallb (fun p => negb (reaches l 0 (snd p) (begins ps (fst p)))) ps = true -> linked ps w ->
  replace_all l r (concat (map snd w)) = concat (map (fun p => replace_all l r (snd p)) w).
Proof.
  intros L H W. rewrite forallb_forall in H. unfold replace_all. induction W as [|p I|p q w I Q W IH]; [reflexivity| |].
  - cbn [map concat]. rewrite !app_nil_r. reflexivity.
  - change (concat (map snd (p :: q :: w))) with (snd p ++ concat (map snd (q :: w))). rewrite (replace_app l r (begins ps (fst p))); [rewrite IH; reflexivity|lia| | |exact L].
    { intros t N. pose proof (begins_no _ _ _ N q (Forall_inv (linked_in _ _ W)) Q) as C. destruct (prefixb t (concat (map snd (q :: w)))) eqn:P; [|reflexivity].
      apply prefixb_spec in P as (z & Z). cbn [map concat] in Z. symmetry in Z. rewrite (agree_app _ _ _ _ Z) in C. discriminate C. }
    apply negb_true_iff, H, I.
Qed.
Lemma linked_map f ps w : linked ps w -> linked (map (fun p => (fst p, f (snd p))) ps) (map (fun p => (fst p, f (snd p))) w).
Proof.
  induction 1 as [|p I|p q w I Q W IH]; cbn [map]; constructor; try exact IH; try exact (in_map (fun p => (fst p, f (snd p))) _ _ I). exact Q.
Qed.
Lemma cascade_pieces rs : forall ps w, nonempty_lhs rs -> apart rs ps = true -> linked ps w -> cascade rs (concat (map snd w)) = concat (map (fun p => cascade rs (snd p)) w).
Proof.
  induction rs as [|r rs IH]; intros ps w N H W; [reflexivity|]. cbn [apart] in H.
  destruct (forallb (fun p => negb (reaches (lhs r) 0 (snd p) (begins ps (fst p)))) ps) eqn:E; [|discriminate H].
  change (cascade (r :: rs) ?x) with (cascade rs (replace_all (lhs r) (rhs r) x)). rewrite (replace_pieces _ _ ps w (N r (or_introl eq_refl)) E W).
  pose proof (IH _ _ (fun r' I => N r' (or_intror I)) H (linked_map (replace_all (lhs r) (rhs r)) _ _ W)) as Q. rewrite !map_map in Q. cbn [fst snd] in Q. exact Q.
Qed.
End Tagged.
