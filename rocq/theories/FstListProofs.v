(** Proofs about lists of transducers. *)
From Verif Require Import Base RuleModel RuleSpec RewriteProofs FstListModel FstListSpec.

Section Arg.
  Context {F : Type} (P : arg F -> Prop) (Hf : forall f, P (AFst f)) (Hs : forall s, P (AStr s))
    (Hl : forall l, Forall P l -> P (AIter l)) (Ho : P AOther).
  Fixpoint arg_all (a : arg F) : P a :=
    match a with
    | AFst f => Hf f
    | AStr s => Hs s
    | AIter l => Hl l ((fix go l := match l return Forall P l with [] => Forall_nil P | x :: l' => Forall_cons x (arg_all x) (go l') end) l)
    | AOther => Ho
    end.
End Arg.

Section FstList.
  Context {F : Type} (accep : str -> F).
  Lemma fold_add l : Forall (fun a => forall items, add_arg accep items a = items ++ flat accep a) l ->
    forall items, fold_left (add_arg accep) l items = items ++ flat_map (flat accep) l.
  Proof.
    induction 1 as [|a l H _ IH]; intros items; cbn [fold_left flat_map]; [rewrite app_nil_r; reflexivity|].
    rewrite H, IH, <- app_assoc. reflexivity.
  Qed.
  Lemma add_arg_flat a : forall items, add_arg accep items a = items ++ flat accep a.
  Proof.
    induction a as [f|s|l H|] using arg_all; intros items; cbn [add_arg flat]; try reflexivity.
    - apply fold_add. exact H.
    - rewrite app_nil_r. reflexivity.
  Qed.
  Lemma add_flat items args : add accep items args = items ++ flat_map (flat accep) args.
  Proof. unfold add. apply fold_add. apply Forall_forall. intros a _. apply add_arg_flat. Qed.
  Lemma list_flat args : FstList accep args = flat_map (flat accep) args.
  Proof. apply (add_flat []). Qed.
  Lemma flat_fsts fs : flat_map (flat accep) (map AFst fs) = fs.
  Proof. induction fs as [|f fs IH]; cbn; [reflexivity|]. f_equal. exact IH. Qed.
  Lemma accep_list_items strings : accep_list accep strings = map accep strings.
  Proof.
    unfold accep_list. rewrite list_flat. cbn [flat_map flat]. rewrite app_nil_r.
    induction strings as [|s l IH]; cbn; [reflexivity|]. f_equal. exact IH.
  Qed.
  Lemma make_tuples (maker : list (value F) -> F) tuples : make accep maker (map VTuple tuples) = Some (map maker tuples).
  Proof.
    unfold make. assert (E : make_args maker (map VTuple tuples) = Some (map maker tuples)).
    { induction tuples as [|t l IH]; cbn; [reflexivity|]. rewrite IH. reflexivity. }
    rewrite E, list_flat. cbn [flat_map flat]. rewrite app_nil_r, flat_fsts. reflexivity.
  Qed.
  (** A list of tuples as the only argument *)
  Lemma make_list (maker : list (value F) -> F) tuples : make accep maker [VTuple (map VTuple tuples)] = Some [maker (map VTuple tuples)].
  Proof. reflexivity. Qed.

  Context {rel : F -> relation} {no_fst : F} {union2 : list F -> F} {star : F -> F} {cat composed : F -> F -> F} {EMPTY : F}
    (num_states : F -> nat) (Sem : semantics rel no_fst accep union2 star cat composed EMPTY).

  Lemma union_spec items x y c : rel (union no_fst union2 items) x y c <-> exists f, In f items /\ rel f x y c.
  Proof.
    destruct items as [|f [|g items]]; cbn [union].
    - split; [intros H; destruct (no_fst_none _ _ _ _ _ _ _ _ Sem _ _ _ H)|intros (f & [] & _)].
    - split; [intros H; exists f; split; [left; reflexivity|exact H]|intros (g & [<-|[]] & H); exact H].
    - apply (union2_any _ _ _ _ _ _ _ _ Sem).
  Qed.
  Lemma in_sequence_ext rs rs' x y c : Forall2 (fun r r' : relation => forall x y c, r x y c <-> r' x y c) rs rs' ->
    in_sequence rs x y c -> in_sequence rs' x y c.
  Proof.
    intros H K. revert rs' H. induction K as [|r rs x y c x' y' c' R K IH]; intros rs' H; inversion H; subst; constructor.
    - apply H2. exact R.
    - apply IH. assumption.
  Qed.
  Lemma sequence_app rs rs' x y c x' y' c' : in_sequence rs x y c -> in_sequence rs' x' y' c' ->
    in_sequence (rs ++ rs') (x ++ x') (y ++ y') (c + c')%N.
  Proof.
    induction 1 as [|r rs a b d a' b' d' R K IH]; intros H; cbn [app]; [exact H|].
    rewrite <- !app_assoc, <- N.add_assoc. constructor; [exact R|apply IH; exact H].
  Qed.
  Lemma sequence_split rs rs' x y c : in_sequence (rs ++ rs') x y c ->
    exists x1 x2 y1 y2 c1 c2, x = x1 ++ x2 /\ y = y1 ++ y2 /\ c = (c1 + c2)%N /\ in_sequence rs x1 y1 c1 /\ in_sequence rs' x2 y2 c2.
  Proof.
    revert x y c. induction rs as [|r rs IH]; cbn [app]; intros x y c H.
    - exists [], x, [], y, 0%N, c. repeat split; [constructor|exact H].
    - inversion H as [|r0 rs0 a b d a' b' d' R K]; subst.
      destruct (IH _ _ _ K) as (x1 & x2 & y1 & y2 & c1 & c2 & -> & -> & -> & A & B).
      exists (a ++ x1), x2, (b ++ y1), y2, (d + c1)%N, c2. rewrite !app_assoc, N.add_assoc. repeat split; [constructor; assumption|exact B].
  Qed.
  (** The closure of the union: texts made of parts, each accepted by one of the list *)
  Lemma union_star_spec items x y c : rel (union_star no_fst union2 star items) x y c <->
    exists fs, (forall f, In f fs -> In f items) /\ in_sequence (map rel fs) x y c.
  Proof.
    unfold union_star. rewrite (star_any _ _ _ _ _ _ _ _ Sem). split.
    - intros (n & H). revert x y c H. induction n as [|n IH]; cbn [repeat]; intros x y c H.
      + exists []. split; [intros f []|exact H].
      + inversion H as [|r0 rs0 a b d a' b' d' R K]; subst. apply union_spec in R as (f & If & R).
        destruct (IH _ _ _ K) as (fs & I0 & Q). exists (f :: fs). split; [intros g [<-|G]; auto|]. cbn. constructor; assumption.
    - intros (fs & I0 & H). exists (length fs). revert x y c H. induction fs as [|f fs IH]; cbn [map length repeat]; intros x y c H; [exact H|].
      inversion H as [|r0 rs0 a b d a' b' d' R K]; subst. constructor.
      + apply union_spec. exists f. split; [apply I0; left; reflexivity|exact R].
      + apply IH; [intros g G; apply I0; right; exact G|exact K].
  Qed.
  Lemma concat_fold items : forall f x y c, rel (fold_left cat items f) x y c <-> in_sequence (rel f :: map rel items) x y c.
  Proof.
    induction items as [|g items IH]; intros f x y c; cbn [fold_left map].
    - split; [intros H|intros H].
      + rewrite <- (app_nil_r x), <- (app_nil_r y), <- (N.add_0_r c). constructor; [exact H|constructor].
      + inversion H as [|r0 rs0 a b d a' b' d' R K]; subst. inversion K; subst. rewrite !app_nil_r, N.add_0_r. exact R.
    - rewrite IH. split; intros H.
      + inversion H as [|r0 rs0 a b d a' b' d' R K]; subst. apply (cat_two _ _ _ _ _ _ _ _ Sem) in R.
        exact (sequence_app [rel f; rel g] _ _ _ _ _ _ _ R K).
      + change (rel f :: rel g :: map rel items) with ([rel f; rel g] ++ map rel items) in H.
        apply sequence_split in H as (x1 & x2 & y1 & y2 & c1 & c2 & -> & -> & -> & A & B).
        constructor; [apply (cat_two _ _ _ _ _ _ _ _ Sem); exact A|exact B].
  Qed.
  Lemma concat_spec items x y c : rel (FstListModel.concat accep cat items) x y c <-> in_sequence (map rel items) x y c.
  Proof.
    unfold FstListModel.concat. rewrite concat_fold. split; intros H.
    - inversion H as [|r0 rs0 a b d a' b' d' R K]; subst. apply (accep_one _ _ _ _ _ _ _ _ Sem) in R as (-> & -> & ->). exact K.
    - change x with ([] ++ x). change y with ([] ++ y). change c with (0 + c)%N. constructor; [|exact H].
      apply (accep_one _ _ _ _ _ _ _ _ Sem). repeat split.
  Qed.

  Definition den (f : F) (p q : str * N) : Prop := exists w, rel f (fst p) (fst q) w /\ snd q = (snd p + w)%N.
  Lemma den_comp f g p r : den (composed f g) p r <-> exists q, den f p q /\ den g q r.
  Proof.
    unfold den. split.
    - intros (w & H & E). apply (composed_two _ _ _ _ _ _ _ _ Sem) in H.
      inversion H as [|r0 rs x y z c c' R K]; subst. inversion K as [|r1 rs1 x1 y1 z1 c1 c1' R1 K1]; subst. inversion K1; subst.
      exists (y, snd p + c)%N. split; [exists c; split; [exact R|reflexivity]|]. exists c1. cbn. rewrite N.add_0_r in E. split; [exact R1|lia].
    - intros ([y k] & (c & R & E) & (c' & R' & E')). cbn in *. exists (c + c')%N. split; [|lia].
      apply (composed_two _ _ _ _ _ _ _ _ Sem). apply (turn_one _ _ _ y); [exact R|].
      rewrite <- (N.add_0_r c'). apply (turn_one _ _ _ (fst r)); [exact R'|constructor].
  Qed.
  Lemma chain_turn items : forall x z c d, chain den items (x, c) (z, d) <-> exists w, in_turn (map rel items) x z w /\ d = (c + w)%N.
  Proof.
    induction items as [|f items IH]; intros x z c d; cbn [chain map].
    - split; [intros [= <- <-]; exists 0%N; split; [constructor|lia]|].
      intros (w & H & ->). inversion H; subst. f_equal. lia.
    - split.
      + intros ([y k] & (w & R & E) & H). cbn in *. apply IH in H as (w' & H & ->). exists (w + w')%N. split; [|lia].
        econstructor; eassumption.
      + intros (w & H & ->). inversion H as [|r0 rs x0 y z0 c0 c' R K]; subst.
        exists (y, c + c0)%N. split; [exists c0; split; [exact R|reflexivity]|]. apply IH. exists c'. split; [exact K|lia].
  Qed.
  Lemma compose_spec items : exists f, compose composed num_states EMPTY items = Some f /\
    forall x y c, rel f x y c <-> items <> [] /\ in_turn (map rel items) x y c.
  Proof.
    destruct items as [|g items].
    - exists EMPTY. split; [reflexivity|]. intros x y c. split; [intros H; destruct (EMPTY_none _ _ _ _ _ _ _ _ Sem _ _ _ H)|intros [H _]; congruence].
    - destruct (compose_fsts_chain composed num_states den den_comp EMPTY (g :: items) ltac:(discriminate)) as (f & E & H).
      exists f. split; [exact E|]. intros x y c. specialize (H (x, 0%N) (y, c)). rewrite chain_turn in H. unfold den in H. cbn [fst snd] in H.
      split.
      + intros R. split; [discriminate|]. destruct (proj1 H) as (w & K & ->); [exists c; split; [exact R|lia]|exact K].
      + intros [_ K]. destruct (proj2 H) as (w & R & ->); [exists c; split; [exact K|lia]|exact R].
  Qed.
End FstList.

(** The semantics exists: transducers as relations. *)
Lemma semantics_exists : exists (rel : relation -> relation) no_fst accep union2 star cat composed EMPTY,
  semantics rel no_fst accep union2 star cat composed EMPTY.
Proof.
  exists (fun r => r), (fun _ _ _ => False), (fun s x y c => x = s /\ y = s /\ c = 0%N),
    (fun l x y c => exists f, In f l /\ f x y c), (fun f x y c => exists n, in_sequence (repeat f n) x y c),
    (fun f g => in_sequence [f; g]), (fun f g => in_turn [f; g]), (fun _ _ _ => False).
  constructor; try reflexivity; intros x y c [].
Qed.
Lemma make_documented : exists (maker : list (value nat) -> nat) tuples,
  make (fun _ => 0) maker [VTuple (map VTuple tuples)] <> make (fun _ => 0) maker (map VTuple tuples).
Proof. exists (fun l => length l), [[VAtom 1]; [VAtom 2]]. vm_compute. discriminate. Qed.
