From Coq Require Import String List NArith Bool Lia PeanoNat.
From Verif Require Import Base RuleModel RegexModel IsoModel AlignModel AlignSpec NatModel NatSpec NatBytes PhonTables PhonModel PhonTableProofs PhonTextModel PhonTextSpec PhonTextProofs.
Import ListNotations.
Local Open Scope string_scope.
Local Open Scope list_scope.

Lemma str_eq a b : str_eqb a b = true <-> a = b.
Proof. exact (str_eqb_eq a b). Qed.
Lemma tok_eq a b : tok_eqb a b = true <-> a = b.
Proof. destruct a, b; cbn; try (rewrite str_eq); split; congruence. Qed.
Lemma word_eq a b : word_eqb a b = true <-> a = b.
Proof.
  revert b. induction a as [|x a IH]; intros [|y b]; cbn; try (split; congruence). destruct (tok_eqb x y) eqn:E.
  - apply tok_eq in E. subst. rewrite IH. split; congruence.
  - split; [discriminate|]. intros [= -> ->]. rewrite (proj2 (tok_eq y y) eq_refl) in E. discriminate.
Qed.
Definition shapedb (c : tok) (w : word) : bool :=
  match w with
  | [t] => negb (tok_eqb t c)
  | [t; d; u] => if tok_eqb d c then if tok_eqb t c then false else negb (tok_eqb u c) else false
  | _ => false
  end.
Lemma ntok a b : negb (tok_eqb a b) = true -> a <> b.
Proof. intros H ->. rewrite (proj2 (tok_eq b b) eq_refl) in H. discriminate. Qed.
Lemma shapedb_ok c w : shapedb c w = true -> shaped c w.
Proof.
  destruct w as [|t [|d [|u [|]]]]; cbn; try discriminate.
  - intro H. left. exists t. split; [reflexivity|now apply ntok].
  - destruct (tok_eqb d c) eqn:D; [|discriminate]. destruct (tok_eqb t c) eqn:T; [discriminate|]. intro H. apply tok_eq in D. subst d. right. exists t, u.
    split; [reflexivity|]. split; [apply ntok; now rewrite T|now apply ntok].
Qed.
Definition inK (K : list (word * word)) (l r : word) : bool := existsb (fun q => if word_eqb (fst q) l then word_eqb (snd q) r else false) K.
Lemma inK_ok K l r : inK K l r = true -> In (l, r) K.
Proof.
  unfold inK. intro H. apply existsb_exists in H as [[a b] [I H]]. cbn [fst snd] in H. destruct (word_eqb a l) eqn:E; [|discriminate]. apply word_eq in E, H. now subst.
Qed.
Definition hasK (K : list (word * word)) (l : word) : bool := existsb (fun q => word_eqb (fst q) l) K.
Lemma hasK_no K l : hasK K l = false -> forall r, ~ In (l, r) K.
Proof. intros H r I. assert (hasK K l = true); [|congruence]. apply existsb_exists. exists (l, r). split; [exact I|]. now apply word_eq. Qed.
Definition okK (c : tok) (K : list (word * word)) : bool := if forallb (fun q => shapedb c (fst q)) K then distinct word_eqb (map fst K) else false.
Lemma okK_shaped c K : okK c K = true -> forall l r, In (l, r) K -> shaped c l.
Proof.
  unfold okK. destruct (forallb (fun q => shapedb c (fst q)) K) eqn:E; [|discriminate]. intros _ l r I. rewrite forallb_forall in E. apply shapedb_ok. exact (E _ I).
Qed.
Lemma okK_unique c K : okK c K = true -> forall l r r', In (l, r) K -> In (l, r') K -> r = r'.
Proof.
  unfold okK. destruct (forallb (fun q => shapedb c (fst q)) K); [|discriminate]. intro D. apply (distinct_spec _ _ word_eq) in D. revert D. clear.
  induction K as [|[a b] K IH]; cbn; intros D l r r' A B; [destruct A|]. inversion D as [|? ? N D']; subst.
  destruct A as [A|A], B as [B|B]; [congruence| | |eauto].
  - exfalso. apply N. apply in_map_iff. exists (l, r'). split; [cbn; congruence|exact B].
  - exfalso. apply N. apply in_map_iff. exists (l, r). split; [cbn; congruence|exact A].
Qed.
Definition head_is (k : string) (p : phon) : bool := match ftr (body p) with x :: _ => String.eqb x k | [] => false end.
Lemma head_is_ok k p : head_is k p = true <-> hd_error (ftr (body p)) = Some k.
Proof. unfold head_is. destruct (ftr (body p)) as [|x l]; cbn; [split; discriminate|]. rewrite String.eqb_eq. split; congruence. Qed.

(** ** Base *)
Definition base_ok (K : list (word * word)) (p : phon) : bool :=
  match get "base" (tr_dict (body p)) with
  | Some (Text x) =>
      if inK K (symbols (body p)) (letters_of_names x) then
      match cmp p with
      | [_] => match symbols (body p) with [_] => true | _ => false end
      | [a; b] =>
          match symbols (body p), symbols a, symbols b, get "base" (tr_dict a), get "base" (tr_dict b) with
          | [t; _; u], [t'], [u'], Some (Text y), Some (Text z) =>
              if tok_eqb t t' then if tok_eqb u u' then if inK K [t] (letters_of_names y) then
                if inK K [u] (letters_of_names z) then word_eqb (letters_of_names x) (letters_of_names y ++ letters_of_names z) else false else false else false else false
          | _, _, _, _, _ => false
          end
      | _ => false
      end else false
  | _ => false
  end.
Lemma base_result K p : okK plus K = true -> base_ok K p = true -> shaped plus (symbols (body p)) /\ forall o, result plus K (symbols (body p)) o <-> base_piece p o.
Proof.
  intros O H. pose proof (okK_unique _ _ O) as U. unfold base_ok in H. destruct (get "base" (tr_dict (body p))) as [[|x]|] eqn:G; try discriminate.
  destruct (inK K (symbols (body p)) (letters_of_names x)) eqn:IX; [|discriminate]. apply inK_ok in IX. split; [exact (okK_shaped _ _ O _ _ IX)|]. intro o.
  pose proof (okK_shaped _ _ O _ _ IX) as S.
  destruct (cmp p) as [|a [|b [|]]] eqn:C; try discriminate.
  - destruct (symbols (body p)) as [|t [|]] eqn:E; try discriminate. split.
    + intros [(t' & [= <-] & [A|[N _]])|(t' & u & E' & _)]; [|now destruct (N _ IX)|discriminate]. rewrite (U _ _ _ A IX). exists x. split; [exact G|now left].
    + intros (x' & G' & Q). rewrite G in G'. injection G' as <-. destruct Q as [->|(a' & b' & y & z & C' & _)]; [|rewrite C in C'; discriminate]. left. exists t. split; [reflexivity|now left].
  - destruct (symbols (body p)) as [|t [|d [|u [|]]]] eqn:E; try discriminate. destruct (symbols a) as [|t' [|]]; try discriminate. destruct (symbols b) as [|u' [|]]; try discriminate.
    destruct (get "base" (tr_dict a)) as [[|y]|] eqn:GA; try discriminate. destruct (get "base" (tr_dict b)) as [[|z]|] eqn:GB; try discriminate.
    destruct (tok_eqb t t') eqn:T; [|discriminate]. destruct (tok_eqb u u') eqn:V; [|discriminate]. destruct (inK K [t] _) eqn:IY; [|discriminate]. destruct (inK K [u] _) eqn:IZ; [|discriminate].
    apply inK_ok in IY, IZ. clear H. destruct S as [(t0 & E0 & _)|(t0 & u0 & E0 & _)]; [discriminate|]. injection E0 as -> -> ->. split.
    + intros [(t1 & E' & _)|(t1 & u1 & E' & Q)]; [discriminate|]. injection E' as <- <-. exists x. split; [exact G|]. destruct Q as [A|(m & n & -> & N & [A|(NA & _)])].
      * left. exact (U _ _ _ A IX).
      * right. exists a, b, y, z. repeat (split; [assumption|]). rewrite (U _ _ _ A IY). destruct N as [N|[N _]]; [now rewrite (U _ _ _ N IZ)|now destruct (N _ IZ)].
      * now destruct (NA _ IY).
    + intros (x' & G' & Q). rewrite G in G'. injection G' as <-. right. exists t0, u0. split; [reflexivity|].
      destruct Q as [->|(a' & b' & y' & z' & C' & GA' & GB' & ->)]; [now left|]. rewrite C in C'. injection C' as <- <-. rewrite GA in GA'. rewrite GB in GB'. injection GA' as <-. injection GB' as <-.
      right. exists (letters_of_names y), (letters_of_names z). split; [reflexivity|]. split; [now left|now left].
Qed.
Lemma base_sum K p : base_ok K p = true -> forall a b, cmp p = [a; b] -> exists x y z, get "base" (tr_dict (body p)) = Some (Text x) /\
  get "base" (tr_dict a) = Some (Text y) /\ get "base" (tr_dict b) = Some (Text z) /\ letters_of_names x = letters_of_names y ++ letters_of_names z.
Proof.
  unfold base_ok. intros H a b C. rewrite C in H. destruct (get "base" (tr_dict (body p))) as [[|x]|]; try discriminate. destruct (inK K _ (letters_of_names x)); [|discriminate].
  destruct (symbols (body p)) as [|t [|d [|u [|]]]]; try discriminate. destruct (symbols a) as [|t' [|]]; try discriminate. destruct (symbols b) as [|u' [|]]; try discriminate.
  destruct (get "base" (tr_dict a)) as [[|y]|]; try discriminate. destruct (get "base" (tr_dict b)) as [[|z]|]; try discriminate.
  destruct (tok_eqb t t'); [|discriminate]. destruct (tok_eqb u u'); [|discriminate]. destruct (inK K [t] _); [|discriminate]. destruct (inK K [u] _); [|discriminate].
  apply word_eq in H. exists x, y, z. auto.
Qed.

(** ** Classes *)
Definition class_ok (k : string) (K : list (word * word)) (p : phon) : bool :=
  if head_is k p then match get k (tr_dict (body p)) with Some (Text [x]) => inK K (symbols (body p)) (letters_of_names [x]) | _ => false end
  else if hasK K (symbols (body p)) then false else match symbols (body p) with [t; _; u] => if hasK K [t] then false else negb (hasK K [u]) | _ => true end.
Lemma class_result k K p : okK plus K = true -> forallb (fun q : word * word => match fst q with [_; _; _] => true | _ => false end) K = true -> shaped plus (symbols (body p)) -> class_ok k K p = true ->
  forall o, result plus K (symbols (body p)) o <-> class_piece k p o.
Proof.
  intros O L S H o. pose proof (okK_unique _ _ O) as U. rewrite forallb_forall in L.
  assert (L1 : forall t r, ~ In ([t], r) K). { intros t r I. specialize (L _ I). discriminate. }
  assert (ONE : forall t x, one K t x <-> x = [t]). { intros t x. split; [intros [I|[_ E]]; [now destruct (L1 t x)|exact E]|intros ->; right; split; [apply L1|reflexivity]]. }
  unfold class_ok in H. destruct (head_is k p) eqn:E.
  - apply head_is_ok in E. destruct (get k (tr_dict (body p))) as [[|[|x [|]]]|] eqn:G; try discriminate. apply inK_ok in H. split.
    + intro R. left. split; [exact E|]. exists [x]. split; [exact G|]. destruct R as [(t & Et & R)|(t & u & Et & [A|(a & b & -> & _ & [A|(_ & N & _)])])].
      * rewrite Et in H. now destruct (L1 t (letters_of_names [x])).
      * exact (U _ _ _ A H).
      * now destruct (L1 t a).
      * now destruct (N _ H).
    + intros [(_ & x' & G' & ->)|(N & _)]; [|contradiction]. rewrite G in G'. injection G' as <-. destruct S as [(t & Et & _)|(t & u & Et & _)].
      * rewrite Et in H. now destruct (L1 t (letters_of_names [x])).
      * right. exists t, u. split; [exact Et|now left].
  - assert (NE : hd_error (ftr (body p)) <> Some k). { intro Q. apply head_is_ok in Q. congruence. }
    destruct (hasK K (symbols (body p))) eqn:HK; [discriminate|]. pose proof (hasK_no _ _ HK) as N. split.
    + intro R. right. split; [exact NE|]. destruct R as [(t & Et & R)|(t & u & Et & [A|(a & b & -> & B & [A|(_ & _ & ->)])])].
      * apply ONE in R. congruence.
      * now destruct (N o).
      * now destruct (L1 t a).
      * apply ONE in B. subst b. now rewrite Et.
    + intros [(Q & _)|(_ & ->)]; [contradiction|]. destruct S as [(t & Et & _)|(t & u & Et & _)].
      * left. exists t. split; [exact Et|]. rewrite Et. now apply ONE.
      * right. exists t, u. split; [exact Et|]. right. exists [t], [u]. rewrite Et in *. split; [reflexivity|]. split; [now apply ONE|]. right. split; [apply L1|]. split; [exact N|reflexivity].
Qed.
