(** The wordpiece transducer. *)
From Verif Require Import Base Utf8Model Utf8Spec DelimModel DelimSpec WordpieceModel WordpieceSpec
  WordpieceProofs TransducerSpec.

(** State [k] of the chain of a word whose first fresh state is [b]. *)
Definition st (b k : nat) : nat := match k with O => 0 | S k' => b + k' end.

(** (word label, piece labels, first fresh state) *)
Definition block := (nat * list nat * nat)%type.
Fixpoint blocks (n : nat) (l : list (nat * list nat)) : list block :=
  match l with [] => [] | (w, ls) :: l' => (w, ls, n) :: blocks (n + length ls) l' end.

Fixpoint chain (cur n : nat) (ls : list nat) : list arc :=
  match ls with [] => [] | l :: ls' => (cur, 0, l, n) :: chain n (S n) ls' end.
Definition block_arcs (x : block) : list arc :=
  match x with (w, ls, b) => chain 0 b ls ++ [(st b (length ls), w, 0, 0)] end.

Section Build.
  Variable find_word : nat -> str.
  Variable find_piece : str -> option nat.
  Variable unk : str.

  Lemma add_pieces_ok ps : forall f cur f' q, add_pieces find_piece unk f cur ps = Ok (f', q) ->
    exists ls, Forall2 (piece_label find_piece unk) ps ls /\ num_states f' = num_states f + length ls /\
      arcs f' = arcs f ++ chain cur (num_states f) ls /\
      q = match ls with [] => cur | _ => num_states f + length ls - 1 end.
  Proof.
    induction ps as [|p ps IH]; intros f cur f' q H; cbn [add_pieces] in H.
    - injection H as <- <-. exists []. simpl. rewrite app_nil_r. repeat split; auto.
    - destruct (match find_piece p with Some i => Some i | None => find_piece unk end) as [l|] eqn:E; [|discriminate].
      apply IH in H as (ls & F & N & A & Q). cbn [num_states arcs] in *. exists (l :: ls). split; [|split; [|split]].
      + apply Forall2_cons; auto. unfold piece_label. destruct (find_piece p) as [i|]; [left|right]; auto.
      + rewrite N. simpl. lia.
      + rewrite A, <- app_assoc. reflexivity.
      + rewrite Q. destruct ls; simpl; lia.
  Qed.

  Lemma add_words_ok m ws : forall f g, 0 < num_states f -> add_words find_word find_piece unk m f ws = Ok g ->
    exists l, map fst l = ws /\
      Forall (fun x => exists ps, GetWordpieces m (find_word (fst x)) = Ok ps /\
                Forall2 (piece_label find_piece unk) ps (snd x)) l /\
      arcs g = arcs f ++ flat_map block_arcs (blocks (num_states f) l).
  Proof.
    induction ws as [|w ws IH]; intros f g Hn H; cbn [add_words] in H.
    - injection H as <-. exists []. simpl. rewrite app_nil_r. repeat split; auto.
    - destruct (GetWordpieces m (find_word w)) as [| | | |ps] eqn:E1; try discriminate. cbn [bind] in H.
      destruct (add_pieces find_piece unk f 0 ps) as [| | | |[f' q]] eqn:E2; try discriminate. cbn [bind fst snd] in H.
      apply add_pieces_ok in E2 as (ls & F & N & A & Q).
      apply IH in H as (l & L1 & L2 & L3); [|cbn [num_states]; lia]. cbn [num_states arcs] in *.
      exists ((w, ls) :: l). split; [simpl; congruence|]. split; [constructor; auto; exists ps; auto|].
      rewrite L3, A, N. cbn [blocks flat_map block_arcs].
      replace (st (num_states f) (length ls)) with q by (rewrite Q; destruct ls; simpl; lia).
      rewrite <- !app_assoc. reflexivity.
  Qed.
End Build.

Lemma chain_in cur n ls q i o r : In (q, i, o, r) (chain cur n ls) <->
  exists k, i = 0 /\ nth_error ls k = Some o /\ r = n + k /\ q = match k with O => cur | S k' => n + k' end.
Proof.
  revert cur n; induction ls as [|l ls IH]; intros cur n; simpl.
  - split; [tauto|]. intros ([|k] & _ & H & _); discriminate.
  - rewrite IH. split.
    + intros [H|(k & -> & H & -> & ->)].
      * injection H as <- <- <- <-. exists 0. repeat split; simpl; auto; lia.
      * exists (S k). repeat split; auto; [lia|]. destruct k; lia.
    + intros ([|k] & -> & H & -> & ->).
      * left. simpl in H. injection H as ->. repeat f_equal. lia.
      * right. exists k. repeat split; auto; [lia|]. destruct k; lia.
Qed.

Lemma block_in w ls b q i o r : In (q, i, o, r) (block_arcs (w, ls, b)) <->
  exists k, q = st b k /\
    ((i = 0 /\ nth_error ls k = Some o /\ r = st b (S k)) \/ (k = length ls /\ i = w /\ o = 0 /\ r = 0)).
Proof.
  unfold block_arcs. rewrite in_app_iff, chain_in. simpl. split.
  - intros [(k & -> & H & -> & ->)|[H|[]]].
    + exists k. split; [destruct k; reflexivity|]. left. auto.
    + injection H as <- <- <- <-. exists (length ls). auto 10.
  - intros (k & -> & [(-> & H & ->)|(-> & -> & -> & ->)]).
    + left. exists k. repeat split; auto.
    + right. left. reflexivity.
Qed.

Lemma blocks_bounds n l w ls b : In (w, ls, b) (blocks n l) -> n <= b.
Proof.
  revert n; induction l as [|[v vs] l IH]; intros n H; simpl in H; [tauto|].
  destruct H as [H|H]; [injection H as <- <- <-; lia|]. apply IH in H. lia.
Qed.

Lemma blocks_disjoint n l w ls b w' ls' b' k k' : In (w, ls, b) (blocks n l) -> In (w', ls', b') (blocks n l) ->
  k < length ls -> k' < length ls' -> b + k = b' + k' -> (w, ls, b) = (w', ls', b').
Proof.
  revert n; induction l as [|[v vs] l IH]; intros n H H' L L' E; simpl in *; [tauto|].
  destruct H as [H|H]; destruct H' as [H'|H'].
  - congruence.
  - injection H as <- <- <-. apply blocks_bounds in H'. lia.
  - injection H' as <- <- <-. apply blocks_bounds in H. lia.
  - eapply IH; eauto.
Qed.

Lemma blocks_words n l : map fst (blocks n l) = l.
Proof. revert n; induction l as [|[w ls] l IH]; intros n; simpl; congruence. Qed.

Section Paths.
  Variable l : list (nat * list nat).
  Notation A := (flat_map block_arcs (blocks 1 l)).

  Lemma path_app q is os r is' os' t : path A q is os r -> path A r is' os' t -> path A q (is ++ is') (os ++ os') t.
  Proof. induction 1; simpl; auto. intros. eapply path_cons; eauto. Qed.

  (** Along a chain. *)
  Lemma chain_path w ls b : In (w, ls, b) (blocks 1 l) -> forall n k, k + n = length ls ->
    exists is os, path A (st b k) is os 0 /\ drop_epsilon is = drop_epsilon [w] /\ drop_epsilon os = drop_epsilon (skipn k ls).
  Proof.
    intros Hb. induction n as [|n IH]; intros k E.
    - exists [w], [0]. split; [|split; [reflexivity|]].
      + eapply path_cons; [|apply path_nil]. apply in_flat_map. exists (w, ls, b). split; auto.
        apply block_in. exists k. split; auto. right. repeat split; auto. lia.
      + rewrite skipn_all2 by lia. reflexivity.
    - destruct (IH (S k) ltac:(lia)) as (is & os & P & I & O).
      destruct (nth_error ls k) as [o|] eqn:Eo; [|apply nth_error_None in Eo; lia].
      exists (0 :: is), (o :: os). split; [|split].
      + eapply path_cons; [|exact P]. apply in_flat_map. exists (w, ls, b). split; auto.
        apply block_in. exists k. split; auto.
      + simpl. exact I.
      + assert (skipn k ls = o :: skipn (S k) ls) as ->.
        { clear -Eo. revert ls Eo; induction k as [|k IH]; intros [|x ls] H; try discriminate.
          - simpl in H. injection H as ->. reflexivity.
          - simpl in *. apply IH. exact H. }
        simpl. rewrite O. reflexivity.
  Qed.

  Lemma words_path ws : Forall (fun x => In x l) ws ->
    exists is os, path A 0 is os 0 /\ drop_epsilon is = drop_epsilon (map fst ws) /\
      drop_epsilon os = drop_epsilon (concat (map snd ws)).
  Proof.
    induction 1 as [|[w ls] ws Hw HF (is & os & P & I & O)].
    - exists [], []. split; [apply path_nil|auto].
    - rewrite <- (blocks_words 1 l) in Hw. apply in_map_iff in Hw as ([x b] & E & Hb). simpl in E. subst x.
      destruct (chain_path w ls b Hb (length ls) 0 eq_refl) as (is1 & os1 & P1 & I1 & O1).
      exists (is1 ++ is), (os1 ++ os). split; [eapply path_app; eauto|].
      unfold drop_epsilon in *. cbn [map concat fst snd]. rewrite !filter_app, I1, O1, I, O. split; auto.
      rewrite <- filter_app. reflexivity.
  Qed.

  Lemma path_words is : forall q os, path A q is os 0 ->
    match q with
    | 0 => exists ws, Forall (fun x => In x l) ws /\ drop_epsilon is = drop_epsilon (map fst ws) /\
             drop_epsilon os = drop_epsilon (concat (map snd ws))
    | S _ => forall w ls b k, In (w, ls, b) (blocks 1 l) -> k < length ls -> q = st b (S k) ->
        exists ws, Forall (fun x => In x l) ws /\ drop_epsilon is = drop_epsilon (w :: map fst ws) /\
             drop_epsilon os = drop_epsilon (skipn (S k) ls ++ concat (map snd ws))
    end.
  Proof.
    induction is as [|i is IH]; intros q os P; inversion P as [|? ? o r ? os' ? Hin P']; subst.
    - exists []. auto.
    - apply IH in P'. apply in_flat_map in Hin as ([[w ls] b] & Hb & Hin).
      apply block_in in Hin as (k & Eq & Hk).
      assert (1 <= b) as Lb by (eapply blocks_bounds; eauto).
      (* what the rest of the block and of the path give *)
      assert (exists ws, Forall (fun x => In x l) ws /\
        drop_epsilon (i :: is) = drop_epsilon (w :: map fst ws) /\
        drop_epsilon (o :: os') = drop_epsilon (skipn k ls ++ concat (map snd ws))) as (ws & F & I & O).
      { destruct Hk as [(-> & Ho & ->)|(-> & -> & -> & ->)].
        - assert (k < length ls) as L by (apply nth_error_Some; congruence).
          cbn [st] in P'. destruct (b + k) as [|n] eqn:Ebk; [lia|].
          destruct (P' w ls b k Hb L) as (ws & F & I & O); [simpl; lia|].
          exists ws. split; [exact F|]. split; [exact I|].
          assert (skipn k ls = o :: skipn (S k) ls) as ->.
          { clear -Ho. revert ls Ho; induction k as [|k IH]; intros [|x ls] H; try discriminate.
            - simpl in H. injection H as ->. reflexivity.
            - simpl in *. apply IH. exact H. }
          simpl. simpl in O. rewrite O. reflexivity.
        - destruct P' as (ws & F & I & O). exists ws. split; [exact F|]. split.
          + unfold drop_epsilon in *. simpl. rewrite I. reflexivity.
          + rewrite skipn_all. simpl. exact O. }
      destruct q as [|q].
      + exists ((w, ls) :: ws). assert (k = 0) as -> by (destruct k; [auto|simpl in Eq; lia]).
        split; [constructor; auto|split; [exact I|exact O]].
        rewrite <- (blocks_words 1 l). apply in_map_iff. exists (w, ls, b). auto.
      + intros w' ls' b' k' Hb' L' Eq'. destruct k as [|k]; [discriminate|].
        assert (k < length ls) as L.
        { destruct Hk as [(_ & Ho & _)|(<- & _)]; [|lia].
          assert (S k < length ls) by (apply nth_error_Some; congruence). lia. }
        assert ((w, ls, b) = (w', ls', b')) as E.
        { apply (blocks_disjoint 1 l w ls b w' ls' b' k k'); auto. simpl in *. lia. }
        injection E as <- <- <-. assert (k = k') as <- by (simpl in *; lia).
        exists ws. auto.
  Qed.
End Paths.

Lemma transducer_relation find_word find_piece unk m ws g :
  GetWordpieceTransducer find_word find_piece unk m ws = Ok g ->
  exists l, map fst l = ws /\
    Forall (fun x => exists ps, GetWordpieces m (find_word (fst x)) = Ok ps /\
              Forall2 (piece_label find_piece unk) ps (snd x)) l /\
    forall ins outs, transduces g ins outs <->
      exists xs, Forall (fun x => In x l) xs /\ ins = drop_epsilon (map fst xs) /\
        outs = drop_epsilon (concat (map snd xs)).
Proof.
  intros H. apply add_words_ok in H as (l & L1 & L2 & L3); [|simpl; lia]. cbn [arcs num_states app] in L3.
  exists l. split; [exact L1|]. split; [exact L2|]. intros ins outs. unfold transduces. rewrite L3. split.
  - intros (is & os & P & -> & ->). apply (path_words l is 0 os P).
  - intros (xs & F & -> & ->). destruct (words_path l xs F) as (is & os & P & I & O).
    exists is, os. auto.
Qed.

Lemma add_pieces_total find_piece unk u ps : find_piece unk = Some u ->
  forall f cur, exists fq, add_pieces find_piece unk f cur ps = Ok fq.
Proof.
  intros Hu. induction ps as [|p ps IH]; intros f cur; cbn [add_pieces]; [eauto|].
  destruct (find_piece p); [apply IH|]. rewrite Hu. apply IH.
Qed.

Lemma transducer_total find_word find_piece unk u vocab wip cp ws :
  find_piece unk = Some u -> encoding cp (prefix (InitWordpieces wip vocab)) ->
  Forall (fun w => well_formed_utf8 (find_word w)) ws ->
  exists g, GetWordpieceTransducer find_word find_piece unk (InitWordpieces wip vocab) ws = Ok g.
Proof.
  intros Hu Hp H. unfold GetWordpieceTransducer. generalize (Transducer 1 []).
  induction H as [|w ws (cs & ps & Hs) HF IH]; intros f; cbn [add_words]; [eauto|].
  destruct (wordpieces_ok vocab wip cp cs (find_word w) Hp) as (l & outs & _ & _ & E); [exists ps; exact Hs|].
  rewrite E. cbn [bind]. destruct (add_pieces_total find_piece unk u (concat outs) Hu f 0) as (fq & ->).
  cbn [bind]. apply IH.
Qed.
