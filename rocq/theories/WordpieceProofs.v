(** The merge loop refines greedy merging. *)
From Verif Require Import Base Utf8Model Utf8Spec Utf8Arith Utf8Proofs DelimModel DelimSpec DelimProofs
  WordpieceModel WordpieceSpec.

(** ** Ranks *)
Lemma find_rank_app a b w : find_rank (a ++ b) w =
  match find_rank a w with Some r => Some r | None => find_rank b w end.
Proof. induction a as [|[v r] a IH]; simpl; auto. destruct (str_eqb v w); auto. Qed.

Lemma find_insert rs v r w : find_rank (insert_rank rs v r) w =
  match find_rank rs w with Some x => Some x | None => if str_eqb v w then Some r else None end.
Proof.
  unfold insert_rank. destruct (find_rank rs v) as [x|] eqn:E.
  - destruct (find_rank rs w) eqn:F; auto. destruct (str_eqb v w) eqn:G; auto.
    apply str_eqb_eq in G. subst. congruence.
  - rewrite find_rank_app. destruct (find_rank rs w); auto.
Qed.

Fixpoint index_from (n : nat) (w : str) (l : list str) : option nat :=
  match l with [] => None | v :: l' => if str_eqb v w then Some n else index_from (S n) w l' end.

Lemma find_insert_all l : forall rs n w, find_rank (insert_all rs n l) w =
  match find_rank rs w with Some x => Some x | None => index_from n w l end.
Proof.
  induction l as [|v l IH]; intros rs n w; simpl.
  - destruct (find_rank rs w); auto.
  - rewrite IH, find_insert. destruct (find_rank rs w); auto. destruct (str_eqb v w); auto.
Qed.

Lemma index_from_spec w l : forall n r, index_from n w l = Some r <-> exists k, r = n + k /\ rank l w k.
Proof.
  unfold rank. induction l as [|v l IH]; intros n r; simpl.
  - split; [discriminate|]. intros (k & _ & H & _). destruct k; discriminate.
  - destruct (str_eqb v w) eqn:E.
    + apply str_eqb_eq in E. subst v. split.
      * intros H. injection H as <-. exists 0. split; [lia|]. split; [reflexivity|]. intros k Hk. lia.
      * intros (k & -> & _ & H). destruct k as [|k]; [f_equal; lia|].
        exfalso. apply (H 0); [lia|reflexivity].
    + apply str_eqb_neq in E. rewrite IH. split.
      * intros (k & -> & H1 & H2). exists (S k). split; [lia|]. split; [exact H1|].
        intros [|j] Hj; simpl; [congruence|]. apply H2. lia.
      * intros ([|k] & -> & H1 & H2); [simpl in H1; congruence|]. exists k. split; [lia|]. split; [exact H1|].
        intros j Hj. apply (H2 (S j)). lia.
Qed.

Lemma find_rank_spec vocab w r : find_rank (insert_all [] 0 vocab) w = Some r <-> rank vocab w r.
Proof.
  rewrite find_insert_all. simpl. rewrite index_from_spec. split.
  - intros (k & -> & H). exact H.
  - intros H. exists r. auto.
Qed.

Lemma index_from_none w l : forall n, index_from n w l = None <-> ~ In w l.
Proof.
  induction l as [|v l IH]; intros n; simpl; [tauto|].
  destruct (str_eqb v w) eqn:E.
  - apply str_eqb_eq in E. split; [discriminate|]. tauto.
  - apply str_eqb_neq in E. rewrite IH. tauto.
Qed.

Lemma find_rank_none vocab w : find_rank (insert_all [] 0 vocab) w = None <-> ~ In w vocab.
Proof. rewrite find_insert_all. simpl. apply index_from_none. Qed.

Lemma rank_In vocab w r : rank vocab w r -> In w vocab.
Proof. intros [H _]. eapply nth_error_In; eauto. Qed.

Lemma rank_fun vocab w r r' : rank vocab w r -> rank vocab w r' -> r = r'.
Proof.
  intros [H1 H2] [H3 H4]. destruct (lt_eq_lt_dec r r') as [[L|L]|L]; auto; exfalso.
  - eapply H4; eauto.
  - eapply H2; eauto.
Qed.

(** ** Greedy merging is deterministic *)
Lemma split_at_len {A} (p p' : list A) q q' : p ++ q = p' ++ q' -> length p = length p' -> p = p' /\ q = q'.
Proof.
  revert p'; induction p as [|x p IH]; intros [|x' p'] E L; simpl in *; try discriminate; auto.
  injection E as -> E. destruct (IH p' E ltac:(lia)) as [-> ->]. auto.
Qed.

Lemma merge_step_fun vocab s a b : merge_step vocab s a -> merge_step vocab s b -> a = b.
Proof.
  intros [pre x y post r Hr Hm] H. inversion H as [pre' x' y' post' r' Hr' Hm' E]; subst. symmetry in E.
  destruct (Hm _ _ _ _ _ E Hr') as [L|[-> L]];
    destruct (Hm' _ _ _ _ _ (eq_sym E) Hr) as [L'|[E' L']]; try lia.
  assert (length pre = length pre') as Lp by lia.
  destruct (split_at_len _ _ _ _ E Lp) as [-> Eq]. injection Eq as -> -> ->. reflexivity.
Qed.

Lemma final_no_step vocab s t : final vocab s -> merge_step vocab s t -> False.
Proof. intros F H. revert F. destruct H as [pre x y post r Hr _]. intros F. apply rank_In in Hr. exact (F pre x y post eq_refl Hr). Qed.

Lemma merges_fun vocab s a b : merges vocab s a -> final vocab a -> merges vocab s b -> final vocab b -> a = b.
Proof.
  intros H. revert b. induction H as [s|s t u Hst Htu IH]; intros b Fa Hb Fb.
  - inversion Hb as [|? t ? Ht Htb]; subst; auto. exfalso. exact (final_no_step _ _ _ Fa Ht).
  - inversion Hb as [|? t' ? Ht Htb]; subst.
    + exfalso. exact (final_no_step _ _ _ Fb Hst).
    + assert (t = t') as <- by (eapply merge_step_fun; eauto). auto.
Qed.

(** ** What merging preserves *)
Lemma merges_text vocab s t : merges vocab s t -> concat s = concat t.
Proof.
  induction 1 as [s|s t u Hst _ IH]; auto. rewrite <- IH. destruct Hst as [pre x y post r _ _].
  rewrite !concat_app. simpl. rewrite <- app_assoc. reflexivity.
Qed.

Lemma merges_pieces vocab s t : merges vocab s t ->
  Forall (fun p => In (text p) vocab \/ exists c, p = [c]) s ->
  Forall (fun p => In (text p) vocab \/ exists c, p = [c]) t.
Proof.
  induction 1 as [s|s t u Hst _ IH]; auto. intros H. apply IH. destruct Hst as [pre x y post r Hr _].
  rewrite Forall_app in *. destruct H as [H1 H2]. split; auto.
  inversion H2 as [|? ? _ H3]; inversion H3; subst. constructor; auto. left. eapply rank_In; eauto.
Qed.

Lemma singles_ok vocab chars : Forall (fun p => In (text p) vocab \/ exists c, p = [c]) (singles chars).
Proof. unfold singles. induction chars; simpl; constructor; eauto. Qed.

Lemma concat_singles chars : concat (singles chars) = chars.
Proof. unfold singles. induction chars as [|c l IH]; simpl; congruence. Qed.

Lemma concat_concat {A} (l : list (list (list A))) : concat (concat l) = concat (map (@concat A) l).
Proof. induction l as [|x l IH]; simpl; auto. rewrite concat_app, IH. reflexivity. Qed.

Lemma map_text_concat (s : list piece) : concat (map text s) = concat (concat s).
Proof. symmetry. exact (concat_concat s). Qed.

(** ** Lengths of a segmentation *)
Implicit Types pre post s : list piece.
Implicit Types x y : piece.
Implicit Types m a z chars : list str.
Definition lens (s : list piece) : list nat := flat_map (fun p => length p :: repeat 0 (length p - 1)) s.
Definition nonempty {A} (l : list (list A)) : Prop := Forall (fun p => p <> []) l.

Lemma ne_len {A} (p : list A) : p <> [] -> 0 < length p.
Proof. destruct p; [congruence|simpl; lia]. Qed.

Lemma lens_app (a b : list piece) : lens (a ++ b) = lens a ++ lens b.
Proof. apply flat_map_app. Qed.

Lemma lens_length s : nonempty s -> length (lens s) = length (concat s).
Proof.
  induction 1 as [|p s Hp Hs IH]; auto. simpl. rewrite !app_length, IH, repeat_length.
  apply ne_len in Hp. lia.
Qed.

Lemma lens_at pre x (rest : list piece) : nonempty pre ->
  nth_error (lens (pre ++ x :: rest)) (length (concat pre)) = Some (length x).
Proof.
  intros H. rewrite lens_app, <- (lens_length pre H), nth_error_app2, Nat.sub_diag by lia. reflexivity.
Qed.

Lemma lens_inside pre x (rest : list piece) k : nonempty pre -> 0 < k < length x ->
  nth_error (lens (pre ++ x :: rest)) (length (concat pre) + k) = Some 0.
Proof.
  intros H Hk. rewrite lens_app, <- (lens_length pre H), nth_error_app2 by lia.
  replace (length (lens pre) + k - length (lens pre)) with k by lia. simpl.
  destruct k as [|k]; [lia|]. simpl. rewrite nth_error_app1 by (rewrite repeat_length; lia).
  rewrite nth_error_repeat by lia. reflexivity.
Qed.

(** ** Candidates *)
Lemma row_from_at rs : forall rest w l k c, nth_error rest k = Some c ->
  nth_error (row_from rs w l rest) k = Some
    (let v := w ++ concat (firstn (S k) rest) in
     match find_rank rs v with Some r => (v, r) | None => if Nat.eqb (l + k) 1 then (c, 0) else ([], 0) end).
Proof.
  induction rest as [|d rest IH]; intros w l k c H; [destruct k; discriminate|].
  destruct k as [|k]; simpl in H.
  - injection H as ->. cbn [row_from nth_error firstn concat]. rewrite app_nil_r, Nat.add_0_r. reflexivity.
  - cbn [row_from nth_error]. rewrite (IH (w ++ d) (S l) k c H). cbv zeta.
    rewrite firstn_cons. cbn [concat]. rewrite <- app_assoc.
    replace (S l + k) with (l + S k) by lia. reflexivity.
Qed.

Lemma char_cands_at rs : forall a m z, m <> [] ->
  at_ (char_cands rs (a ++ m ++ z)) (length a) = Ok (b_wordpieces rs (m ++ z)).
Proof.
  unfold at_. induction a as [|c a IH]; intros m z Hm.
  - destruct m as [|c m]; [congruence|]. reflexivity.
  - simpl. apply IH. exact Hm.
Qed.

Lemma b_wordpieces_at rs m z c : m <> [] -> nth_error m (length m - 1) = Some c ->
  at_ (b_wordpieces rs (m ++ z)) (length m) = Ok
    match find_rank rs (concat m) with
    | Some r => (concat m, r)
    | None => if Nat.eqb (length m) 1 then (c, 0) else ([], 0)
    end.
Proof.
  intros Hm Hc. pose proof (ne_len m Hm) as L. unfold at_, b_wordpieces.
  replace (length m) with (S (length m - 1)) at 1 by lia. cbn [nth_error].
  rewrite (row_from_at rs (m ++ z) [] 1 (length m - 1) c).
  - cbv zeta. cbn [app]. replace (S (length m - 1)) with (length m) by lia.
    rewrite firstn_app, Nat.sub_diag, firstn_all. cbn [firstn]. rewrite app_nil_r.
    replace (1 + (length m - 1)) with (length m) by lia. reflexivity.
  - rewrite nth_error_app1 by lia. exact Hc.
Qed.

Lemma last_exists {A} (m : list A) : m <> [] -> exists c, nth_error m (length m - 1) = Some c.
Proof.
  intros H. apply ne_len in H. destruct (nth_error m (length m - 1)) eqn:E; eauto.
  apply nth_error_None in E. lia.
Qed.

Lemma concat_ne (m : list str) : m <> [] -> nonempty m -> concat m <> [].
Proof.
  intros H N. destruct m as [|c m]; [congruence|]. inversion N as [|? ? Hc _]; subst. simpl. destruct c; [congruence|discriminate].
Qed.

Lemma char_cands_length rs chars : length (char_cands rs chars) = length chars.
Proof. induction chars; simpl; auto. Qed.

(** ** One round *)
Section Round.
  Variable vocab : list str.
  Notation rs := (insert_all [] 0 vocab).

  Lemma seg_split (pre : list piece) x y post : concat (pre ++ x :: y :: post) =
    concat pre ++ (x ++ y) ++ concat post.
  Proof. rewrite concat_app. simpl. rewrite <- !app_assoc. reflexivity. Qed.

  Lemma consider_pair pre x y post best : nonempty (pre ++ x :: y :: post) ->
    nonempty (concat (pre ++ x :: y :: post)) ->
    consider (char_cands rs (concat (pre ++ x :: y :: post))) (lens (pre ++ x :: y :: post)) best
      (length (concat pre)) =
    Ok match find_rank rs (text (x ++ y)) with
       | Some r => if match best with None => true | Some (_, _, m) => r <? m end
                   then Some (length (concat pre), length x + length y, r) else best
       | None => best
       end.
  Proof.
    intros Hne Hc. pose proof Hne as Hne'. unfold nonempty in Hne'. rewrite Forall_app in Hne'. destruct Hne' as [Hp Hr].
    inversion Hr as [|? ? Hx Hr']; inversion Hr' as [|? ? Hy Hpo]; subst.
    pose proof (ne_len _ Hx) as Lx. pose proof (ne_len _ Hy) as Ly.
    unfold consider. unfold at_ at 1. rewrite (lens_at pre x (y :: post) Hp). cbn [bind].
    rewrite (lens_length _ Hne), seg_split, !app_length.
    replace (0 <? length x) with true by (symmetry; apply Nat.ltb_lt; lia).
    replace (length x <? length (concat pre) + (length x + length y + length (concat post)) - length (concat pre))
      with true by (symmetry; apply Nat.ltb_lt; lia).
    cbn [andb]. unfold at_ at 1.
    assert (nth_error (lens (pre ++ x :: y :: post)) (length (concat pre) + length x) = Some (length y)) as E.
    { change (pre ++ x :: y :: post) with (pre ++ [x] ++ y :: post). rewrite app_assoc.
      replace (length (concat pre) + length x) with (length (concat (pre ++ [x]))).
      - apply lens_at. apply Forall_app. split; auto.
      - rewrite concat_app, app_length. simpl. rewrite app_nil_r. reflexivity. }
    rewrite E. cbn [bind]. replace (length y <? 1) with false by (symmetry; apply Nat.ltb_ge; lia).
    assert (x ++ y <> []) as Hxy by (destruct x; [congruence|discriminate]).
    rewrite char_cands_at by exact Hxy. cbn [bind].
    destruct (last_exists (x ++ y) Hxy) as (c & Hlast).
    rewrite <- app_length. rewrite (b_wordpieces_at rs (x ++ y) (concat post) c Hxy Hlast). cbn [bind].
    fold (text (x ++ y)). replace (Nat.eqb (length (x ++ y)) 1) with false
      by (symmetry; apply Nat.eqb_neq; rewrite app_length; lia).
    destruct (find_rank rs (text (x ++ y))) as [r|]; cbn [fst snd]; [|reflexivity].
    assert (text (x ++ y) <> []) as Ht.
    { apply concat_ne; auto. rewrite seg_split in Hc. unfold nonempty in Hc.
      rewrite !Forall_app in Hc. apply Forall_app. tauto. }
    destruct (text (x ++ y)) as [|ch tl]; [congruence|].
    destruct (match best with None => true | Some (_, _, m) => r <? m end); reflexivity.
  Qed.

  Lemma consider_last pre x best : nonempty (pre ++ [x]) ->
    consider (char_cands rs (concat (pre ++ [x]))) (lens (pre ++ [x])) best (length (concat pre)) = Ok best.
  Proof.
    intros Hne. pose proof Hne as Hne'. unfold nonempty in Hne'. rewrite Forall_app in Hne'. destruct Hne' as [Hp Hr].
    unfold consider. unfold at_ at 1. rewrite (lens_at pre x [] Hp). cbn [bind].
    rewrite (lens_length _ Hne), concat_app, app_length. simpl. rewrite app_nil_r.
    replace (length x <? length (concat pre) + length x - length (concat pre)) with false
      by (symmetry; apply Nat.ltb_ge; lia).
    rewrite andb_false_r. reflexivity.
  Qed.

  Lemma consider_inside cs pre x (rest : list piece) best k : nonempty pre -> 0 < k < length x ->
    consider cs (lens (pre ++ x :: rest)) best (length (concat pre) + k) = Ok best.
  Proof.
    intros Hp Hk. unfold consider. unfold at_ at 1. rewrite (lens_inside pre x rest k Hp Hk). reflexivity.
  Qed.

  Lemma consider_skip cs pre x (rest : list piece) : nonempty pre -> forall n k best, 0 < k -> k + n <= length x ->
    fold_left (fun acc b => bind acc (fun best => consider cs (lens (pre ++ x :: rest)) best b))
      (seq (length (concat pre) + k) n) (Ok best) = Ok best.
  Proof.
    intros Hp. induction n as [|n IH]; intros k best Hk Hn; [reflexivity|].
    cbn [seq fold_left bind]. rewrite consider_inside by (auto; lia).
    rewrite <- Nat.add_succ_r. apply IH; lia.
  Qed.

  (** The best merge among those starting before position [k] of [s]. *)
  Definition best_upto (s : list piece) (k : nat) (best : option (nat * nat * nat)) : Prop :=
    match best with
    | None => forall pre x y post, s = pre ++ x :: y :: post -> length pre < k -> ~ In (text (x ++ y)) vocab
    | Some (b, l, r) => exists pre x y post, s = pre ++ x :: y :: post /\ b = length (concat pre) /\
        l = length x + length y /\ rank vocab (text (x ++ y)) r /\
        (length pre < k) /\
        forall pre' x' y' post' r', s = pre' ++ x' :: y' :: post' -> length pre' < k ->
          rank vocab (text (x' ++ y')) r' -> r < r' \/ (r = r' /\ length pre <= length pre')
    end.

  Lemma best_extend_none s k best pre x (rest : list piece) : s = pre ++ x :: rest -> length pre = k ->
    (forall y post, rest = y :: post -> ~ In (text (x ++ y)) vocab) ->
    best_upto s k best -> best_upto s (S k) best.
  Proof.
    intros Es Ek Hno H.
    assert (forall pre' x' y' post', s = pre' ++ x' :: y' :: post' -> length pre' < S k ->
      In (text (x' ++ y')) vocab -> length pre' < k) as Hk.
    { intros pre' x' y' post' E L Hin. destruct (Nat.eq_dec (length pre') k) as [Eq|]; [|lia]. exfalso.
      rewrite Es in E. destruct (split_at_len pre pre' _ _ E ltac:(lia)) as [_ E2].
      injection E2 as -> ->. eapply Hno; eauto. }
    destruct best as [[[b l] r]|]; simpl in *.
    - destruct H as (p & x0 & y0 & q & E & Eb & El & Hr & Lp & Hm).
      exists p, x0, y0, q. split; [exact E|]. split; [exact Eb|]. split; [exact El|]. split; [exact Hr|].
      split; [lia|]. intros pre' x' y' post' r' E' L' Hr'. eapply Hm; eauto.
      eapply Hk; eauto. eapply rank_In; eauto.
    - intros pre' x' y' post' E L Hin. eapply H; eauto.
  Qed.

  Lemma best_extend_pair s k best pre x y post r : s = pre ++ x :: y :: post -> length pre = k ->
    rank vocab (text (x ++ y)) r -> best_upto s k best ->
    best_upto s (S k) (if match best with None => true | Some (_, _, m) => r <? m end
                       then Some (length (concat pre), length x + length y, r) else best).
  Proof.
    intros Es Ek Hr H.
    assert (forall pre' x' y' post' r', s = pre' ++ x' :: y' :: post' -> length pre' < S k ->
      rank vocab (text (x' ++ y')) r' -> length pre' < k \/ (r' = r /\ length pre' = length pre)) as Hk.
    { intros pre' x' y' post' r' E L Hr'. destruct (Nat.eq_dec (length pre') k) as [Eq|]; [right|left; lia].
      rewrite Es in E. destruct (split_at_len pre pre' _ _ E ltac:(lia)) as [-> E2].
      injection E2 as -> -> ->. split; auto. eapply rank_fun; eauto. }
    destruct best as [[[b l] m]|].
    - destruct H as (p & x0 & y0 & q & E & Eb & El & Hm0 & Lp & Hm).
      destruct (Nat.ltb_spec r m) as [L|L].
      + exists pre, x, y, post. split; [exact Es|]. split; [reflexivity|]. split; [reflexivity|]. split; [exact Hr|].
        split; [lia|]. intros pre' x' y' post' r' E' L' Hr'.
        destruct (Hk _ _ _ _ _ E' L' Hr') as [Q|[-> Q]]; [|right; lia].
        destruct (Hm _ _ _ _ _ E' Q Hr'); lia.
      + exists p, x0, y0, q. split; [exact E|]. split; [exact Eb|]. split; [exact El|]. split; [exact Hm0|].
        split; [lia|]. intros pre' x' y' post' r' E' L' Hr'.
        destruct (Hk _ _ _ _ _ E' L' Hr') as [Q|[-> Q]]; [eapply Hm; eauto|].
        destruct (Nat.eq_dec m r); [right; lia|left; lia].
    - exists pre, x, y, post. split; [exact Es|]. split; [reflexivity|]. split; [reflexivity|]. split; [exact Hr|].
      split; [lia|]. intros pre' x' y' post' r' E' L' Hr'.
      destruct (Hk _ _ _ _ _ E' L' Hr') as [Q|[-> Q]]; [|right; lia].
      exfalso. eapply H; eauto. eapply rank_In; eauto.
  Qed.

  Lemma round_from (rest : list piece) : forall pre best, nonempty (pre ++ rest) -> nonempty (concat (pre ++ rest)) ->
    best_upto (pre ++ rest) (length pre) best ->
    exists best', best_upto (pre ++ rest) (length (pre ++ rest)) best' /\
      fold_left (fun acc b => bind acc (fun best =>
        consider (char_cands rs (concat (pre ++ rest))) (lens (pre ++ rest)) best b))
        (seq (length (concat pre)) (length (concat rest))) (Ok best) = Ok best'.
  Proof.
    induction rest as [|x rest IH]; intros pre best Hne Hc Hb.
    - exists best. rewrite app_nil_r in *. auto.
    - pose proof Hne as Hne'. unfold nonempty in Hne'. rewrite Forall_app in Hne'. destruct Hne' as [Hp Hr].
      inversion Hr as [|? ? Hx Hr']; subst. pose proof (ne_len x Hx) as Lx.
      cbn [concat]. rewrite (app_length x (concat rest)), seq_app, fold_left_app.
      assert (exists best1, best_upto (pre ++ x :: rest) (S (length pre)) best1 /\
        fold_left (fun acc b => bind acc (fun best =>
          consider (char_cands rs (concat (pre ++ x :: rest))) (lens (pre ++ x :: rest)) best b))
          (seq (length (concat pre)) (length x)) (Ok best) = Ok best1) as (best1 & Hb1 & E1).
      { replace (length x) with (S (length x - 1)) by lia. cbn [seq fold_left bind].
        destruct rest as [|y post].
        - exists best. split.
          + eapply best_extend_none; eauto. discriminate.
          + rewrite consider_last by exact Hne. rewrite <- Nat.add_1_r. apply consider_skip; auto; lia.
        - rewrite consider_pair by auto.
          destruct (find_rank rs (text (x ++ y))) as [r|] eqn:F.
          + eexists. split; [eapply best_extend_pair; eauto; apply find_rank_spec; exact F|].
            rewrite <- Nat.add_1_r. apply consider_skip; auto; lia.
          + exists best. split.
            * eapply best_extend_none; eauto. intros y' post' E. injection E as <- <-.
              apply find_rank_none. exact F.
            * rewrite <- Nat.add_1_r. apply consider_skip; auto; lia. }
      rewrite E1. specialize (IH (pre ++ [x]) best1).
      assert (length (concat (pre ++ [x])) = length (concat pre) + length x) as El.
      { rewrite concat_app, app_length. simpl. rewrite app_nil_r. reflexivity. }
      assert (length (pre ++ [x]) = S (length pre)) as Ep by (rewrite app_length; simpl; lia).
      rewrite El, Ep, <- !app_assoc in IH. cbn [app] in IH. apply IH; auto.
  Qed.

  Lemma round_best s : nonempty s -> nonempty (concat s) ->
    exists best, best_upto s (length s) best /\ best_merge (char_cands rs (concat s)) (lens s) = Ok best.
  Proof.
    intros Hne Hc. unfold best_merge. rewrite lens_length by exact Hne.
    apply (round_from s [] None Hne Hc). simpl. intros; lia.
  Qed.

  Lemma set_at_app {A} (l1 : list A) (u : A) b v : set_at (l1 ++ u :: b) (length l1) v = Ok (l1 ++ v :: b).
  Proof. induction l1 as [|y a IH]; simpl; auto. rewrite IH. reflexivity. Qed.

  Lemma lens_merge pre x y post : nonempty (pre ++ x :: y :: post) ->
    bind (set_at (lens (pre ++ x :: y :: post)) (length (concat pre) + length x) 0)
      (fun l1 => set_at l1 (length (concat pre)) (length x + length y)) = Ok (lens (pre ++ (x ++ y) :: post)).
  Proof.
    intros Hne. unfold nonempty in Hne. rewrite Forall_app in Hne. destruct Hne as [Hp Hr].
    inversion Hr as [|? ? Hx Hr']; inversion Hr' as [|? ? Hy Hpo]; subst.
    pose proof (ne_len _ Hx) as Lx. pose proof (ne_len _ Hy) as Ly.
    rewrite !lens_app. unfold lens at 2 4. cbn [flat_map]. fold (lens post).
    set (zx := repeat 0 (length x - 1)). set (zy := repeat 0 (length y - 1)).
    assert (length (concat pre) + length x = length (lens pre ++ length x :: zx)) as E1.
    { rewrite app_length, lens_length by exact Hp. cbn [length]. subst zx. rewrite repeat_length. lia. }
    rewrite E1.
    replace (lens pre ++ (length x :: zx) ++ (length y :: zy) ++ lens post)
      with ((lens pre ++ length x :: zx) ++ length y :: (zy ++ lens post))
      by (rewrite <- !app_assoc; reflexivity).
    rewrite set_at_app. cbn [bind]. rewrite <- (lens_length pre Hp), <- app_assoc. cbn [app].
    rewrite set_at_app. f_equal. f_equal. rewrite app_length. f_equal.
    rewrite app_comm_cons, !app_assoc. f_equal. subst zx zy.
    change (0 :: repeat 0 (length y - 1)) with (repeat 0 (S (length y - 1))).
    rewrite <- repeat_app. f_equal. lia.
  Qed.

  Lemma len_pre {A} (l p : list A) u v q : l = p ++ u :: v :: q -> length p < length l.
  Proof. intros ->. rewrite app_length. simpl. lia. Qed.

  Lemma merge_loop_ok rounds : forall s, nonempty s -> nonempty (concat s) -> length s < rounds ->
    exists s', merges vocab s s' /\ final vocab s' /\ nonempty s' /\
      merge_loop rounds (char_cands rs (concat s)) (lens s) = Ok (lens s').
  Proof.
    induction rounds as [|n IH]; intros s Hne Hc Hl; [lia|].
    destruct (round_best s Hne Hc) as (best & Hb & E). cbn [merge_loop]. rewrite E. cbn [bind].
    destruct best as [[[b l] r]|].
    - destruct Hb as (pre & x & y & post & -> & -> & -> & Hr & Lp & Hm).
      pose proof Hne as Hne'. unfold nonempty in Hne'. rewrite Forall_app in Hne'. destruct Hne' as [Hp Hr'].
      inversion Hr' as [|? ? Hx Hr'']; inversion Hr'' as [|? ? Hy Hpo]; subst.
      unfold at_. rewrite (lens_at pre x (y :: post) Hp). cbn [bind].
      assert (merge_step vocab (pre ++ x :: y :: post) (pre ++ (x ++ y) :: post)) as Hstep.
      { eapply step_at; eauto. intros pre' x' y' post' r' E' Hr0. refine (Hm pre' x' y' post' r' E' _ Hr0).
        exact (len_pre _ _ _ _ _ E'). }
      assert (concat (pre ++ x :: y :: post) = concat (pre ++ (x ++ y) :: post)) as Ec.
      { eapply merges_text. eapply merges_step; [exact Hstep|apply merges_refl]. }
      destruct (IH (pre ++ (x ++ y) :: post)) as (s' & H1 & H2 & H3 & H4).
      + apply Forall_app. split; auto. constructor; auto. destruct x; [congruence|discriminate].
      + rewrite <- Ec. exact Hc.
      + rewrite app_length in *. simpl in *. lia.
      + exists s'. split; [eapply merges_step; eauto|]. split; [exact H2|]. split; [exact H3|].
        rewrite <- H4, <- Ec. pose proof (lens_merge pre x y post Hne) as M.
        destruct (set_at (lens (pre ++ x :: y :: post)) (length (concat pre) + length x) 0); try discriminate.
        cbn [bind] in *. rewrite M. reflexivity.
    - exists s. split; [apply merges_refl|]. split; [|auto].
      intros pre x y post Es. apply (Hb pre x y post Es). rewrite Es, app_length. simpl. lia.
  Qed.

  (** ** Reading off the pieces *)
  Definition emit (chars : list str) (s : list piece) : result (list str) -> nat -> result (list str) :=
    fun acc b => bind acc (fun out =>
      bind (at_ (lens s) b) (fun len =>
      if 0 <? len then
        bind (at_ (char_cands rs chars) b) (fun row => bind (at_ row len) (fun c => Ok (out ++ [fst c])))
      else Ok out)).

  Lemma emit_skip chars pre x (rest : list piece) : nonempty pre -> forall n k out, 0 < k -> k + n <= length x ->
    fold_left (emit chars (pre ++ x :: rest)) (seq (length (concat pre) + k) n) (Ok out) = Ok out.
  Proof.
    intros Hp. induction n as [|n IH]; intros k out Hk Hn; [reflexivity|].
    cbn [seq fold_left]. unfold emit at 2. cbn [bind]. unfold at_ at 1.
    rewrite lens_inside by (auto; lia). cbn [bind]. change (0 <? 0) with false. cbv iota.
    rewrite <- Nat.add_succ_r. apply IH; lia.
  Qed.

  Lemma emit_from (rest : list piece) : forall pre out, nonempty (pre ++ rest) ->
    Forall (fun p => In (text p) vocab \/ exists c, p = [c]) rest ->
    fold_left (emit (concat (pre ++ rest)) (pre ++ rest)) (seq (length (concat pre)) (length (concat rest))) (Ok out)
      = Ok (out ++ map text rest).
  Proof.
    induction rest as [|x rest IH]; intros pre out Hne Hv.
    - simpl. rewrite app_nil_r. reflexivity.
    - pose proof Hne as Hne'. unfold nonempty in Hne'. rewrite Forall_app in Hne'. destruct Hne' as [Hp Hr].
      inversion Hr as [|? ? Hx Hr']; subst. pose proof (ne_len x Hx) as Lx.
      inversion Hv as [|? ? Hvx Hv']; subst.
      cbn [concat]. rewrite (app_length x (concat rest)), seq_app, fold_left_app.
      replace (fold_left (emit (concat (pre ++ x :: rest)) (pre ++ x :: rest))
        (seq (length (concat pre)) (length x)) (Ok out)) with (@Ok (list str) (out ++ [text x])).
      + specialize (IH (pre ++ [x]) (out ++ [text x])).
        assert (length (concat (pre ++ [x])) = length (concat pre) + length x) as El.
        { rewrite concat_app, app_length. simpl. rewrite app_nil_r. reflexivity. }
        rewrite El, <- !app_assoc in IH. cbn [app] in IH. cbn [map]. apply IH; auto.
      + symmetry. replace (length x) with (S (length x - 1)) by lia. cbn [seq fold_left].
        replace (emit (concat (pre ++ x :: rest)) (pre ++ x :: rest) (Ok out) (length (concat pre)))
          with (@Ok (list str) (out ++ [text x])).
        * rewrite <- Nat.add_1_r. apply emit_skip; auto; lia.
        * unfold emit. cbn [bind]. unfold at_ at 1. rewrite lens_at by exact Hp. cbn [bind].
          replace (0 <? length x) with true by (symmetry; apply Nat.ltb_lt; lia).
          rewrite concat_app. cbn [concat]. rewrite char_cands_at by exact Hx. cbn [bind].
          destruct (last_exists x Hx) as (c & Hc). rewrite (b_wordpieces_at rs x (concat rest) c Hx Hc).
          cbn [bind]. fold (text x). destruct (find_rank rs (text x)) as [r|] eqn:F; [reflexivity|].
          apply find_rank_none in F. destruct Hvx as [Hin|[c' ->]]; [contradiction|].
          cbn [length Nat.eqb]. simpl in Hc. injection Hc as ->. unfold text. simpl. rewrite app_nil_r. reflexivity.
  Qed.

  Lemma lens_singles chars : lens (singles chars) = repeat 1 (length chars).
  Proof. unfold singles, lens. induction chars as [|c l IH]; simpl; congruence. Qed.

  Lemma singles_ne chars : nonempty (singles chars).
  Proof. unfold singles. induction chars; simpl; constructor; auto. discriminate. Qed.

  Lemma tokenization_ok chars : nonempty chars ->
    exists s, merges vocab (singles chars) s /\ final vocab s /\
      GetWordpieceTokenization (char_cands rs chars) = Ok (map text s).
  Proof.
    intros Hc. destruct (merge_loop_ok (S (length chars)) (singles chars)) as (s & H1 & H2 & H3 & H4).
    - apply singles_ne.
    - rewrite concat_singles. exact Hc.
    - unfold singles. rewrite map_length. lia.
    - exists s. split; [exact H1|]. split; [exact H2|].
      unfold GetWordpieceTokenization, CalculateBestWordpieceLengths. rewrite char_cands_length.
      rewrite concat_singles, lens_singles in H4. rewrite H4. cbn [bind].
      rewrite lens_length by exact H3.
      pose proof (merges_text _ _ _ H1) as Et. rewrite concat_singles in Et.
      pose proof (emit_from s [] [] H3 (merges_pieces _ _ _ H1 (singles_ok vocab chars))) as E.
      cbn [app concat length] in E. rewrite <- Et in E |- *. exact E.
  Qed.
End Round.

(** ** Whole inputs *)
Definition segmentation (vocab : list str) (chars out : list str) : Prop :=
  exists s, merges vocab (singles chars) s /\ final vocab s /\ out = map text s.

Lemma segmentation_text vocab chars out : segmentation vocab chars out -> concat out = concat chars.
Proof.
  intros (s & H & _ & ->). rewrite map_text_concat. apply merges_text in H.
  rewrite <- H, concat_singles. reflexivity.
Qed.

Lemma segmentation_pieces vocab chars out w : segmentation vocab chars out -> In w out -> In w vocab \/ In w chars.
Proof.
  intros (s & H & _ & ->) Hw. pose proof (merges_text _ _ _ H) as Et. rewrite concat_singles in Et.
  apply in_map_iff in Hw as (p & <- & Hp).
  pose proof (merges_pieces _ _ _ H (singles_ok vocab chars)) as F. rewrite Forall_forall in F.
  destruct (F p Hp) as [Hv|[c ->]]; [auto|]. right. unfold text. simpl. rewrite app_nil_r, Et.
  apply in_concat. exists [c]. split; [exact Hp|left; reflexivity].
Qed.

Lemma segmentation_fun vocab chars a b : segmentation vocab chars a -> segmentation vocab chars b -> a = b.
Proof.
  intros (s & H1 & H2 & ->) (t & H3 & H4 & ->). f_equal. eapply merges_fun; eauto.
Qed.

Lemma char_pieces_ne cs ps : Forall2 encodes cs ps -> nonempty ps.
Proof. induction 1 as [|c p cs ps H HF IH]; constructor; auto. eapply encodes_ne; eauto. Qed.

Lemma word_ok vocab wip w cs ps : 
  spells cs ps (prefix (InitWordpieces wip vocab) ++ w) ->
  exists out, segmentation vocab ps out /\
    bind (ExtractWordpieceCands (InitWordpieces wip vocab) w) GetWordpieceTokenization = Ok out.
Proof.
  intros Hs. unfold ExtractWordpieceCands. rewrite (split_spec _ _ _ Hs). cbn [bind].
  destruct (tokenization_ok vocab ps) as (s & H1 & H2 & H3).
  - destruct Hs as [HF _]. eapply char_pieces_ne; eauto.
  - exists (map text s). split; [exists s; auto|exact H3].
Qed.

Lemma prefix_char cp cs p (s : str) : encoding cp p -> encoding cs s -> exists ps, spells (cp ++ cs) ps (p ++ s).
Proof.
  intros (a & Ha & ->) (b & Hb & ->). exists (a ++ b). split; [apply Forall2_app; auto|].
  rewrite concat_app. reflexivity.
Qed.

(** The tokenization of a word given by its characters (code points). *)
Definition word_tokens (vocab : list str) (cs : list N) (out : list str) : Prop :=
  exists ps, Forall2 encodes cs ps /\ segmentation vocab ps out.

Lemma words_ok vocab wip cp : encoding cp (prefix (InitWordpieces wip vocab)) ->
  forall l ts, Forall2 encoding l ts -> forall acc,
  exists outs, Forall2 (fun w out => word_tokens vocab (cp ++ w) out) l outs /\
    no_whitespace_wordpieces (InitWordpieces wip vocab) ts acc = Ok (acc ++ concat outs).
Proof.
  intros Hp. induction 1 as [|w t l ts Hw HF IH]; intros acc.
  - exists []. split; [constructor|]. simpl. rewrite app_nil_r. reflexivity.
  - destruct (prefix_char _ _ _ _ Hp Hw) as (ps & Hs).
    destruct (word_ok vocab wip t (cp ++ w) ps Hs) as (out & Ho & E).
    destruct (IH (acc ++ out)) as (outs & F & E2).
    exists (out :: outs). split.
    + apply Forall2_cons; [|exact F]. exists ps. split; [apply Hs|exact Ho].
    + cbn [no_whitespace_wordpieces]. destruct (ExtractWordpieceCands (InitWordpieces wip vocab) t) as [| | | |cs];
        try discriminate. cbn [bind] in *. rewrite E. cbn [bind]. rewrite E2. cbn [concat]. rewrite app_assoc.
      reflexivity.
Qed.

Lemma wordpieces_ok vocab wip cp cs (s : str) : encoding cp (prefix (InitWordpieces wip vocab)) -> encoding cs s ->
  exists ws outs, words_of white_space cs ws /\
    Forall2 (fun w out => word_tokens vocab (cp ++ w) out) ws outs /\
    GetWordpieces (InitWordpieces wip vocab) s = Ok (concat outs).
Proof.
  intros Hp Hs. destruct (split_words cs s Hs) as (l & ts & Hw & E & HF).
  destruct (words_ok vocab wip cp Hp l ts HF []) as (outs & F & E2).
  exists l, outs. split; [exact Hw|]. split; [exact F|]. unfold GetWordpieces. rewrite E. exact E2.
Qed.

Lemma wordpieces_text vocab wip cp cs (s : str) ws outs : encoding cp (prefix (InitWordpieces wip vocab)) ->
  encoding cs s -> words_of white_space cs ws -> GetWordpieces (InitWordpieces wip vocab) s = Ok outs ->
  encoding (concat (map (app cp) ws)) (concat outs).
Proof.
  intros Hp Hs Hw E. destruct (wordpieces_ok vocab wip cp cs s Hp Hs) as (ws' & os & Hw' & F & E').
  rewrite E in E'. injection E' as ->. pose proof (words_unique _ _ _ _ Hw Hw') as <-.
  clear -F. induction F as [|w out ws os (ps & HF & Hseg) F (qs & HQ & E)].
  - exists []. split; [constructor|reflexivity].
  - exists (ps ++ qs). cbn [map concat]. rewrite concat_app, (segmentation_text _ _ _ Hseg), E.
    split; [apply Forall2_app; auto|]. rewrite concat_app. reflexivity.
Qed.

Lemma default_prefix vocab : encoding [0x2581%N] (prefix (InitWordpieces [] vocab)).
Proof. exists [kWordInitPrefix]. split; [|reflexivity]. constructor; [|constructor]. apply append_encodes. reflexivity. Qed.

Lemma malformed_input (sg : segmenter) (s : str) : ~ well_formed_utf8 s -> GetWordpieces sg s = Exception.
Proof. intros H. apply split_malformed in H. unfold GetWordpieces. rewrite H. reflexivity. Qed.

(** A prefix that is not UTF-8: the words disappear. *)
Lemma bad_prefix : exists wip vocab (s : str) cs, encoding cs s /\ length cs = 3 /\
  GetWordpieces (InitWordpieces wip vocab) s = Ok [].
Proof.
  exists [0xE2%N], [], [97; 32; 98]%N, [97; 32; 98]%N. split.
  - exists [[97]; [32]; [98]]%N. split; [|reflexivity].
    repeat (apply Forall2_cons; [apply append_encodes; reflexivity|]). constructor.
  - split; [reflexivity|]. vm_compute. reflexivity.
Qed.

Lemma wordpieces_input vocab wip cp cs (s : str) : encoding cp (prefix (InitWordpieces wip vocab)) -> encoding cs s ->
  exists ws outs, words_of white_space cs ws /\
    Forall2 (fun w out => exists ps seg, Forall2 encodes (cp ++ w) ps /\
               merges vocab (singles ps) seg /\ final vocab seg /\ out = map text seg) ws outs /\
    GetWordpieces (InitWordpieces wip vocab) s = Ok (concat outs).
Proof.
  intros Hp Hs. destruct (wordpieces_ok vocab wip cp cs s Hp Hs) as (ws & outs & H1 & H2 & H3).
  exists ws, outs. split; [exact H1|]. split; [|exact H3]. clear -H2.
  induction H2 as [|w out ws outs (ps & F & seg & M1 & M2 & M3) HF IH]; constructor; auto.
  exists ps, seg. auto.
Qed.
