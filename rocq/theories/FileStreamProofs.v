(** Proofs about streams of messages. *)
From Verif Require Import Base KbestModel FileModel FileSpec FileStreamSpec.

Lemma bytes_put_app a b : bytes_put (a ++ b) = bytes_put a ++ bytes_put b.
Proof. induction a as [|[c| | |x] a IH]; cbn; [reflexivity| | | |]; rewrite IH; reflexivity. Qed.

Section Stream.
  Context (takes : str -> str -> nat) (closes : str -> bool) (block_size : nat).

  Definition holds (s : stream) (all : str) : Prop :=
    if failed s then is_prefix (data s) all else data s ++ buffer s = all.

  Lemma write_buffer_holds s all ok s' : holds s all -> WriteBuffer takes s = Fine (ok, s') ->
    holds s' all /\ open s' = open s /\ on_delete s' = on_delete s /\ position s <= position s' /\
    (failed s = false -> ok = negb (failed s')) /\ (failed s = true -> failed s' = true /\ ok = false) /\
    (ok = true -> buffer s' = [] /\ ByteCount s' = ByteCount s).
  Proof.
    unfold holds, WriteBuffer, ByteCount. intros H. destruct (failed s) eqn:F.
    { intros [= <- <-]. rewrite F. repeat split; auto; congruence. }
    destruct (buffer s) as [|c b] eqn:B.
    { intros [= <- <-]. rewrite F, B. repeat split; auto; congruence. }
    destruct (open s) eqn:O; [|discriminate].
    unfold WriteString. rewrite Z.eqb_refl. unfold Write.
    set (n := Nat.min (takes (data s) (c :: b)) (length (c :: b))).
    destruct (Nat.eqb_spec n (length (c :: b))) as [E|E]; cbn [is_ok]; intros [= <- <-]; cbn [failed data buffer open on_delete position].
    - rewrite E, firstn_all, app_nil_r. cbn. repeat split; auto; try lia; try congruence.
    - cbn. repeat split; auto; try congruence. exists (skipn n (c :: b)). rewrite <- app_assoc, firstn_skipn. auto.
  Qed.

  Lemma put_holds s all c ok s' : holds s all -> put takes block_size s c = Fine (ok, s') ->
    holds s' (all ++ [c]) /\ open s' = open s /\ (failed s' = false -> ok = true) /\
    (failed s = false -> ok = true -> failed s' = false /\ ByteCount s' = S (ByteCount s)).
  Proof.
    intros H. unfold put.
    assert (K : exists ok1 s1, (if Nat.eqb (length (buffer s)) block_size then WriteBuffer takes s else Fine (true, s)) = Fine (ok1, s1) /\
        holds s1 all /\ open s1 = open s /\ (failed s1 = false -> ok1 = true) /\
        (failed s = false -> ok1 = true -> failed s1 = false /\ ByteCount s1 = ByteCount s) \/
      (if Nat.eqb (length (buffer s)) block_size then WriteBuffer takes s else Fine (true, s)) = Check).
    { destruct (Nat.eqb _ _).
      - destruct (WriteBuffer takes s) as [| | |[ok1 s1]] eqn:E; [exists true, s; right; reflexivity| | |].
        1,2: exfalso; revert E; unfold WriteBuffer; destruct (failed s); [discriminate|]; destruct (buffer s); [discriminate|];
          destruct (open s); [|discriminate]; destruct (WriteString _ _ _ _) as [st d1]; destruct (is_ok st); discriminate.
        exists ok1, s1. left. destruct (write_buffer_holds _ _ _ _ H E) as (H1 & O & _ & _ & F0 & F1 & T).
        split; [reflexivity|]. split; [exact H1|]. split; [exact O|]. destruct (failed s) eqn:F.
        + destruct (F1 eq_refl) as [X Y]. split; congruence.
        + specialize (F0 eq_refl). split; [intros X; rewrite F0, X; reflexivity|]. intros _ Y. split.
          * rewrite Y in F0. destruct (failed s1); [discriminate|reflexivity].
          * exact (proj2 (T Y)).
      - exists true, s. left. repeat split; auto. }
    destruct K as (ok1 & s1 & [(-> & H1 & O & A & B)| ->]); [|discriminate]. cbn [bind].
    destruct ok1.
    - intros [= <- <-]. cbn [open]. split; [|split; [exact O|split; [reflexivity|]]].
      + revert H1. unfold holds. cbn [failed data buffer]. destruct (failed s1).
        * intros [t T]. exists (t ++ [c]). rewrite T, app_assoc. reflexivity.
        * intros T. rewrite app_assoc, T. reflexivity.
      + intros X _. destruct (B X eq_refl) as [Y Z]. split; [exact Y|]. rewrite <- Z. unfold ByteCount. cbn [position buffer].
        rewrite app_length. cbn. lia.
    - intros [= <- <-]. split; [|split; [exact O|split; [exact A|discriminate]]].
      destruct (failed s1) eqn:F; [|specialize (A eq_refl); discriminate].
      revert H1. unfold holds. rewrite F. intros [t T]. exists (t ++ [c]). rewrite T, app_assoc. reflexivity.
  Qed.

  Lemma call_holds s all c ok s' : holds s all -> apply_call takes closes block_size s c = Fine (ok, s') ->
    holds s' (all ++ bytes_put [c]) /\ (open s = false -> open s' = false) /\
    (failed s = false -> ok = true -> failed s' = false /\ ByteCount s' = ByteCount s + length (bytes_put [c])).
  Proof.
    intros H. destruct c as [b| | |b]; cbn [apply_call bytes_put length].
    - intros E. destruct (put_holds _ _ _ _ _ H E) as (H1 & O & _ & B). split; [exact H1|].
      split; [congruence|]. intros F K. destruct (B F K) as [X Y]. split; [exact X|lia].
    - intros E. destruct (write_buffer_holds _ _ _ _ H E) as (H1 & O & _ & _ & F0 & _ & T).
      rewrite app_nil_r. split; [exact H1|]. split; [congruence|]. intros F K. specialize (F0 F).
      split; [rewrite K in F0; destruct (failed s'); [discriminate|reflexivity]|]. rewrite (proj2 (T K)). lia.
    - destruct (WriteBuffer takes s) as [| | |[ok1 s1]] eqn:E; try discriminate. cbn [bind].
      unfold close_file. destruct (open s1) eqn:O1; [|discriminate]. cbn [bind fst snd]. intros [= <- <-].
      destruct (write_buffer_holds _ _ _ _ H E) as (H1 & O & _ & _ & F0 & _ & T).
      rewrite app_nil_r. split; [exact H1|]. split; [intros _; reflexivity|]. intros F K.
      apply andb_true_iff in K as [_ K]. specialize (F0 F). cbn [failed].
      split; [rewrite K in F0; destruct (failed s1); [discriminate|reflexivity]|].
      transitivity (ByteCount s1); [reflexivity|]. rewrite (proj2 (T K)). lia.
    - intros [= <- <-]. rewrite app_nil_r. split; [exact H|]. split; [intros X; exact X|]. intros X _.
      split; [exact X|]. unfold ByteCount. cbn. lia.
  Qed.

  Lemma calls_holds l : forall s all rs s', holds s all -> calls takes closes block_size s l = Fine (rs, s') ->
    holds s' (all ++ bytes_put l) /\ (open s = false -> open s' = false) /\
    (failed s = false -> (forall r, In r rs -> r = true) ->
      failed s' = false /\ ByteCount s' = ByteCount s + length (bytes_put l)).
  Proof.
    induction l as [|c l IH]; intros s all rs s' H; cbn [calls].
    - intros [= <- <-]. cbn. rewrite app_nil_r. repeat split; auto; lia.
    - destruct (apply_call takes closes block_size s c) as [| | |[ok s1]] eqn:E; try discriminate. cbn [bind fst snd].
      destruct (calls takes closes block_size s1 l) as [| | |[rs1 s2]] eqn:E1; try discriminate. cbn [bind fst snd].
      intros [= <- <-]. destruct (call_holds _ _ _ _ _ H E) as (H1 & O & F).
      destruct (IH _ _ _ _ H1 E1) as (H2 & O2 & F2).
      change (c :: l) with ([c] ++ l). rewrite bytes_put_app, app_assoc, app_length. split; [exact H2|].
      split; [auto|]. intros X R. destruct (F X (R _ (or_introl eq_refl))) as [Y Z].
      destruct (F2 Y (fun r I => R r (or_intror I))) as [Y2 Z2]. split; [exact Y2|lia].
  Qed.

  Lemma stream_true contents l rs s : calls takes closes block_size (new_stream contents) l = Fine (rs, s) ->
    (forall r, In r rs -> r = true) ->
    data s ++ buffer s = contents ++ bytes_put l /\ ByteCount s = length (bytes_put l).
  Proof.
    intros E R. destruct (calls_holds l (new_stream contents) contents rs s) as (H & _ & F).
    - unfold holds. cbn. apply app_nil_r.
    - exact E.
    - destruct (F eq_refl R) as [F1 B]. unfold holds in H. rewrite F1 in H. split; [exact H|exact B].
  Qed.
  Lemma stream_prefix contents l rs s : calls takes closes block_size (new_stream contents) l = Fine (rs, s) ->
    is_prefix (data s) (contents ++ bytes_put l).
  Proof.
    intros E. destruct (calls_holds l (new_stream contents) contents rs s) as (H & _).
    - unfold holds. cbn. apply app_nil_r.
    - exact E.
    - unfold holds in H. destruct (failed s); [exact H|]. exists (buffer s). symmetry. exact H.
  Qed.

  (** A last call of Flush or Close that succeeds leaves nothing behind. *)
  Lemma calls_app l1 : forall s l2, calls takes closes block_size s (l1 ++ l2) =
    bind (calls takes closes block_size s l1) (fun r => bind (calls takes closes block_size (snd r) l2) (fun q => Fine (fst r ++ fst q, snd q))).
  Proof.
    induction l1 as [|c l1 IH]; intros s l2; cbn [app calls bind].
    - cbn [fst snd app]. destruct (calls _ _ _ s l2) as [| | |[? ?]]; reflexivity.
    - destruct (apply_call _ _ _ s c) as [| | |[ok s1]]; cbn [bind fst snd]; [reflexivity..|].
      rewrite IH. destruct (calls _ _ _ s1 l1) as [| | |[rs s2]]; cbn [bind fst snd]; [reflexivity..|].
      destruct (calls _ _ _ s2 l2) as [| | |[? ?]]; reflexivity.
  Qed.
  Lemma last_empties l c rs s contents : c = Flush \/ c = Close ->
    calls takes closes block_size (new_stream contents) (l ++ [c]) = Fine (rs, s) ->
    (forall r, In r rs -> r = true) ->
    data s = contents ++ bytes_put l /\ buffer s = [].
  Proof.
    intros C E R. destruct (stream_true _ _ _ _ E R) as [D _].
    assert (B : buffer s = []).
    { rewrite calls_app in E. destruct (calls _ _ _ (new_stream contents) l) as [| | |[rs1 s1]] eqn:E1; try discriminate.
      cbn [bind fst snd calls] in E. 
      destruct (apply_call takes closes block_size s1 c) as [| | |[ok s2]] eqn:E2; try discriminate.
      cbn [bind fst snd] in E. injection E as <- <-.
      assert (K : ok = true) by (apply R, in_or_app; right; left; reflexivity). subst ok.
      assert (W : forall ok s3, WriteBuffer takes s1 = Fine (ok, s3) -> ok = true -> buffer s3 = []).
      { intros ok s3 Q K. destruct (calls_holds l (new_stream contents) contents rs1 s1) as (H & _); [unfold holds; cbn; apply app_nil_r|exact E1|].
        destruct (write_buffer_holds _ _ _ _ H Q) as (_ & _ & _ & _ & _ & _ & T). exact (proj1 (T K)). }
      destruct C as [-> | ->]; cbn [apply_call] in E2.
      - exact (W _ _ E2 eq_refl).
      - destruct (WriteBuffer takes s1) as [| | |[ok3 s3]] eqn:Q; try discriminate. cbn [bind] in E2.
        unfold close_file in E2. destruct (open s3); [|discriminate]. cbn [bind fst snd] in E2. injection E2 as K <-.
        apply andb_true_iff in K as [_ K]. exact (W _ _ eq_refl K). }
    split; [|exact B]. rewrite B, app_nil_r, bytes_put_app in D.
    destruct C as [-> | ->]; cbn in D; rewrite app_nil_r in D; exact D.
  Qed.

  (** Closing twice is fatal. *)
  Lemma write_buffer_open s ok s' : WriteBuffer takes s = Fine (ok, s') -> open s' = open s.
  Proof.
    unfold WriteBuffer. destruct (failed s); [congruence|]. destruct (buffer s); [congruence|].
    destruct (open s) eqn:O; [|discriminate]. destruct (WriteString _ _ _ _) as [st d1]; destruct (is_ok st); intros [= <- <-]; reflexivity.
  Qed.
  Lemma closed_stays c s ok s' : apply_call takes closes block_size s c = Fine (ok, s') -> open s = false -> open s' = false.
  Proof.
    destruct c as [b| | |b]; cbn [apply_call].
    - unfold put. destruct (Nat.eqb _ _).
      + destruct (WriteBuffer takes s) as [| | |[ok1 s1]] eqn:E; try discriminate. cbn [bind]. apply write_buffer_open in E.
        destruct ok1; intros [= <- <-]; cbn; congruence.
      + cbn [bind]. intros [= <- <-] O. exact O.
    - intros E O. rewrite (write_buffer_open _ _ _ E). exact O.
    - destruct (WriteBuffer takes s) as [| | |[ok1 s1]]; try discriminate. cbn [bind]. unfold close_file.
      destruct (open s1); [|discriminate]. cbn. intros [= <- <-] _. reflexivity.
    - intros [= <- <-] O. exact O.
  Qed.
  Lemma close_closes s ok s' : apply_call takes closes block_size s Close = Fine (ok, s') -> open s = true /\ open s' = false.
  Proof.
    cbn [apply_call]. destruct (WriteBuffer takes s) as [| | |[ok1 s1]] eqn:E; try discriminate. cbn [bind]. unfold close_file.
    destruct (open s1) eqn:O; [|discriminate]. cbn. intros [= <- <-]. split; [|reflexivity].
    rewrite <- (write_buffer_open _ _ _ E). exact O.
  Qed.
  Lemma calls_closed l : forall s rs s', calls takes closes block_size s l = Fine (rs, s') -> open s = false -> open s' = false.
  Proof.
    induction l as [|c l IH]; intros s rs s'; cbn [calls].
    - intros [= <- <-] O. exact O.
    - destruct (apply_call _ _ _ s c) as [| | |[ok s1]] eqn:E; try discriminate. cbn [bind fst snd].
      destruct (calls _ _ _ s1 l) as [| | |[rs1 s2]] eqn:E1; try discriminate. cbn [bind fst snd].
      intros [= <- <-] O. exact (IH _ _ _ E1 (closed_stays _ _ _ _ E O)).
  Qed.
  Lemma only_check s l : (exists r, calls takes closes block_size s l = Fine r) \/ calls takes closes block_size s l = Check.
  Proof.
    assert (W : forall s, (exists r, WriteBuffer takes s = Fine r) \/ WriteBuffer takes s = Check).
    { intros t. unfold WriteBuffer. destruct (failed t); [eauto|]. destruct (buffer t); [eauto|]. destruct (open t); [|eauto].
      destruct (WriteString _ _ _ _) as [st d1]; destruct (is_ok st); eauto. }
    assert (A : forall s c, (exists r, apply_call takes closes block_size s c = Fine r) \/ apply_call takes closes block_size s c = Check).
    { intros t [b| | |b]; cbn [apply_call].
      - unfold put. destruct (Nat.eqb _ _); [destruct (W t) as [[[ok t1] ->]| ->]; cbn [bind]; [destruct ok|]; eauto|cbn [bind]; eauto].
      - apply W.
      - destruct (W t) as [[[ok t1] ->]| ->]; cbn [bind]; [|eauto]. unfold close_file. destruct (open t1); cbn [bind]; eauto.
      - eauto. }
    revert s. induction l as [|c l IH]; intros s; cbn [calls]; [eauto|].
    destruct (A s c) as [[[ok s1] ->]| ->]; cbn [bind fst snd]; [|eauto].
    destruct (IH s1) as [[[rs s2] ->]| ->]; cbn [bind fst snd]; eauto.
  Qed.
  Lemma close_twice s l1 l2 : calls takes closes block_size s (l1 ++ [Close] ++ l2 ++ [Close]) = Check.
  Proof.
    destruct (only_check s (l1 ++ [Close] ++ l2 ++ [Close])) as [[[rs s'] E]|E]; [|exact E]. exfalso.
    rewrite calls_app in E. destruct (calls _ _ _ s l1) as [| | |[rs1 s1]]; try discriminate. cbn [bind fst snd] in E.
    rewrite calls_app in E. cbn [calls] in E.
    destruct (apply_call takes closes block_size s1 Close) as [| | |[ok s2]] eqn:E1; try discriminate. cbn [bind fst snd] in E.
    rewrite calls_app in E. destruct (calls _ _ _ s2 l2) as [| | |[rs3 s3]] eqn:E2; try discriminate. cbn [bind fst snd calls] in E.
    destruct (apply_call takes closes block_size s3 Close) as [| | |[ok4 s4]] eqn:E3; try discriminate.
    apply close_closes in E1 as [_ O]. apply close_closes in E3 as [O3 _].
    rewrite (calls_closed _ _ _ _ E2 O) in O3. discriminate.
  Qed.

  (** Without errors of the system *)
  Hypothesis all_taken : takes_all takes.
  Definition sound (s : stream) : Prop := open s = true /\ failed s = false.
  Lemma write_buffer_all s : sound s -> exists s', WriteBuffer takes s = Fine (true, s') /\ sound s' /\
    buffer s' = [] /\ data s' = data s ++ buffer s /\ on_delete s' = on_delete s.
  Proof.
    intros [O F]. unfold WriteBuffer. rewrite F. destruct (buffer s) as [|c b] eqn:B.
    - exists s. rewrite B, app_nil_r. repeat split; assumption.
    - rewrite O. unfold WriteString. rewrite Z.eqb_refl. unfold Write.
      rewrite Nat.min_r by apply all_taken. rewrite Nat.eqb_refl, firstn_all. cbn [is_ok].
      eexists. split; [reflexivity|]. repeat split; reflexivity.
  Qed.
  Lemma call_all s c : c <> Close -> sound s -> exists s', apply_call takes closes block_size s c = Fine (true, s') /\ sound s'.
  Proof.
    intros C H. destruct c as [b| | |b]; cbn [apply_call]; [| |congruence|].
    - unfold put. destruct (Nat.eqb _ _).
      + destruct (write_buffer_all s H) as (s' & -> & [O F] & _). cbn [bind]. eexists. split; [reflexivity|]. split; assumption.
      + cbn [bind]. eexists. split; [reflexivity|]. destruct H. split; assumption.
    - destruct (write_buffer_all s H) as (s' & E & K & _). exists s'. split; assumption.
    - eexists. split; [reflexivity|]. destruct H. split; assumption.
  Qed.
  Lemma calls_all l : ~ In Close l -> forall s, sound s ->
    exists rs s', calls takes closes block_size s l = Fine (rs, s') /\ sound s' /\ forall r, In r rs -> r = true.
  Proof.
    induction l as [|c l IH]; intros N0 s H; cbn [calls].
    - exists [], s. split; [reflexivity|]. split; [exact H|intros r []].
    - destruct (call_all s c) as (s1 & E & H1); [intros ->; apply N0; left; reflexivity|exact H|]. rewrite E. cbn [bind fst snd].
      destruct (IH (fun I => N0 (or_intror I)) s1 H1) as (rs & s2 & E2 & H2 & R). rewrite E2. cbn [bind fst snd].
      eexists _, _. split; [reflexivity|]. split; [exact H2|]. intros r [<-|I0]; [reflexivity|exact (R r I0)].
  Qed.
  Lemma sound_new contents : sound (new_stream contents).
  Proof. split; reflexivity. Qed.

  Lemma delete_writes contents l : ~ In Close l ->
    exists rs s s', calls takes closes block_size (new_stream contents) l = Fine (rs, s) /\ (forall r, In r rs -> r = true) /\
      delete_stream takes closes s = Fine s' /\ data s' = contents ++ bytes_put l /\
      open s' = negb (on_delete s).
  Proof.
    intros N0. destruct (calls_all l N0 (new_stream contents) (sound_new contents)) as (rs & s & E & H & R).
    destruct (write_buffer_all s H) as (s1 & W1 & H1 & B1 & D1 & O1).
    destruct (write_buffer_all s1 H1) as (s2 & W2 & H2 & B2 & D2 & O2).
    assert (D : data s2 = contents ++ bytes_put l).
    { rewrite D2, B1, app_nil_r, D1. exact (proj1 (stream_true _ _ _ _ E R)). }
    exists rs, s. unfold delete_stream. rewrite W1. cbn [bind snd]. rewrite W2. cbn [bind snd].
    rewrite (proj1 H2), O2, O1, andb_true_r. unfold close_file. rewrite (proj1 H2). destruct (on_delete s) eqn:OD; cbn [bind snd].
    - eexists. split; [exact E|]. split; [exact R|]. split; [reflexivity|]. split; [exact D|reflexivity].
    - exists s2. split; [exact E|]. split; [exact R|]. split; [reflexivity|]. split; [exact D|]. exact (proj1 H2).
  Qed.
  Lemma close_state contents l : ~ In Close l ->
    exists rs s, calls takes closes block_size (new_stream contents) (l ++ [Close]) = Fine (rs ++ [closes (data s)], s) /\
      (forall r, In r rs -> r = true) /\ data s = contents ++ bytes_put l /\ buffer s = [] /\ open s = false /\ failed s = false.
  Proof.
    intros N0. destruct (calls_all l N0 (new_stream contents) (sound_new contents)) as (rs & s & E & H & R).
    destruct (write_buffer_all s H) as (s1 & W1 & H1 & B1 & D1 & O1).
    exists rs. rewrite calls_app, E. cbn [bind fst snd calls apply_call]. rewrite W1. cbn [bind].
    unfold close_file. rewrite (proj1 H1). cbn [bind fst snd]. rewrite andb_true_r.
    exists (Stream (data s1) false (on_delete s1) (buffer s1) (position s1) (failed s1)).
    split; [reflexivity|]. cbn [data buffer open failed]. split; [exact R|].
    split; [rewrite D1; exact (proj1 (stream_true _ _ _ _ E R))|]. split; [exact B1|]. split; [reflexivity|exact (proj2 H1)].
  Qed.
  Lemma close_then_delete contents l : ~ In Close l ->
    exists rs s, calls takes closes block_size (new_stream contents) (l ++ [Close]) = Fine (rs ++ [closes (contents ++ bytes_put l)], s) /\
      (forall r, In r rs -> r = true) /\ data s = contents ++ bytes_put l /\ open s = false /\ delete_stream takes closes s = Fine s.
  Proof.
    intros N0. destruct (close_state contents l N0) as (rs & s & E & R & D & B & O & F).
    exists rs, s. rewrite D in E. split; [exact E|]. split; [exact R|]. split; [exact D|]. split; [exact O|].
    assert (W : WriteBuffer takes s = Fine (true, s)) by (unfold WriteBuffer; rewrite F, B; reflexivity).
    unfold delete_stream. rewrite W. cbn [bind snd]. rewrite W. cbn [bind snd]. rewrite O, andb_false_r. reflexivity.
  Qed.
  Lemma put_after_close contents l c : block_size <> 0 -> ~ In Close l ->
    exists rs s, calls takes closes block_size (new_stream contents) (l ++ [Close; Put c]) = Fine (rs ++ [true], s) /\
      delete_stream takes closes s = Check.
  Proof.
    intros BS N0. destruct (close_state contents l N0) as (rs & s & E & R & D & B & O & F).
    change [Close; Put c] with ([Close] ++ [Put c]). rewrite app_assoc, calls_app, E. cbn [bind fst snd calls apply_call].
    unfold put. rewrite B. destruct (Nat.eqb_spec (length (@nil N)) block_size) as [X|_]; [cbn in X; congruence|].
    cbn [bind fst snd app]. eexists _, _. split; [reflexivity|]. unfold delete_stream, WriteBuffer. cbn [failed buffer open].
    rewrite F, B, O. reflexivity.
  Qed.
End Stream.
