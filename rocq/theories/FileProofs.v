(** Proofs about files: texts and lines. *)
From Verif Require Import Base KbestModel FileModel FileSpec.

(** ** Writing and reading *)
Lemma read_written d p c : length c <= room d -> c <> [] ->
  ReadTextFile (written d p c) p = Ok c /\ forall q, q <> p -> file_at (written d p c) q = file_at d q.
Proof.
  intros L E. split.
  - unfold ReadTextFile, written, set_file. cbn. rewrite str_eqb_refl, firstn_all2 by lia.
    destruct c; [congruence|reflexivity].
  - intros q Q. unfold written, set_file. cbn. destruct (str_eqb q p) eqn:X; [|reflexivity].
    apply str_eqb_eq in X. congruence.
Qed.
Lemma no_failure buffered d c : length c <= room d -> stream_fails buffered d c = false.
Proof. intros L. unfold stream_fails. destruct (buffered c); [reflexivity|]. rewrite (proj2 (Nat.leb_le _ _) L). reflexivity. Qed.

Lemma write_read buffered d p c : may_write d p = true -> length c <= room d -> c <> [] ->
  exists d', WriteTextFile buffered d p c = (Ok tt, d') /\ ReadTextFile d' p = Ok c /\
    forall q, q <> p -> file_at d' q = file_at d q.
Proof.
  intros M L E. exists (written d p c). split; [|exact (read_written d p c L E)].
  unfold WriteTextFile. rewrite M, no_failure by exact L. reflexivity.
Qed.
Lemma temp_path tmp f : 
  (is_prefix [47%N] f /\ TempFilePath tmp f = f) \/
  (~ is_prefix [47%N] f /\ tmp = [] /\ TempFilePath tmp f = f) \/
  (~ is_prefix [47%N] f /\ is_suffix [47%N] tmp /\ TempFilePath tmp f = tmp ++ f) \/
  (~ is_prefix [47%N] f /\ tmp <> [] /\ ~ is_suffix [47%N] tmp /\ TempFilePath tmp f = tmp ++ [47%N] ++ f).
Proof.
  destruct (prefixb [47%N] f) eqn:P.
  - left. split; [apply prefixb_spec; exact P|]. apply prefixb_spec in P as [t ->]. reflexivity.
  - right. apply prefixb_false in P. 
    assert (Q : TempFilePath tmp f = match rev tmp with [] => f | 47%N :: _ => tmp ++ f | _ => tmp ++ [47%N] ++ f end).
    { unfold TempFilePath, path_append. destruct f as [|x f]; [reflexivity|].
      destruct (N.eq_dec x 47) as [->|X]; [exfalso; apply P; exists f; reflexivity|].
      destruct x as [|x]; [reflexivity|].
      repeat (destruct x as [x|x|]; try reflexivity). congruence. }
    assert (R : tmp = rev (rev tmp)) by (symmetry; apply rev_involutive).
    destruct (rev tmp) as [|x t] eqn:T.
    + left. repeat split; assumption.
    + right. cbn in R. destruct (N.eq_dec x 47) as [->|X].
      * left. split; [exact P|]. split; [exists (rev t); exact R|exact Q].
      * right. split; [exact P|]. split; [rewrite R; destruct (rev t); discriminate|].
        split.
        -- intros [u U]. rewrite U in R. apply app_inj_tail in R. destruct R. congruence.
        -- rewrite Q. destruct x as [|x]; [reflexivity|].
           repeat (destruct x as [x|x|]; try reflexivity). congruence.
Qed.
Lemma temp_write_read buffered tmp d f c : may_write d (TempFilePath tmp f) = true -> length c <= room d -> c <> [] ->
  exists d', WriteTempTextFile buffered tmp d f c = (Ok (TempFilePath tmp f), d') /\
    ReadTextFile d' (TempFilePath tmp f) = Ok c.
Proof.
  intros M L E. exists (written d (TempFilePath tmp f) c). split.
  - unfold WriteTempTextFile. rewrite M, no_failure by exact L. reflexivity.
  - exact (proj1 (read_written d _ c L E)).
Qed.
Lemma empty_unreadable buffered d p : may_write d p = true ->
  exists d', WriteTextFile buffered d p [] = (Ok tt, d') /\ file_at d' p = Some [] /\ ReadTextFile d' p = Internal.
Proof.
  intros M. exists (written d p []). unfold WriteTextFile. rewrite M, no_failure by (cbn; lia).
  split; [reflexivity|]. unfold ReadTextFile, written, set_file. cbn. rewrite str_eqb_refl, firstn_nil. split; reflexivity.
Qed.
Lemma write_reported buffered d p c d' : buffered c = false -> WriteTextFile buffered d p c = (Ok tt, d') ->
  file_at d' p = Some c.
Proof.
  intros B. unfold WriteTextFile, stream_fails. rewrite B.
  destruct (may_write d p); [|discriminate]. destruct (length c <=? room d) eqn:L; [|discriminate].
  intros [= <-]. apply Nat.leb_le in L. unfold written, set_file. cbn. rewrite str_eqb_refl, firstn_all2 by exact L. reflexivity.
Qed.
Lemma write_lost : exists buffered d p c d', WriteTextFile buffered d p c = (Ok tt, d') /\ file_at d' p <> Some c.
Proof.
  exists (fun _ => true), (Disk (fun _ => None) (fun _ => true) 2), [97%N], [98; 99; 100]%N.
  eexists. split; [reflexivity|]. vm_compute. discriminate.
Qed.

(** ** Lines *)
Lemma getlines_line l : one_line l -> forall rest cur, getlines (l ++ 10%N :: rest) cur = (cur ++ l) :: getlines rest [].
Proof.
  induction l as [|c l IH]; intros O rest cur.
  - cbn. rewrite app_nil_r. reflexivity.
  - cbn [app getlines]. destruct (N.eqb_spec c 10) as [->|_]; [exfalso; apply O; left; reflexivity|].
    rewrite IH by (intros X; apply O; right; exact X). rewrite <- app_assoc. reflexivity.
Qed.
Lemma getlines_last l : one_line l -> forall cur, getlines l cur = match cur ++ l with [] => [] | x => [x] end.
Proof.
  induction l as [|c l IH]; intros O cur.
  - cbn. rewrite app_nil_r. destruct cur; reflexivity.
  - cbn [getlines]. destruct (N.eqb_spec c 10) as [->|_]; [exfalso; apply O; left; reflexivity|].
    rewrite IH by (intros X; apply O; right; exact X). rewrite <- app_assoc. reflexivity.
Qed.
Lemma getlines_text ls last : Forall one_line ls -> one_line last ->
  getlines (text_of ls last) [] = ls ++ match last with [] => [] | _ => [last] end.
Proof.
  intros F O. induction F as [|l ls L F IH]; unfold text_of in *; cbn [map concat].
  - cbn [app]. rewrite getlines_last by exact O. destruct last; reflexivity.
  - rewrite <- !app_assoc. cbn [app]. rewrite getlines_line by exact L. cbn [app]. f_equal. exact IH.
Qed.
Lemma not_empty_app a b : not_empty (a ++ b) = not_empty a ++ not_empty b.
Proof. induction a as [|[|c l] a IH]; cbn; [reflexivity|exact IH|]. f_equal. exact IH. Qed.
Lemma not_empty_last ls last : not_empty (ls ++ match last with [] => [] | _ => [last] end) = not_empty (ls ++ [last]).
Proof. rewrite !not_empty_app. destruct last; cbn; rewrite ?app_nil_r; reflexivity. Qed.

Lemma set_at_spec l : forall i c, i < length l -> exists l', set_at l i c = Fine l' /\ length l' = length l /\
  forall j d, nth_error l j = Some d -> nth_error l' j = Some (if Nat.eqb j i then c else d).
Proof.
  induction l as [|x l IH]; intros i c H; [cbn in H; lia|]. destruct i as [|i]; cbn.
  - eexists. split; [reflexivity|]. split; [reflexivity|]. intros [|j] d E; cbn in *; [reflexivity|exact E].
  - cbn in H. destruct (IH i c ltac:(lia)) as (l' & E & L & X). rewrite E. cbn.
    eexists. split; [reflexivity|]. split; [cbn; lia|]. intros [|j] d G; cbn in *; [exact G|]. apply X. exact G.
Qed.
Lemma keep_lines_spec m ls : (0 < m)%Z -> exists r, keep_lines m ls = Fine r /\ Forall2 (with_zero m) (not_empty ls) r.
Proof.
  intros M. induction ls as [|l ls IH].
  - exists []. split; [reflexivity|constructor].
  - destruct IH as (r & E & F). destruct l as [|c l].
    + exists r. split; [exact E|exact F].
    + cbn [not_empty].
      assert (K : forall x, x <> [] -> keep_lines m (x :: ls) = bind (if (m <=? Z.of_nat (length x))%Z
         then if (m =? 0)%Z then OutOfRange else set_at x (Z.to_nat (m - 1)) 0%N else Fine x) (fun y =>
           bind (keep_lines m ls) (fun r => Fine (y :: r)))) by (intros [|? ?] X; [congruence|reflexivity]).
      rewrite K, E by discriminate. clear K. generalize (c :: l). intros x.
      assert (Q : exists x', (if (m <=? Z.of_nat (length x))%Z
         then if (m =? 0)%Z then OutOfRange else set_at x (Z.to_nat (m - 1)) 0%N else Fine x) = Fine x' /\ with_zero m x x').
      { destruct (Z.leb_spec m (Z.of_nat (length x))) as [G|G].
        - destruct (Z.eqb_spec m 0) as [Z0|_]; [lia|].
          destruct (set_at_spec x (Z.to_nat (m - 1)) 0%N ltac:(lia)) as (x' & E' & L' & N').
          exists x'. split; [exact E'|]. split; [exact L'|]. intros i d H. rewrite (N' i d H).
          split; intros J; destruct (Nat.eqb_spec i (Z.to_nat (m - 1))); try reflexivity; lia.
        - exists x. split; [reflexivity|]. split; [reflexivity|]. intros i d H. split; [|intros _; exact H].
          intros J. assert (i < length x) by (apply nth_error_Some; rewrite H; discriminate). lia. }
      destruct Q as (x' & Q & W). rewrite Q. cbn [bind]. eexists. split; [reflexivity|]. constructor; assumption.
Qed.
Lemma read_lines_spec d p ls last m : file_at d p = Some (text_of ls last) -> Forall one_line ls -> one_line last ->
  m <> 0%Z ->
  exists r, ReadLines d p m = Ok (Fine r) /\
    Forall2 (with_zero (if (m <? 0)%Z then 32768 else m)) (not_empty (ls ++ [last])) r.
Proof.
  intros E F O M. unfold ReadLines. rewrite E, getlines_text by assumption.
  destruct (keep_lines_spec (max_length_of m) (ls ++ match last with [] => [] | _ => [last] end)) as (r & K & W).
  { unfold max_length_of, kDefaultMaxLineLength. destruct (Z.ltb_spec m 0); lia. }
  rewrite K, not_empty_last in *. exists r. split; [reflexivity|exact W].
Qed.
Lemma nth_error_same {A} (a : list A) : forall b, (forall i, nth_error a i = nth_error b i) -> a = b.
Proof.
  induction a as [|x a IH]; intros [|y b] H.
  - reflexivity.
  - discriminate (H 0).
  - discriminate (H 0).
  - pose proof (H 0) as [= ->]. f_equal. apply IH. intros i. exact (H (S i)).
Qed.
Lemma with_zero_short m l l' : (Z.of_nat (length l) < m)%Z -> with_zero m l l' -> l' = l.
Proof.
  intros S [L X]. apply nth_error_same. intros i. destruct (nth_error l i) as [c|] eqn:E.
  - apply (proj2 (X i c E)). assert (i < length l) by (apply nth_error_Some; rewrite E; discriminate). lia.
  - apply nth_error_None in E. apply nth_error_None. lia.
Qed.
Lemma read_lines_short d p ls last m : file_at d p = Some (text_of ls last) -> Forall one_line ls -> one_line last ->
  Forall (fun l => (Z.of_nat (length l) < m)%Z) (ls ++ [last]) ->
  ReadLines d p m = Ok (Fine (not_empty (ls ++ [last]))).
Proof.
  intros E F O B. assert (M : (0 < m)%Z) by (apply Forall_app in B as [_ B]; inversion B; lia).
  destruct (read_lines_spec d p ls last m E F O ltac:(lia)) as (r & R & W). rewrite R. do 2 f_equal.
  destruct (Z.ltb_spec m 0) as [?|_]; [lia|].
  assert (B' : Forall (fun l => (Z.of_nat (length l) < m)%Z) (not_empty (ls ++ [last]))).
  { clear -B. induction (ls ++ [last]) as [|[|c l] k IH]; cbn; [constructor| |]; inversion B; subst.
    - apply IH; assumption.
    - constructor; [assumption|apply IH; assumption]. }
  clear R E F O B. revert B'. induction W as [|l l' a b H W IH]; intros B'; [reflexivity|]. inversion B'; subst.
  f_equal; [apply (with_zero_short m); assumption|apply IH; assumption].
Qed.
Lemma any_text s : exists ls last, s = text_of ls last /\ Forall one_line ls /\ one_line last.
Proof.
  induction s as [|c s (ls & last & E & F & O)].
  - exists [], []. split; [reflexivity|]. split; [constructor|intros []].
  - destruct (N.eq_dec c 10) as [->|C].
    + exists ([] :: ls), last. split; [rewrite E; reflexivity|]. split; [constructor; [intros []|exact F]|exact O].
    + destruct ls as [|l ls].
      * exists [], (c :: last). split; [rewrite E; reflexivity|]. split; [constructor|]. intros [X|X]; [congruence|exact (O X)].
      * exists ((c :: l) :: ls), last. split; [rewrite E; reflexivity|]. inversion F; subst. split; [|exact O].
        constructor; [|assumption]. intros [X|X]; [congruence|contradiction].
Qed.
Lemma long_line : exists d p m r, ReadLines d p m = Ok (Fine [r]) /\ (0 < m < Z.of_nat (length r))%Z /\ In 0%N r.
Proof.
  exists (Disk (fun _ => Some [97; 98; 99; 100]%N) (fun _ => true) 0), [], 3%Z, [97; 98; 0; 100]%N.
  split; [vm_compute; reflexivity|]. split; [cbn; lia|]. right. right. left. reflexivity.
Qed.
Lemma zero_length d p c s : file_at d p = Some (c :: s) -> c <> 10%N -> ReadLines d p 0 = Ok OutOfRange.
Proof.
  intros E C. unfold ReadLines. rewrite E. f_equal.
  destruct (any_text (c :: s)) as (ls & last & T & F & O). rewrite T, getlines_text by assumption.
  destruct ls as [|l ls].
  - destruct last as [|x last]; [discriminate T|]. reflexivity.
  - destruct l as [|x l]; [cbn in T; congruence|]. reflexivity.
Qed.

(** Lines written one by one *)
Lemma write_spec takes data buf n data' : Write takes data buf = (n, data') -> n = length buf -> data' = data ++ buf.
Proof. unfold Write. intros [= <- <-] E. rewrite E, firstn_all. reflexivity. Qed.
Lemma write_line_spec takes data l data' : WriteLine takes data l = (true, data') -> data' = data ++ l ++ [10%N].
Proof.
  unfold WriteLine. destruct (Write takes data l) as [n d1] eqn:E1. destruct (Nat.eqb_spec n (length l)) as [E|_]; [|discriminate].
  destruct (Write takes d1 [10%N]) as [m d2] eqn:E2. intros [= X <-]. apply Nat.eqb_eq in X.
  rewrite (write_spec _ _ _ _ _ E2 X), (write_spec _ _ _ _ _ E1 E), <- app_assoc. reflexivity.
Qed.
Lemma write_lines_spec takes ls : forall data data', WriteLines takes data ls = (true, data') -> data' = data ++ text_of ls [].
Proof.
  induction ls as [|l ls IH]; intros data data'; cbn [WriteLines].
  - intros [= <-]. unfold text_of. cbn. rewrite app_nil_r. reflexivity.
  - destruct (WriteLine takes data l) as [ok d1] eqn:E. destruct ok; [|discriminate].
    intros H. rewrite (IH _ _ H), (write_line_spec _ _ _ _ E). unfold text_of. cbn. rewrite <- !app_assoc. reflexivity.
Qed.
Lemma not_empty_nil ls : not_empty (ls ++ [[]]) = not_empty ls.
Proof. rewrite not_empty_app. cbn. apply app_nil_r. Qed.
Lemma write_lines_read takes ls contents d p m : WriteLines takes [] ls = (true, contents) -> file_at d p = Some contents ->
  Forall one_line ls -> (0 < m)%Z -> Forall (fun l => (Z.of_nat (length l) < m)%Z) ls ->
  ReadLines d p m = Ok (Fine (not_empty ls)).
Proof.
  intros W E F M B. rewrite <- not_empty_nil. apply read_lines_short; [|exact F|intros []|].
  - rewrite E. f_equal. exact (write_lines_spec _ _ _ _ W).
  - apply Forall_app. split; [exact B|]. constructor; [cbn; lia|constructor].
Qed.
Lemma write_lines_all takes ls : takes_all takes -> forall data, WriteLines takes data ls = (true, data ++ text_of ls []).
Proof.
  intros T. assert (W : forall data buf, Write takes data buf = (length buf, data ++ buf)).
  { intros data buf. unfold Write. rewrite Nat.min_r by apply T. rewrite firstn_all. reflexivity. }
  induction ls as [|l ls IH]; intros data; cbn [WriteLines].
  - unfold text_of. cbn. rewrite app_nil_r. reflexivity.
  - unfold WriteLine. rewrite W, Nat.eqb_refl, W. cbn [length Nat.eqb]. rewrite IH. unfold text_of. cbn.
    rewrite <- !app_assoc. reflexivity.
Qed.

(** ** Bytes *)
Lemma firstn_two {A} m r : forall x : list A, firstn m x ++ firstn r (skipn m x) = firstn (m + r) x.
Proof.
  induction m as [|m IH]; intros x; [reflexivity|].
  destruct x as [|y x]; cbn; [destruct r; reflexivity|]. f_equal. apply IH.
Qed.
Lemma skipn_two {A} m r : forall x : list A, skipn r (skipn m x) = skipn (m + r) x.
Proof.
  induction m as [|m IH]; intros x; [reflexivity|].
  destruct x as [|y x]; cbn; [destruct r; reflexivity|]. apply IH.
Qed.
Lemma read_loop_spec gives b : good_reader gives -> (0 < b)%Z -> forall fuel needed input output, length input < fuel ->
  (0 <= needed)%Z ->
  read_loop gives fuel b needed input output =
    Some (output ++ firstn (Z.to_nat (Z.min needed (Z.of_nat (length input)))) input,
          skipn (Z.to_nat (Z.min needed (Z.of_nat (length input)))) input).
Proof.
  intros [G0 G] B. induction fuel as [|fuel IH]; intros needed input output L P; [lia|].
  cbn [read_loop]. destruct (Z.ltb_spec 0 needed) as [H|H].
  - destruct input as [|c input].
    + rewrite G0. cbn. rewrite firstn_nil, skipn_nil, app_nil_r. reflexivity.
    + set (k := if (b <? needed)%Z then b else needed).
      assert (K : (0 < k <= needed)%Z) by (unfold k; destruct (Z.ltb_spec b needed); lia).
      set (x := c :: input) in *. destruct (G x k ltac:(discriminate) ltac:(lia)) as (G1 & G2 & G3).
      destruct (gives x k) as [|n]; [lia|]. set (m := S n) in *.
      rewrite IH by (rewrite ?skipn_length; lia). rewrite skipn_length.
      replace (Z.min needed (Z.of_nat (length x))) with (Z.of_nat m + Z.min (needed - Z.of_nat m) (Z.of_nat (length x - m)))%Z by lia.
      rewrite Z2Nat.inj_add, Nat2Z.id by lia. set (r := Z.to_nat (Z.min (needed - Z.of_nat m) (Z.of_nat (length x - m)))).
      clearbody r m. rewrite <- app_assoc. f_equal. f_equal.
      * f_equal. apply firstn_two.
      * apply skipn_two.
  - replace needed with 0%Z by lia. rewrite Z.min_l by lia. cbn. rewrite app_nil_r. reflexivity.
Qed.
Lemma to_int_small z : (- 2 ^ 31 <= z < 2 ^ 31)%Z -> to_int z = z.
Proof. intros H. unfold to_int. rewrite Z.mod_small by lia. lia. Qed.
Lemma read_to_string_spec gives input max : good_reader gives -> (max < 2 ^ 63)%N ->
  exists text rest, ReadToString gives input max = Fine (Some (text, rest)) /\ input = text ++ rest /\
    N.of_nat (length text) = N.min max (N.of_nat (length input)).
Proof.
  intros G M. unfold ReadToString. destruct (N.eqb_spec max 0) as [->|M0].
  - exists [], input. split; [reflexivity|]. split; [reflexivity|]. cbn. lia.
  - unfold to_int64. destruct (Z.ltb_spec (Z.of_N max) (2 ^ 63)) as [_|X]; [|lia].
    set (b := if (Z.of_N max <? 2 ^ 21)%Z then Z.of_N max else (2 ^ 21)%Z).
    assert (B : (0 < b <= 2 ^ 21)%Z) by (unfold b; destruct (Z.ltb_spec (Z.of_N max) (2 ^ 21)); lia).
    rewrite (to_int_small b) by lia. destruct (Z.ltb_spec b 0) as [X|_]; [lia|].
    rewrite read_loop_spec by (assumption || lia).
    eexists _, _. split; [reflexivity|]. cbn [app]. split; [symmetry; apply firstn_skipn|].
    rewrite firstn_length. lia.
Qed.
Lemma fread_good : good_reader (fun input n => Nat.min (Z.to_nat n) (length input)) /\
  good_reader (fun input _ => Nat.min 1 (length input)).
Proof.
  split; (split; [intros n; cbn; lia|intros [|c i] n E P; [congruence|cbn [length]; lia]]).
Qed.
Lemma read_everything_fails gives input : ReadToString gives input (2 ^ 64 - 1) = Exn.
Proof. reflexivity. Qed.

Lemma fgets_loop_spec n : forall input l r, fgets_loop n input = (l, r) ->
  input = l ++ r /\ length l <= n /\ (forall a b, l = a ++ 10%N :: b -> b = []) /\
  (length l = n \/ r = [] \/ exists a, l = a ++ [10%N]).
Proof.
  induction n as [|n IH]; intros input l r.
  - cbn. intros [= <- <-]. repeat split; auto. intros [|? ?] ?; discriminate.
  - destruct input as [|c input]; cbn [fgets_loop].
    + intros [= <- <-]. cbn. repeat split; try lia; auto. intros [|? ?] ?; discriminate.
    + destruct (N.eqb_spec c 10) as [->|C].
      * intros [= <- <-]. cbn. repeat split; try lia.
        -- intros [|x a] b [= <-]; [reflexivity|]. subst. destruct a; discriminate.
        -- right. right. exists []. reflexivity.
      * destruct (fgets_loop n input) as [l' r'] eqn:E. intros [= <- <-].
        destruct (IH _ _ _ E) as (E1 & L & U & D). repeat split.
        -- cbn. congruence.
        -- cbn. lia.
        -- intros [|x a] b [= X Y]; [congruence|]. exact (U _ _ Y).
        -- destruct D as [D|[D|[a D]]]; [left; cbn; congruence|right; left; exact D|].
           right. right. exists (c :: a). cbn. congruence.
Qed.
Lemma read_line_spec input max : input <> [] -> (2 <= max < 2 ^ 31)%N ->
  exists l r, ReadLine input max = Some (l, r) /\ input = l ++ r /\ l <> [] /\ (N.of_nat (length l) < max)%N /\
    (forall a b, l = a ++ 10%N :: b -> b = []) /\
    (N.of_nat (length l) + 1 = max \/ r = [] \/ exists a, l = a ++ [10%N])%N.
Proof.
  intros I0 M. unfold ReadLine. rewrite to_int_small by lia. unfold fgets.
  destruct (Z.leb_spec (Z.of_N max) 0) as [X|_]; [lia|]. destruct input as [|c input]; [congruence|].
  set (x := c :: input) in *. set (n := Z.to_nat (Z.min (Z.of_N max - 1) (Z.of_nat (length x)))).
  assert (LX : 0 < length x) by (unfold x; cbn; lia). clearbody x.
  destruct (fgets_loop n x) as [l r] eqn:E. destruct (fgets_loop_spec n x l r E) as (E1 & L & U & D).
  exists l, r. split; [reflexivity|]. split; [exact E1|]. 
  assert (LL : length x = length l + length r) by (rewrite E1; apply app_length).
  repeat split.
  - intros ->. cbn in D. destruct D as [D|[D|[a D]]]; [lia| |destruct a; discriminate].
    subst r. cbn in LL. lia.
  - lia.
  - exact U.
  - destruct D as [D|D]; [|right; exact D]. destruct r as [|z r]; [right; left; reflexivity|]. cbn in LL. left. unfold n in D. lia.
Qed.
Lemma read_line_huge input : ReadLine input (2 ^ 31) = None.
Proof. reflexivity. Qed.

(** ** Messages *)
Section Messages.
  Context {message : Type} (text_parse binary_parse : str -> bool * message).
  Lemma read_proto d p c m0 : file_at d p = Some c -> c <> [] ->
    (forall m, text_parse c = (true, m) -> ReadFileToProto message text_parse binary_parse d p m0 = (true, m)) /\
    (forall m m', text_parse c = (false, m') -> binary_parse c = (true, m) ->
      ReadFileToProto message text_parse binary_parse d p m0 = (true, m)) /\
    (fst (text_parse c) = false -> fst (binary_parse c) = false ->
      fst (ReadFileToProto message text_parse binary_parse d p m0) = false).
  Proof.
    intros E C. unfold ReadFileToProto, ReadTextFile. rewrite E. destruct c as [|x c]; [congruence|].
    split; [|split].
    - intros m ->. reflexivity.
    - intros m m' -> ->. reflexivity.
    - destruct (text_parse (x :: c)) as [[|] ?]; [discriminate|]. destruct (binary_parse (x :: c)) as [[|] ?]; [discriminate|]. reflexivity.
  Qed.
  Lemma read_proto_empty d p m0 : file_at d p = Some [] \/ file_at d p = None ->
    ReadFileToProto message text_parse binary_parse d p m0 = (false, m0).
  Proof. unfold ReadFileToProto, ReadTextFile. intros [-> | ->]; reflexivity. Qed.
  Lemma text_proto d p m0 flags :
    (exists m, GetTextProto message text_parse binary_parse d p m0 flags = (Ok tt, m)) <->
    flags = 0xBABA%Z /\ fst (ReadFileToProto message text_parse binary_parse d p m0) = true.
  Proof.
    unfold GetTextProto. change Defaults with 0xBABA%Z. destruct (Z.eqb_spec flags 0xBABA) as [->|F].
    - destruct (ReadFileToProto message text_parse binary_parse d p m0) as [[|] m]; cbn.
      + split; [split; reflexivity|]. exists m. reflexivity.
      + split; [intros [? ?]; discriminate|intros [_ ?]; discriminate].
    - split; [intros [? ?]; discriminate|intros [? _]; contradiction].
  Qed.
End Messages.
