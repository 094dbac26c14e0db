(** Proofs about the symbol tables of bytes and characters. *)
From Coq Require Import String Ascii.
From Verif Require Import Base DelimModel SymtabModel SymtabSpec.
Local Open Scope list_scope.
Local Open Scope N_scope.

(** ** Tables *)
Lemma find_row_app s a b : find_row s (a ++ b) = match find_row s a with Some k => Some k | None => find_row s b end.
Proof. induction a as [|[t k] a IH]; cbn; [reflexivity|]. destruct (str_eqb t s); [reflexivity|exact IH]. Qed.
Lemma find_row_in s l k : find_row s l = Some k -> In (s, k) l.
Proof.
  induction l as [|[t j] l IH]; cbn; [discriminate|]. destruct (str_eqb t s) eqn:E.
  - intros H. injection H as <-. apply str_eqb_eq in E. subst. auto.
  - auto.
Qed.
Lemma find_row_none s l : find_row s l = None <-> ~ In s (map fst l).
Proof.
  induction l as [|[t j] l IH]; cbn; [tauto|]. destruct (str_eqb t s) eqn:E.
  - apply str_eqb_eq in E. split; [discriminate|tauto].
  - apply str_eqb_neq in E. rewrite IH. tauto.
Qed.
Lemma find_row_nodup s k l : NoDup (map fst l) -> In (s, k) l -> find_row s l = Some k.
Proof.
  induction l as [|[t j] l IH]; cbn; [tauto|]. intros Nd In'. inversion Nd as [|x y Ni Nd' Eq]; subst. destruct In' as [E|In'].
  - injection E as -> ->. rewrite str_eqb_refl. reflexivity.
  - destruct (str_eqb t s) eqn:E; [|auto]. apply str_eqb_eq in E. subst. exfalso. apply Ni. apply (in_map fst) in In'. exact In'.
Qed.

Definition good (t : table) : Prop :=
  NoDup (map fst (rows t)) /\ (forall k, k < dense t -> exists s, nth_error (rows t) (N.to_nat k) = Some (s, k)).

Lemma good_add t s k : good t -> good (add_symbol t s k).
Proof.
  intros [Nd De]. unfold add_symbol, find_key. destruct (find_row s (rows t)) eqn:F; [split; assumption|]. apply find_row_none in F.
  assert (Nd' : NoDup (map fst (rows t ++ [(s, k)]))).
  { rewrite map_app. cbn. apply NoDup_app_intro; [exact Nd|repeat constructor; cbn; tauto|]. intros x I1 [<-|[]]. exact (F I1). }
  assert (Old : forall j, j < dense t -> exists u, nth_error (rows t ++ [(s, k)]) (N.to_nat j) = Some (u, j)).
  { intros j L. destruct (De j L) as (u & E). exists u. rewrite nth_error_app1; [exact E|]. apply nth_error_Some. rewrite E. discriminate. }
  destruct ((k =? N.of_nat (length (rows t))) && (k =? dense t)) eqn:B; split; cbn; auto.
  apply andb_true_iff in B as [B1 B2]. apply N.eqb_eq in B1, B2. intros j L. destruct (N.eq_dec j k) as [->|Ne].
  - exists s. rewrite nth_error_app2 by lia. replace (N.to_nat k - length (rows t))%nat with 0%nat by lia. reflexivity.
  - apply Old. lia.
Qed.

Lemma find_key_add t s k u j : find_key t u = Some j -> find_key (add_symbol t s k) u = Some j.
Proof.
  unfold find_key, add_symbol, find_key. intros F. destruct (find_row s (rows t)); [exact F|].
  destruct (_ && _); cbn; rewrite find_row_app, F; reflexivity.
Qed.
Lemma find_key_new t s k : find_key t s = None -> find_key (add_symbol t s k) s = Some k.
Proof.
  unfold find_key, add_symbol, find_key. intros F. rewrite F.
  destruct (_ && _); cbn; rewrite find_row_app, F; cbn; rewrite str_eqb_refl; reflexivity.
Qed.
Lemma find_symbol_dense t s k j : good t -> j < dense t -> find_symbol (add_symbol t s k) j = find_symbol t j.
Proof.
  intros [Nd De] L. unfold find_symbol. destruct (De j L) as (u & E).
  assert (L' : (N.to_nat j < length (rows t))%nat) by (apply nth_error_Some; rewrite E; discriminate).
  unfold add_symbol. destruct (find_key t s); [reflexivity|]. destruct (_ && _); cbn.
  - replace (j <? dense t + 1) with true by (symmetry; apply N.ltb_lt; lia). replace (j <? dense t) with true by (symmetry; apply N.ltb_lt; lia).
    rewrite nth_error_app1 by exact L'. reflexivity.
  - replace (j <? dense t) with true by (symmetry; apply N.ltb_lt; lia). rewrite nth_error_app1 by exact L'. reflexivity.
Qed.
Lemma find_symbol_new t s k : good t -> find_key t s = None -> (forall u, find_key t u <> Some k) -> find_symbol (add_symbol t s k) k = s.
Proof.
  intros [Nd De] F Un. assert (L : dense t <= k).
  { destruct (N.le_gt_cases (dense t) k) as [L|L]; [exact L|]. destruct (De k L) as (u & E). exfalso. apply (Un u).
    unfold find_key. apply find_row_nodup; [exact Nd|]. exact (nth_error_In _ _ E). }
  unfold find_symbol, add_symbol. rewrite F. destruct ((k =? N.of_nat (length (rows t))) && (k =? dense t)) eqn:B; cbn.
  - apply andb_true_iff in B as [B1 B2]. apply N.eqb_eq in B1, B2. replace (k <? dense t + 1) with true by (symmetry; apply N.ltb_lt; lia).
    rewrite nth_error_app2 by lia. replace (N.to_nat k - length (rows t))%nat with 0%nat by lia. reflexivity.
  - replace (k <? dense t) with false by (symmetry; apply N.ltb_ge; exact L). rewrite N.eqb_refl.
    rewrite nth_error_app2 by lia. rewrite Nat.sub_diag. reflexivity.
Qed.
Lemma dense_add t s k : dense t <= dense (add_symbol t s k).
Proof. unfold add_symbol. destruct (find_key t s); [lia|]. destruct (_ && _); cbn; lia. Qed.

(** ** Tables made of different names *)
Lemma numbers_length c n : length (numbers c n) = n.
Proof. revert c. induction n; cbn; auto. Qed.
Lemma numbers_in c n x : In x (numbers c n) <-> c <= x < c + N.of_nat n.
Proof.
  revert c. induction n as [|n IH]; intros c; cbn [numbers In]; [lia|]. rewrite IH. lia.
Qed.
Lemma numbers_nodup c n : NoDup (numbers c n).
Proof. revert c. induction n as [|n IH]; intros c; cbn; constructor; auto. rewrite numbers_in. lia. Qed.
Lemma numbers_snoc c n : numbers c (S n) = numbers c n ++ [c + N.of_nat n].
Proof.
  revert c. induction n as [|n IH]; intros c; [cbn [numbers app]; replace (c + N.of_nat 0) with c by lia; reflexivity|]. change (numbers c (S (S n))) with (c :: numbers (c + 1) (S n)).
  rewrite IH. cbn [numbers app]. replace (c + 1 + N.of_nat n) with (c + N.of_nat (S n)) by lia. reflexivity.
Qed.

Lemma add_names_spec name l n : l = numbers 1 n -> (forall x y, In x l -> In y l -> name x = name y -> x = y) -> (forall x, In x l -> name x <> epsilon) ->
  add_names name l (add_symbol empty_table epsilon 0) = Table ((epsilon, 0) :: map (fun c => (name c, c)) l) (N.of_nat (S n)) [].
Proof.
  intros ->. induction n as [|n IH]; intros Inj Ne; [reflexivity|]. rewrite numbers_snoc in *. unfold add_names in *. rewrite fold_left_app.
  rewrite IH; [|intros x y Ix Iy; apply Inj; apply in_or_app; auto|intros x Ix; apply Ne; apply in_or_app; auto]. cbn [fold_left].
  unfold add_symbol at 1. unfold find_key. cbn [rows dense key_map].
  assert (F : find_row (name (1 + N.of_nat n)) ((epsilon, 0) :: map (fun c => (name c, c)) (numbers 1 n)) = None).
  { apply find_row_none. cbn [map fst]. rewrite map_map. cbn [fst]. intros [E|E].
    - refine (Ne (1 + N.of_nat n) _ (eq_sym E)). apply in_or_app. right. left. reflexivity.
    - apply in_map_iff in E as (x & E & Ix). apply Inj in E; [|apply in_or_app; auto|apply in_or_app; right; left; reflexivity].
      apply numbers_in in Ix. lia. }
  rewrite F. cbn [length]. rewrite map_length, numbers_length.
  replace (1 + N.of_nat n =? N.of_nat (S n)) with true by (symmetry; apply N.eqb_eq; lia). cbn [andb].
  rewrite map_app. cbn [map app]. f_equal. lia.
Qed.

(** A generated table and what is added to it *)
Definition grown (name : N -> str) (n : nat) (t : table) : Prop :=
  good t /\ N.of_nat n < dense t /\ find_symbol t 0 = epsilon /\ find_key t epsilon = Some 0 /\
  forall c, 1 <= c <= N.of_nat n -> find_symbol t c = name c /\ find_key t (name c) = Some c.
Lemma grown_start name n : (forall x y, In x (numbers 1 n) -> In y (numbers 1 n) -> name x = name y -> x = y) -> (forall x, In x (numbers 1 n) -> name x <> epsilon) ->
  grown name n (add_names name (numbers 1 n) (add_symbol empty_table epsilon 0)).
Proof.
  intros Inj Ne. rewrite (add_names_spec name _ n eq_refl Inj Ne).
  assert (Nd : NoDup (map fst ((epsilon, 0) :: map (fun c => (name c, c)) (numbers 1 n)))).
  { cbn [map fst]. rewrite map_map. cbn [fst]. constructor.
    - intros I'. apply in_map_iff in I' as (x & E & Ix). exact (Ne x Ix E).
    - clear Ne. assert (Nd := numbers_nodup 1 n). revert Inj Nd. generalize (numbers 1 n). intros l. induction l as [|a l IH]; intros Inj Nd; cbn; [constructor|].
      inversion Nd as [|p q Na Nd' Eq]; subst. constructor.
      + intros I'. apply in_map_iff in I' as (x & E & Ix). apply Inj in E; [|right; exact Ix|left; reflexivity]. subst. exact (Na Ix).
      + apply IH; [|exact Nd']. intros x y Ix Iy. apply Inj; right; assumption. }
  assert (Nth : forall c, 1 <= c <= N.of_nat n -> nth_error ((epsilon, 0) :: map (fun c => (name c, c)) (numbers 1 n)) (N.to_nat c) = Some (name c, c)).
  { intros c L. replace (N.to_nat c) with (S (N.to_nat (c - 1))) by lia. cbn [nth_error]. rewrite nth_error_map.
    assert (H : forall a m i, (i < m)%nat -> nth_error (numbers a m) i = Some (a + N.of_nat i)).
    { clear. intros a m. revert a. induction m as [|m IH]; intros a i L; [lia|]. destruct i as [|i]; cbn [numbers nth_error]; [f_equal; lia|].
      rewrite IH by lia. f_equal. lia. }
    rewrite H by lia. cbn [option_map]. replace (1 + N.of_nat (N.to_nat (c - 1))) with c by lia. reflexivity. }
  split; [split; [exact Nd|]|split; [|split; [|split]]].
  - cbn [dense rows]. intros k L. destruct (N.eq_dec k 0) as [->|Nz]; [exists epsilon; reflexivity|]. exists (name k). apply Nth. lia.
  - cbn [dense]. lia.
  - unfold find_symbol. cbn [dense rows]. replace (0 <? N.of_nat (S n)) with true by (symmetry; apply N.ltb_lt; lia). reflexivity.
  - reflexivity.
  - intros c L. split.
    + unfold find_symbol. cbn [dense rows]. replace (c <? N.of_nat (S n)) with true by (symmetry; apply N.ltb_lt; lia). rewrite (Nth c L). reflexivity.
    + unfold find_key. cbn [rows]. apply find_row_nodup; [exact Nd|]. exact (nth_error_In _ _ (Nth c L)).
Qed.
Lemma grown_add name n t s k : grown name n t -> grown name n (add_symbol t s k).
Proof.
  intros (G & De & E1 & E2 & H). split; [exact (good_add t s k G)|]. split; [assert (D := dense_add t s k); lia|].
  split; [rewrite find_symbol_dense; [exact E1|exact G|lia]|]. split; [apply find_key_add; exact E2|].
  intros c L. destruct (H c L) as [H1 H2]. split; [rewrite find_symbol_dense; [exact H1|exact G|lia]|apply find_key_add; exact H2].
Qed.

(** ** Names *)
Lemma hex_digit_ok d : d < 16 -> digit (hex_digit d) d.
Proof.
  intros L. unfold hex_digit. destruct (d <? 10) eqn:E; [apply N.ltb_lt in E|apply N.ltb_ge in E].
  - replace (d + 48) with (48 + d) by lia. constructor. exact E.
  - replace (d + 87) with (97 + (d - 10)) by lia. constructor. lia.
Qed.
Lemma digit_range c d : digit c d -> d < 16 /\ 48 <= c < 123 /\ c <> 127.
Proof. intros []; lia. Qed.
Lemma digit_fun c d e : digit c d -> digit c e -> d = e.
Proof. intros H K. inversion H; inversion K; lia. Qed.
Lemma digit_inj c c' d : digit c d -> digit c' d -> c = c'.
Proof. intros H K. inversion H; inversion K; lia. Qed.
Lemma numeral_fun x : forall n m, numeral x n -> numeral x m -> n = m.
Proof.
  intros n m H. revert m. induction H as [|x n c d H IH D]; intros m K.
  - inversion K as [|y k c' d' K' D' E]; [reflexivity|]. destruct y; discriminate.
  - inversion K as [E|y k c' d' K' D' E]; [destruct x; discriminate|]. apply app_inj_tail in E as [-> ->]. rewrite (IH _ K'), (digit_fun _ _ _ D D'). reflexivity.
Qed.
Lemma numeral_bytes x n : numeral x n -> Forall (fun b => 48 <= b < 123) x.
Proof. induction 1 as [|x n c d H IH D]; [constructor|]. apply Forall_app. split; [exact IH|]. constructor; [|constructor]. apply digit_range in D. lia. Qed.
Lemma numeral_zeros x n k : numeral x n -> numeral (repeat 48 k ++ x) n.
Proof.
  intros H. induction H as [|x n c d H IH D].
  - rewrite app_nil_r. induction k as [|k IH]; [constructor|]. rewrite <- (repeat_cons k 48) || idtac.
    change (repeat 48 (S k)) with (48 :: repeat 48 k). rewrite repeat_cons. change 0 with (16 * 0 + 0). constructor; [exact IH|]. change 48 with (48 + 0). constructor. lia.
  - rewrite app_assoc. constructor; assumption.
Qed.
Ltac Zify.zify_post_hook ::= Z.to_euclidean_division_equations.
Lemma hex_numeral f : forall c, c < 16 ^ N.of_nat (S f) -> numeral (hex_digits (S f) c) c.
Proof.
  induction f as [|f IH]; intros c L.
  - change (16 ^ N.of_nat 1) with 16 in L. cbn [hex_digits]. replace (c <? 16) with true by (symmetry; apply N.ltb_lt; exact L).
    change [hex_digit c] with ([] ++ [hex_digit c]). replace c with (16 * 0 + c) at 2 by lia. constructor; [constructor|apply hex_digit_ok; exact L].
  - change (hex_digits (S (S f)) c) with (if c <? 16 then [hex_digit c] else hex_digits (S f) (c / 16) ++ [hex_digit (c mod 16)]).
    destruct (c <? 16) eqn:E; [apply N.ltb_lt in E|].
    + change [hex_digit c] with ([] ++ [hex_digit c]). replace c with (16 * 0 + c) at 2 by lia. constructor; [constructor|apply hex_digit_ok; exact E].
    + replace c with (16 * (c / 16) + c mod 16) at 3 by (symmetry; apply N.div_mod; discriminate). constructor.
      * apply IH. apply N.div_lt_upper_bound; [discriminate|]. rewrite <- N.pow_succ_r by lia. replace (N.succ (N.of_nat (S f))) with (N.of_nat (S (S f))) by lia. exact L.
      * apply hex_digit_ok. apply N.mod_lt. discriminate.
Qed.
Lemma hex_length f : forall c w, (1 <= w)%nat -> c < 16 ^ N.of_nat w -> (length (hex_digits f c) <= w)%nat.
Proof.
  induction f as [|f IH]; intros c w W L; cbn [hex_digits]; [cbn; lia|]. destruct (c <? 16) eqn:E; [cbn; lia|]. apply N.ltb_ge in E.
  rewrite app_length. cbn [length]. destruct w as [|[|w]]; [lia|change (16 ^ N.of_nat 1) with 16 in L; lia|].
  specialize (IH (c / 16) (S w)). assert (length (hex_digits f (c / 16)) <= S w)%nat; [|lia]. apply IH; [lia|].
  apply N.div_lt_upper_bound; [discriminate|]. rewrite <- N.pow_succ_r by lia. replace (N.succ (N.of_nat (S w))) with (N.of_nat (S (S w))) by lia. exact L.
Qed.
Lemma print_hex_ok w c size : (1 <= w <= 8)%nat -> size = (w + 3)%nat -> c < 16 ^ N.of_nat w -> hexadecimal w c (print_hex size w c).
Proof.
  intros W -> L. unfold print_hex. assert (Len := hex_length 8 c w ltac:(lia) L). exists (repeat 48 (w - length (hex_digits 8 c)) ++ hex_digits 8 c).
  assert (Le : length (repeat 48 (w - length (hex_digits 8 c)) ++ hex_digits 8 c) = w) by (rewrite app_length, repeat_length; lia).
  split; [|split; [exact Le|]].
  - rewrite firstn_all2; [reflexivity|]. rewrite app_length, Le. change (length (chars "0x")) with 2%nat. lia.
  - apply numeral_zeros. apply hex_numeral. eapply N.lt_le_trans; [exact L|]. apply N.pow_le_mono_r; [discriminate|lia].
Qed.
Lemma hexadecimal_fun w c c' name : hexadecimal w c name -> hexadecimal w c' name -> c = c'.
Proof. intros (x & -> & _ & H) (y & E & _ & K). apply app_inv_head in E. subst. exact (numeral_fun y _ _ H K). Qed.
Lemma numeral_inj w : forall x y n, length x = w -> length y = w -> numeral x n -> numeral y n -> x = y.
Proof.
  induction w as [|w IH]; intros x y n Lx Ly H K.
  - destruct x, y; cbn in *; try discriminate. reflexivity.
  - inversion H as [E|x' a c d H' D E1 E2]; subst; [discriminate|]. remember (16 * a + d) as m eqn:Em. inversion K as [E|y' b c' d' K' D' E3 E4]; subst y; [discriminate|]. fold (16 * b) in E4.
    rewrite app_length in Lx, Ly. cbn [length] in Lx, Ly. assert (R := proj1 (digit_range _ _ D)). assert (R' := proj1 (digit_range _ _ D')).
    change (16 * b + d' = m) in E4. assert (a = b /\ d = d') as [-> ->] by lia. rewrite (digit_inj _ _ _ D D'). f_equal. apply (IH x' y' b); auto; lia.
Qed.
Lemma hexadecimal_inj w c x y : hexadecimal w c x -> hexadecimal w c y -> x = y.
Proof. intros (a & -> & La & H) (b & -> & Lb & K). f_equal. exact (numeral_inj w a b c La Lb H K). Qed.

Lemma utf8_label_ok c : c < 0x10000 -> encoded c (utf8_label c).
Proof.
  intros L. unfold utf8_label. destruct (c <? 0x80) eqn:E1; [apply N.ltb_lt in E1; constructor; exact E1|]. apply N.ltb_ge in E1.
  destruct (c <? 0x800) eqn:E2.
  - apply N.ltb_lt in E2. assert (E : c = 64 * (c / 64) + c mod 64) by (apply N.div_mod; discriminate). rewrite E at 1.
    replace (c / 64 + 0xC0) with (192 + c / 64) by lia. replace (c mod 64 + 0x80) with (128 + c mod 64) by lia. constructor; [lia|apply N.mod_lt; discriminate].
  - apply N.ltb_ge in E2. destruct (c <? 0x10000) eqn:E3; [clear E3|apply N.ltb_ge in E3; lia].
    assert (Q : c / 4096 = c / 64 / 64) by (rewrite N.div_div by discriminate; reflexivity).
    assert (E : c = 4096 * (c / 4096) + 64 * ((c / 64) mod 64) + c mod 64) by lia. rewrite E at 1.
    replace (c / 4096 + 0xE0) with (224 + c / 4096) by lia. replace ((c / 64) mod 64 + 0x80) with (128 + (c / 64) mod 64) by lia. replace (c mod 64 + 0x80) with (128 + c mod 64) by lia.
    constructor; rewrite ?Q; lia.
Qed.
Ltac Zify.zify_post_hook ::= idtac.
Lemma encoded_cases c l : encoded c l ->
  (c < 128 /\ l = [c]) \/ (exists x y, 2 <= x < 32 /\ y < 64 /\ c = 64 * x + y /\ l = [192 + x; 128 + y]) \/
  (exists x y z, x < 16 /\ y < 64 /\ z < 64 /\ 32 <= 64 * x + y /\ c = 4096 * x + 64 * y + z /\ l = [224 + x; 128 + y; 128 + z]).
Proof.
  intros [a L|x y X Y|x y z X Y Z W]; [left; auto|right; left; exists x, y; auto|right; right]. exists x, y, z. repeat (split; [assumption|]). auto.
Qed.
Lemma list1 (a b : N) : [a] = [b] -> a = b.
Proof. congruence. Qed.
Lemma list2 (a b c d : N) : [a; b] = [c; d] -> a = c /\ b = d.
Proof. intros H. split; congruence. Qed.
Lemma list3 (a b e c d f : N) : [a; b; e] = [c; d; f] -> a = c /\ b = d /\ e = f.
Proof. intros H. repeat split; congruence. Qed.
Lemma encoded_fun c c' x : encoded c x -> encoded c' x -> c = c'.
Proof.
  intros H K. apply encoded_cases in H, K.
  destruct H as [(L & ->)|[(a & b & A & B & -> & ->)|(a & b & e & A & B & C & D & -> & ->)]];
    destruct K as [(L' & E)|[(a' & b' & A' & B' & -> & E)|(a' & b' & e' & A' & B' & C' & D' & -> & E)]]; try discriminate E.
  - apply list1 in E. exact E.
  - apply list2 in E as [E F]. lia.
  - apply list3 in E as (E & F & G). lia.
Qed.
Lemma encoded_inj c x y : encoded c x -> encoded c y -> x = y.
Proof.
  intros H K. apply encoded_cases in H, K.
  destruct H as [(L & ->)|[(a & b & A & B & E & ->)|(a & b & e & A & B & C & D & E & ->)]];
    destruct K as [(L' & ->)|[(a' & b' & A' & B' & F & ->)|(a' & b' & e' & A' & B' & C' & D' & F & ->)]]; try (exfalso; lia).
  - reflexivity.
  - assert (a = a' /\ b = b') as [-> ->] by lia. reflexivity.
  - assert (a = a' /\ b = b' /\ e = e') as (-> & -> & ->) by lia. reflexivity.
Qed.
Lemma encoded_length c x : encoded c x -> (1 <= length x <= 3)%nat.
Proof. intros []; cbn; lia. Qed.

(** ** White space *)
Lemma cases_spec a b c : cases a b c = true <-> a <= c <= b.
Proof. unfold cases. rewrite andb_true_iff, !N.leb_le. tauto. Qed.
Lemma space_spec c : is_space_or_control c = true <-> control c \/ white kBreakingWhitespace c.
Proof.
  unfold is_space_or_control. rewrite !orb_true_iff, !cases_spec, !N.eqb_eq. unfold control, white, kBreakingWhitespace. cbn [In]. lia.
Qed.

(** ** Both tables *)
Lemma byte_name_ok c : c < 256 -> 0 < c -> byte_called c (byte_name c).
Proof.
  intros L P. unfold byte_name, byte_called. destruct ((32 <? c) && (c <? 127)) eqn:B.
  - apply andb_true_iff in B as [B1 B2]. apply N.ltb_lt in B1, B2. right. left. split; [lia|reflexivity].
  - right. right. apply andb_false_iff in B. rewrite !N.ltb_ge in B. split; [lia|]. split; [lia|]. apply print_hex_ok; [lia|reflexivity|]. exact L.
Qed.
Lemma utf8_name_ok c : c < 0x10000 -> 0 < c -> character_called (white kBreakingWhitespace) c (utf8_name c).
Proof.
  intros L P. unfold utf8_name, character_called. destruct (is_space_or_control c) eqn:B.
  - apply space_spec in B. right. left. split; [lia|]. split; [exact B|]. apply print_hex_ok; [lia|reflexivity|exact L].
  - right. right. split; [lia|]. split; [intros H; apply space_spec in H; congruence|]. apply utf8_label_ok. exact L.
Qed.
Lemma hex_len w c x : hexadecimal w c x -> length x = (2 + w)%nat.
Proof. intros (ds & -> & L & _). rewrite app_length, L. reflexivity. Qed.
Lemma byte_one c x y : byte_called c x -> byte_called c y -> x = y.
Proof.
  intros [[? ?]|[[? ?]|(? & ? & ?)]] [[? ?]|[[? ?]|(? & ? & ?)]]; subst; try lia; try reflexivity. eapply hexadecimal_inj; eassumption.
Qed.
Lemma char_one w c x y : character_called w c x -> character_called w c y -> x = y.
Proof.
  intros [[? ?]|[(? & ? & ?)|(? & ? & ?)]] [[? ?]|[(? & ? & ?)|(? & ? & ?)]]; subst; try lia; try reflexivity; try tauto.
  - eapply hexadecimal_inj; eassumption.
  - eapply encoded_inj; eassumption.
Qed.
Lemma byte_different c c' x : byte_called c x -> byte_called c' x -> c = c'.
Proof.
  intros [[E1 E2]|[[E1 E2]|(E1 & E2 & E3)]] [[F1 F2]|[[F1 F2]|(F1 & F2 & F3)]]; subst; try discriminate; try lia.
  - apply hex_len in F3. discriminate.
  - injection F2 as ->. reflexivity.
  - apply hex_len in F3. discriminate.
  - apply hex_len in E3. discriminate.
  - apply hex_len in E3. discriminate.
  - eapply hexadecimal_fun; eassumption.
Qed.
Lemma char_different w c c' x : character_called w c x -> character_called w c' x -> c = c'.
Proof.
  intros [[E1 E2]|[(E1 & E2 & E3)|(E1 & E2 & E3)]] [[F1 F2]|[(F1 & F2 & F3)|(F1 & F2 & F3)]]; subst; try lia.
  - apply hex_len in F3. discriminate.
  - apply encoded_length in F3. cbn in F3. lia.
  - apply hex_len in E3. discriminate.
  - eapply hexadecimal_fun; eassumption.
  - apply hex_len in E3. apply encoded_length in F3. lia.
  - apply encoded_length in E3. cbn in E3. lia.
  - apply hex_len in F3. apply encoded_length in E3. lia.
  - eapply encoded_fun; eassumption.
Qed.

Lemma some_inj {A} (a b : A) : Some a = Some b -> a = b.
Proof. congruence. Qed.
Definition state_ok (b : builder) : Prop :=
  (forall t, byte_symbols b = Some t -> grown byte_name (N.to_nat 255) t) /\
  (forall t, utf8_symbols b = Some t -> grown utf8_name (N.to_nat 0xFFFF) t).
Lemma bytes_start : grown byte_name (N.to_nat 255) generate_bytes.
Proof.
  apply grown_start.
  - intros x y Ix Iy E. apply numbers_in in Ix, Iy. rewrite N2Nat.id in Ix, Iy. eapply byte_different; [apply byte_name_ok; lia|]. rewrite E. apply byte_name_ok; lia.
  - intros x Ix E. apply numbers_in in Ix. rewrite N2Nat.id in Ix. assert (B := byte_name_ok x ltac:(lia) ltac:(lia)). rewrite E in B.
    assert (x = 0); [|lia]. eapply byte_different; [exact B|]. left. split; reflexivity.
Qed.
Lemma utf8_start : grown utf8_name (N.to_nat 0xFFFF) generate_utf8.
Proof.
  apply grown_start.
  - intros x y Ix Iy E. apply numbers_in in Ix, Iy. rewrite N2Nat.id in Ix, Iy. eapply char_different; [apply utf8_name_ok; lia|]. rewrite E. apply utf8_name_ok; lia.
  - intros x Ix E. apply numbers_in in Ix. rewrite N2Nat.id in Ix. assert (B := utf8_name_ok x ltac:(lia) ltac:(lia)). rewrite E in B.
    assert (x = 0); [|lia]. eapply char_different; [exact B|]. left. split; reflexivity.
Qed.
Lemma invoke_ok b c : state_ok b -> state_ok (invoke b c).
Proof.
  intros [H K]. destruct c as [| |s l|s l]; unfold invoke.
  - destruct (byte_symbols b) eqn:E; split; cbn [byte_symbols utf8_symbols]; auto; intros t' E'.
    + rewrite E in E'. auto.
    + rewrite <- (some_inj _ _ E'). exact bytes_start.
  - destruct (utf8_symbols b) eqn:E; split; cbn [byte_symbols utf8_symbols]; auto; intros t' E'.
    + rewrite E in E'. auto.
    + rewrite <- (some_inj _ _ E'). exact utf8_start.
  - destruct (byte_symbols b) as [t|] eqn:E; [|split; auto; rewrite E; discriminate]. split; cbn [byte_symbols utf8_symbols]; auto.
    intros t' E'. replace t' with (add_symbol t s l) by congruence. apply grown_add. auto.
  - destruct (utf8_symbols b) as [t|] eqn:E; [|split; auto; rewrite E; discriminate]. split; cbn [byte_symbols utf8_symbols]; auto.
    intros t' E'. replace t' with (add_symbol t s l) by congruence. apply grown_add. auto.
Qed.
Lemma all_ok l : state_ok (invoke_all l).
Proof.
  unfold invoke_all. assert (G : state_ok new_builder) by (split; discriminate). revert G. generalize new_builder. induction l as [|c l IH]; intros b G; cbn; [exact G|].
  apply IH. apply invoke_ok. exact G.
Qed.

(** ** Statements *)
Lemma bytes_named l t c : byte_symbols (invoke_all l) = Some t -> c < 256 ->
  byte_called c (find_symbol t c) /\ forall name, byte_called c name -> find_key t name = Some c.
Proof.
  intros E L. destruct (proj1 (all_ok l) t E) as (_ & _ & E1 & E2 & H). rewrite N2Nat.id in H. destruct (N.eq_dec c 0) as [->|Nz].
  - assert (B : byte_called 0 epsilon) by (left; split; reflexivity). rewrite E1. split; [exact B|]. intros name B'. rewrite <- (byte_one _ _ _ B B'). exact E2.
  - destruct (H c ltac:(lia)) as [H1 H2]. assert (B := byte_name_ok c L ltac:(lia)). rewrite H1. split; [exact B|].
    intros name B'. rewrite <- (byte_one _ _ _ B B'). exact H2.
Qed.
Lemma characters_named l t c : utf8_symbols (invoke_all l) = Some t -> c < 0x10000 ->
  character_called (white kBreakingWhitespace) c (find_symbol t c) /\ forall name, character_called (white kBreakingWhitespace) c name -> find_key t name = Some c.
Proof.
  intros E L. destruct (proj2 (all_ok l) t E) as (_ & _ & E1 & E2 & H). rewrite N2Nat.id in H. destruct (N.eq_dec c 0) as [->|Nz].
  - assert (B : character_called (white kBreakingWhitespace) 0 epsilon) by (left; split; reflexivity). rewrite E1. split; [exact B|]. intros name B'. rewrite <- (char_one _ _ _ _ B B'). exact E2.
  - destruct (H c ltac:(lia)) as [H1 H2]. assert (B := utf8_name_ok c L ltac:(lia)). rewrite H1. split; [exact B|].
    intros name B'. rewrite <- (char_one _ _ _ _ B B'). exact H2.
Qed.
Lemma no_white l t c b : utf8_symbols (invoke_all l) = Some t -> c < 0x10000 -> In b (find_symbol t c) -> 32 < b /\ b <> 127.
Proof.
  intros E L I'. destruct (characters_named l t c E L) as [H _]. revert I' H. generalize (find_symbol t c). intros x I' [[-> ->]|[(_ & _ & ds & -> & _ & Nu)|(R & Nw & En)]].
  - cbn in I'. repeat (destruct I' as [<-|I']; [lia|]). destruct I'.
  - apply in_app_or in I' as [I'|I']; [cbn in I'; repeat (destruct I' as [<-|I']; [lia|]); destruct I'|].
    apply numeral_bytes in Nu. rewrite Forall_forall in Nu. specialize (Nu b I'). lia.
  - apply encoded_cases in En as [(Lc & ->)|[(u & v & Hu & Hv & _ & ->)|(u & v & w & Hu & Hv & Hw & Hs & _ & ->)]]; unfold In in I'.
    + destruct I' as [E'|[]]. assert (c <> 32) by (intros ->; apply Nw; right; left; unfold kBreakingWhitespace; cbn; tauto). unfold control in Nw. lia.
    + lia.
    + lia.
Qed.
Lemma invoke_keeps b c : (forall t, byte_symbols b = Some t -> exists t', byte_symbols (invoke b c) = Some t' /\ forall s k, find_key t s = Some k -> find_key t' s = Some k) /\
  (forall t, utf8_symbols b = Some t -> exists t', utf8_symbols (invoke b c) = Some t' /\ forall s k, find_key t s = Some k -> find_key t' s = Some k).
Proof.
  split; intros t E; destruct c as [| |s l|s l]; unfold invoke; try rewrite E; try (exists t; split; [assumption|auto]; fail).
  - destruct (utf8_symbols b); exists t; split; auto.
  - eexists. split; [reflexivity|]. intros u k. apply find_key_add.
  - destruct (utf8_symbols b); exists t; split; auto.
  - destruct (byte_symbols b); exists t; split; auto.
  - destruct (byte_symbols b); exists t; split; auto.
  - eexists. split; [reflexivity|]. intros u k. apply find_key_add.
Qed.
Lemma calls_keep l l' : (forall t, byte_symbols (invoke_all l) = Some t -> exists t', byte_symbols (invoke_all (l ++ l')) = Some t' /\ forall s k, find_key t s = Some k -> find_key t' s = Some k) /\
  (forall t, utf8_symbols (invoke_all l) = Some t -> exists t', utf8_symbols (invoke_all (l ++ l')) = Some t' /\ forall s k, find_key t s = Some k -> find_key t' s = Some k).
Proof.
  unfold invoke_all. rewrite fold_left_app. generalize (fold_left invoke l new_builder). induction l' as [|c l' IH]; intros b; cbn [fold_left].
  - split; intros t E; exists t; auto.
  - destruct (IH (invoke b c)) as [H K]. destruct (invoke_keeps b c) as [P Q]. split; intros t E.
    + destruct (P t E) as (t1 & E1 & F1). destruct (H t1 E1) as (t2 & E2 & F2). exists t2. split; [exact E2|auto].
    + destruct (Q t E) as (t1 & E1 & F1). destruct (K t1 E1) as (t2 & E2 & F2). exists t2. split; [exact E2|auto].
Qed.
Lemma bytes_added l t s k : byte_symbols (invoke_all l) = Some t -> find_key t s = None ->
  exists t', byte_symbols (invoke_all (l ++ [AddToByte s k])) = Some t' /\ find_key t' s = Some k /\ ((forall u, find_key t u <> Some k) -> find_symbol t' k = s).
Proof.
  intros E F. unfold invoke_all. rewrite fold_left_app. cbn [fold_left]. fold (invoke_all l). unfold invoke. rewrite E. eexists. split; [reflexivity|].
  split; [apply find_key_new; exact F|]. apply find_symbol_new; [|exact F]. exact (proj1 (proj1 (all_ok l) t E)).
Qed.
Lemma characters_added l t s k : utf8_symbols (invoke_all l) = Some t -> find_key t s = None ->
  exists t', utf8_symbols (invoke_all (l ++ [AddToUtf8 s k])) = Some t' /\ find_key t' s = Some k /\ ((forall u, find_key t u <> Some k) -> find_symbol t' k = s).
Proof.
  intros E F. unfold invoke_all. rewrite fold_left_app. cbn [fold_left]. fold (invoke_all l). unfold invoke. rewrite E. eexists. split; [reflexivity|].
  split; [apply find_key_new; exact F|]. apply find_symbol_new; [|exact F]. exact (proj1 (proj2 (all_ok l) t E)).
Qed.
Lemma generated l : In GetByte l -> byte_symbols (invoke_all l) <> None.
Proof.
  intros I'. apply in_split_app in I' as (a & b & ->). change (a ++ GetByte :: b) with (a ++ [GetByte] ++ b). rewrite app_assoc.
  assert (E : exists t, byte_symbols (invoke_all (a ++ [GetByte])) = Some t).
  { unfold invoke_all. rewrite fold_left_app. cbn [fold_left]. generalize (fold_left invoke a new_builder). intros st.
    unfold invoke. destruct (byte_symbols st) as [u|] eqn:E; [exists u; exact E|exists generate_bytes; reflexivity]. }
  destruct E as (t & E). destruct (proj1 (calls_keep (a ++ [GetByte]) b) t E) as (t' & E' & _). rewrite E'. discriminate.
Qed.
Lemma generated_utf8 l : In GetUtf8 l -> utf8_symbols (invoke_all l) <> None.
Proof.
  intros I'. apply in_split_app in I' as (a & b & ->). change (a ++ GetUtf8 :: b) with (a ++ [GetUtf8] ++ b). rewrite app_assoc.
  assert (E : exists t, utf8_symbols (invoke_all (a ++ [GetUtf8])) = Some t).
  { unfold invoke_all. rewrite fold_left_app. cbn [fold_left]. generalize (fold_left invoke a new_builder). intros st.
    unfold invoke. destruct (utf8_symbols st) as [u|] eqn:E; [exists u; exact E|exists generate_utf8; reflexivity]. }
  destruct E as (t & E). destruct (proj2 (calls_keep (a ++ [GetUtf8]) b) t E) as (t' & E' & _). rewrite E'. discriminate.
Qed.
(** Symbols added before the table is made are lost. *)
Lemma added_early : exists s k t, byte_symbols (invoke_all [AddToByte s k; GetByte]) = Some t /\ find_key t s = None.
Proof. exists (chars "[VIRAMA]"), 300, generate_bytes. split; [reflexivity|vm_compute; reflexivity]. Qed.
(** A label with two symbols has the name of the first *)
Lemma two_names : exists s k t, byte_symbols (invoke_all [GetByte; AddToByte s k]) = Some t /\ find_key t s = Some k /\ find_symbol t k <> s.
Proof. exists (chars "[A]"), 65, (add_symbol generate_bytes (chars "[A]") 65). split; [reflexivity|]. split; vm_compute; [reflexivity|discriminate]. Qed.
(** but above the labels that are there the last one *)
Lemma two_names_high : exists s u k t, byte_symbols (invoke_all [GetByte; AddToByte s k; AddToByte u k]) = Some t /\ find_key t s = Some k /\ find_symbol t k = u /\ s <> u.
Proof.
  exists (chars "[A]"), (chars "[B]"), 300, (add_symbol (add_symbol generate_bytes (chars "[A]") 300) (chars "[B]") 300). split; [reflexivity|].
  split; [vm_compute; reflexivity|]. split; [vm_compute; reflexivity|discriminate].
Qed.
(** ** Fresh tables *)
Lemma fresh name n s k : (forall x y, In x (numbers 1 n) -> In y (numbers 1 n) -> name x = name y -> x = y) -> (forall x, In x (numbers 1 n) -> name x <> epsilon) ->
  find_key (add_names name (numbers 1 n) (add_symbol empty_table epsilon 0)) s = Some k -> (k = 0 /\ s = epsilon) \/ (1 <= k <= N.of_nat n /\ s = name k).
Proof.
  intros Inj Ne. rewrite (add_names_spec name _ n eq_refl Inj Ne). unfold find_key. cbn [rows]. intros F. apply find_row_in in F as [F|F].
  - injection F as <- <-. left. split; reflexivity.
  - right. apply in_map_iff in F as (c & E & Ic). injection E as <- <-. apply numbers_in in Ic. split; [lia|reflexivity].
Qed.
Lemma byte_names_differ x y : In x (numbers 1 (N.to_nat 255)) -> In y (numbers 1 (N.to_nat 255)) -> byte_name x = byte_name y -> x = y.
Proof. intros Ix Iy E. apply numbers_in in Ix, Iy. rewrite N2Nat.id in Ix, Iy. eapply byte_different; [apply byte_name_ok; lia|]. rewrite E. apply byte_name_ok; lia. Qed.
Lemma byte_names_not_epsilon x : In x (numbers 1 (N.to_nat 255)) -> byte_name x <> epsilon.
Proof.
  intros Ix E. apply numbers_in in Ix. rewrite N2Nat.id in Ix. assert (B := byte_name_ok x ltac:(lia) ltac:(lia)). rewrite E in B.
  assert (x = 0); [|lia]. eapply byte_different; [exact B|]. left. split; reflexivity.
Qed.
Lemma utf8_names_differ x y : In x (numbers 1 (N.to_nat 0xFFFF)) -> In y (numbers 1 (N.to_nat 0xFFFF)) -> utf8_name x = utf8_name y -> x = y.
Proof. intros Ix Iy E. apply numbers_in in Ix, Iy. rewrite N2Nat.id in Ix, Iy. eapply char_different; [apply utf8_name_ok; lia|]. rewrite E. apply utf8_name_ok; lia. Qed.
Lemma utf8_names_not_epsilon x : In x (numbers 1 (N.to_nat 0xFFFF)) -> utf8_name x <> epsilon.
Proof.
  intros Ix E. apply numbers_in in Ix. rewrite N2Nat.id in Ix. assert (B := utf8_name_ok x ltac:(lia) ltac:(lia)). rewrite E in B.
  assert (x = 0); [|lia]. eapply char_different; [exact B|]. left. split; reflexivity.
Qed.
Definition just (name : N -> str) (n : nat) (t : table) : Prop := forall s k, find_key t s = Some k -> (k = 0 /\ s = epsilon) \/ (1 <= k <= N.of_nat n /\ s = name k).
Lemma just_start name n : (forall x y, In x (numbers 1 n) -> In y (numbers 1 n) -> name x = name y -> x = y) -> (forall x, In x (numbers 1 n) -> name x <> epsilon) ->
  just name n (add_names name (numbers 1 n) (add_symbol empty_table epsilon 0)).
Proof. intros Inj Ne s k. exact (fresh name n s k Inj Ne). Qed.
Lemma just_bytes : just byte_name (N.to_nat 255) generate_bytes.
Proof. apply just_start; [exact byte_names_differ|exact byte_names_not_epsilon]. Qed.
Lemma just_utf8 : just utf8_name (N.to_nat 0xFFFF) generate_utf8.
Proof. apply just_start; [exact utf8_names_differ|exact utf8_names_not_epsilon]. Qed.
Lemma bytes_only s k : find_key generate_bytes s = Some k -> k < 256 /\ byte_called k s.
Proof.
  intros F. destruct (just_bytes s k F) as [[-> ->]|[L ->]].
  - split; [lia|left; split; reflexivity].
  - rewrite N2Nat.id in L. split; [lia|apply byte_name_ok; lia].
Qed.
Lemma characters_only s k : find_key generate_utf8 s = Some k -> k < 0x10000 /\ character_called (white kBreakingWhitespace) k s.
Proof.
  intros F. destruct (just_utf8 s k F) as [[-> ->]|[L ->]].
  - split; [lia|left; split; reflexivity].
  - rewrite N2Nat.id in L. split; [lia|apply utf8_name_ok; lia].
Qed.
