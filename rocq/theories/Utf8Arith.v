(** Arithmetic of the UTF-8 encoding: the library functions against the tables
    of the Unicode standard. *)
From Verif Require Import Base Utf8Model Utf8Spec.
From Coq Require Import ZArith.
Local Open Scope N_scope.

Ltac Zify.zify_post_hook ::= Z.to_euclidean_division_equations.

Lemma valid_cp_scalar c : valid_cp c = true <-> scalar c.
Proof.
  unfold valid_cp, scalar. rewrite andb_true_iff, negb_true_iff, andb_false_iff, !N.leb_le, !N.leb_gt.
  lia.
Qed.

Lemma append_encodes c bs : append c = Some bs -> encodes c bs.
Proof.
  unfold append. destruct (valid_cp c) eqn:Ev; [|discriminate]. cbn [negb].
  apply valid_cp_scalar in Ev. unfold scalar in Ev.
  destruct (N.ltb_spec c 0x80); [|destruct (N.ltb_spec c 0x800); [|destruct (N.ltb_spec c 0x10000)]];
    intros E; inversion E; subst; clear E; unfold encodes, value.
  - split; [constructor; unfold in_range; lia|reflexivity].
  - split; [apply wf2; unfold in_range; lia|lia].
  - split; [|lia].
    destruct (N.eq_dec (c / 4096) 0) as [E|E]; [rewrite E; apply wf3a; unfold in_range; lia|].
    destruct (N.eq_dec (c / 4096) 13) as [E1|E1]; [rewrite E1; apply wf3c; unfold in_range; lia|].
    destruct (N.leb_spec (c / 4096) 12); [apply wf3b|apply wf3d]; unfold in_range; lia.
  - split; [|lia].
    destruct (N.eq_dec (c / 262144) 0) as [E|E]; [rewrite E; apply wf4a; unfold in_range; lia|].
    destruct (N.eq_dec (c / 262144) 4) as [E1|E1]; [rewrite E1; apply wf4c; unfold in_range; lia|].
    apply wf4b; unfold in_range; lia.
Qed.

Lemma wf_scalar bs : wf_bytes bs -> scalar (value bs).
Proof. destruct 1; unfold in_range, scalar, value in *; lia. Qed.

Ltac dec H := match type of H with
  | context[?a <? ?b] => destruct (N.ltb_spec a b)
  end.

Lemma encodes_append c bs : encodes c bs -> append c = Some bs.
Proof.
  intros [Hw <-]. pose proof (wf_scalar bs Hw) as Hs. apply valid_cp_scalar in Hs.
  unfold append. rewrite Hs. cbn [negb].
  destruct Hw; unfold value, in_range in *;
    repeat match goal with |- context[?a <? ?b] => destruct (N.ltb_spec a b); try lia end;
    repeat f_equal; lia.
Qed.

Ltac split_tests :=
  repeat match goal with
  | |- context[?a <? ?b] => destruct (N.ltb_spec a b); try lia
  | |- context[?a =? ?b] => destruct (N.eqb_spec a b); try lia
  end.

Lemma trail_spec b : is_trail b = true <-> in_range 0x80 0xBF b.
Proof. unfold is_trail, in_range. rewrite N.eqb_eq. lia. Qed.

Lemma check_ok c len rest : scalar c -> overlong c len = false -> check c len rest = Some (c, rest).
Proof. intros H1 H2. unfold check. apply valid_cp_scalar in H1. rewrite H1, H2. reflexivity. Qed.

Lemma validate_encodes c bs rest : encodes c bs -> validate_next (bs ++ rest) = Some (c, rest).
Proof.
  intros [Hw <-]. pose proof (wf_scalar bs Hw) as Hs.
  destruct Hw; unfold value in *; cbn [app validate_next]; unfold in_range in *; split_tests;
    cbv iota beta;
    repeat match goal with
    | |- context[is_trail ?b] =>
      assert (is_trail b = true) as -> by (apply trail_spec; unfold in_range; lia)
    end; cbn [andb];
    match goal with
    | |- check ?x ?len ?r = Some (?y, ?r) => replace x with y by lia; apply check_ok; auto
    end; unfold overlong; split_tests; reflexivity.
Qed.

Lemma check_inv c len rest d r : check c len rest = Some (d, r) ->
  d = c /\ r = rest /\ scalar c /\ overlong c len = false.
Proof.
  unfold check. destruct (valid_cp c && negb (overlong c len)) eqn:E; [|discriminate].
  intros H; injection H as <- <-. apply andb_true_iff in E as [E1 E2].
  apply valid_cp_scalar in E1. destruct (overlong c len); auto; discriminate.
Qed.

Lemma validate_inv s c rest : validate_next s = Some (c, rest) ->
  exists bs, encodes c bs /\ s = bs ++ rest.
Proof.
  destruct s as [|b1 s1]; [discriminate|]. cbn [validate_next].
  destruct (N.ltb_spec b1 0x80).
  { intros H1. apply check_inv in H1 as (-> & -> & Hs & _). exists [b1]. split; auto.
    split; auto. apply wf1; unfold in_range; lia. }
  destruct (N.eqb_spec (b1 / 32) 6).
  { destruct s1 as [|b2 s2]; [discriminate|]. destruct (is_trail b2) eqn:E2; [|discriminate].
    apply trail_spec in E2. intros H1. apply check_inv in H1 as (-> & -> & Hs & Ho).
    exists [b1; b2]. split; auto. unfold in_range, overlong, scalar in *.
    split; [apply wf2|unfold value]; unfold in_range; revert Ho; split_tests; try discriminate; lia. }
  destruct (N.eqb_spec (b1 / 16) 14).
  { destruct s1 as [|b2 [|b3 s3]]; try discriminate.
    destruct (is_trail b2) eqn:E2; [|discriminate]. destruct (is_trail b3) eqn:E3; [|discriminate].
    cbn [andb]. apply trail_spec in E2, E3. intros H1. apply check_inv in H1 as (-> & -> & Hs & Ho).
    exists [b1; b2; b3]. split; auto.
    set (c := (b1 * 4096) mod 65536 + (b2 * 64) mod 4096 + b3 mod 64) in *.
    assert (Ec : c = ((b1 - 224) * 64 + (b2 - 128)) * 64 + (b3 - 128)).
    { unfold c, in_range in *. clear Hs Ho c. lia. }
    clearbody c. unfold in_range, overlong, scalar in *.
    split; [|unfold value; lia].
    assert (H3 : 2048 <= c) by (revert Ho; split_tests; try discriminate; lia).
    destruct (N.eq_dec b1 224) as [->|]; [apply wf3a; unfold in_range; lia|].
    destruct (N.eq_dec b1 237) as [->|]; [apply wf3c; unfold in_range; lia|].
    destruct (N.leb_spec b1 236); [apply wf3b|apply wf3d]; unfold in_range; lia. }
  destruct (N.eqb_spec (b1 / 8) 30).
  { destruct s1 as [|b2 [|b3 [|b4 s4]]]; try discriminate.
    destruct (is_trail b2) eqn:E2; [|discriminate]. destruct (is_trail b3) eqn:E3; [|discriminate].
    destruct (is_trail b4) eqn:E4; [|discriminate].
    cbn [andb]. apply trail_spec in E2, E3, E4. intros H1.
    apply check_inv in H1 as (-> & -> & Hs & Ho).
    exists [b1; b2; b3; b4]. split; auto.
    set (c := (b1 * 262144) mod 2097152 + (b2 * 4096) mod 262144 + (b3 * 64) mod 4096 + b4 mod 64) in *.
    assert (Ec : c = (((b1 - 240) * 64 + (b2 - 128)) * 64 + (b3 - 128)) * 64 + (b4 - 128)).
    { unfold c, in_range in *. clear Hs Ho c. lia. }
    clearbody c. unfold in_range, overlong, scalar in *.
    split; [|unfold value; lia].
    assert (H3 : 65536 <= c) by (revert Ho; split_tests; try discriminate; lia).
    destruct (N.eq_dec b1 240) as [->|]; [apply wf4a; unfold in_range; lia|].
    destruct (N.eq_dec b1 244) as [->|]; [apply wf4c; unfold in_range; lia|].
    apply wf4b; unfold in_range; lia. }
  discriminate.
Qed.

Ltac Zify.zify_post_hook ::= idtac.
