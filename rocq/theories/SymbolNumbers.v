(** The numbers in the aliases of symbols. *)
From Coq Require Import Ascii String Decimal Hexadecimal DecimalFacts DecimalPos DecimalN HexadecimalFacts HexadecimalPos HexadecimalN.
From Verif Require Import Base ContainerModel InventoryModel InventorySpec OperationModel SymbolModel SymbolSpec NumeralSpec.
Local Open Scope list_scope.

Notation dec := (fun a c => a * 10 + digit_value c)%N.
Notation hex := (fun a c => a * 16 + digit_value c)%N.
Lemma dec_acc d : forall acc, fold_left dec (uint_str d) (Npos acc) = Npos (Pos.of_uint_acc d acc).
Proof. induction d as [|d IH|d IH|d IH|d IH|d IH|d IH|d IH|d IH|d IH|d IH]; intros acc; [reflexivity|..]; cbn [uint_str fold_left Pos.of_uint_acc]; rewrite <- IH; apply (f_equal (fold_left _ _)); unfold digit_value; cbn -[N.mul N.add Pos.mul Pos.add]; lia. Qed.
Lemma dec_value d : fold_left dec (uint_str d) 0%N = N.of_uint d.
Proof. induction d as [|d IH|d IH|d IH|d IH|d IH|d IH|d IH|d IH|d IH|d IH]; [reflexivity|exact IH|..]; unfold N.of_uint; cbn [uint_str fold_left Pos.of_uint]; rewrite <- dec_acc; reflexivity. Qed.
Lemma hex_acc d : forall acc, fold_left hex (hex_str d) (Npos acc) = Npos (Pos.of_hex_uint_acc d acc).
Proof. induction d as [|d IH|d IH|d IH|d IH|d IH|d IH|d IH|d IH|d IH|d IH|d IH|d IH|d IH|d IH|d IH|d IH]; intros acc; [reflexivity|..]; cbn [hex_str fold_left Pos.of_hex_uint_acc]; rewrite <- IH; apply (f_equal (fold_left _ _)); unfold digit_value; cbn -[N.mul N.add Pos.mul Pos.add]; lia. Qed.
Lemma hex_value d : fold_left hex (hex_str d) 0%N = N.of_hex_uint d.
Proof. induction d as [|d IH|d IH|d IH|d IH|d IH|d IH|d IH|d IH|d IH|d IH|d IH|d IH|d IH|d IH|d IH|d IH]; [reflexivity|exact IH|..]; unfold N.of_hex_uint; cbn [hex_str fold_left Pos.of_hex_uint]; rewrite <- hex_acc; reflexivity. Qed.
Lemma dec_digits d : Forall (is_digit 10) (uint_str d).
Proof. induction d; cbn [uint_str]; constructor; try assumption; (split; [lia|reflexivity]). Qed.
Lemma hex_digits d : Forall (is_digit 16) (hex_str d).
Proof. induction d; cbn [hex_str]; constructor; try assumption; (split; [lia|reflexivity]). Qed.
Lemma dec_head d : Decimal.unorm d = d -> uint_str d = [48%N] \/ exists c r, uint_str d = c :: r /\ c <> 48%N.
Proof.
  destruct d as [|d|d|d|d|d|d|d|d|d|d]; intros H; try solve [right; cbn [uint_str]; eexists _, _; split; [reflexivity|discriminate]]; [discriminate H|].
  left. assert (D : d = Decimal.Nil \/ d <> Decimal.Nil) by (destruct d; [left; reflexivity|right; discriminate..]). destruct D as [->|N]; [reflexivity|]. exfalso. rewrite DecimalFacts.unorm_D0 in H. pose proof (DecimalFacts.nb_digits_unorm d N) as L. rewrite H in L. cbn [Decimal.nb_digits] in L. lia.
Qed.
Lemma hex_head d : Hexadecimal.unorm d = d -> hex_str d = [48%N] \/ exists c r, hex_str d = c :: r /\ c <> 48%N.
Proof.
  destruct d as [|d|d|d|d|d|d|d|d|d|d|d|d|d|d|d|d]; intros H; try solve [right; cbn [hex_str]; eexists _, _; split; [reflexivity|discriminate]]; [discriminate H|].
  left. assert (D : d = Hexadecimal.Nil \/ d <> Hexadecimal.Nil) by (destruct d; [left; reflexivity|right; discriminate..]). destruct D as [->|N]; [reflexivity|]. exfalso. rewrite HexadecimalFacts.unorm_D0 in H. pose proof (HexadecimalFacts.nb_digits_unorm d N) as L. rewrite H in L. cbn [Hexadecimal.nb_digits] in L. lia.
Qed.
Lemma decimal_numeral n : numeral 10 (decimal n) (N.of_nat n).
Proof.
  unfold decimal. split; [apply dec_digits|]. split; [rewrite dec_value; apply DecimalN.Unsigned.of_to|]. apply dec_head. rewrite <- DecimalN.Unsigned.to_of, DecimalN.Unsigned.of_to. reflexivity.
Qed.
Lemma hexadecimal_numeral c : exists ds, hexadecimal c = codes "0x" ++ ds /\ numeral 16 ds c.
Proof.
  exists (hex_str (N.to_hex_uint c)). split; [reflexivity|]. split; [apply hex_digits|]. split; [rewrite hex_value; apply HexadecimalN.Unsigned.of_to|]. apply hex_head. rewrite <- HexadecimalN.Unsigned.to_of, HexadecimalN.Unsigned.of_to. reflexivity.
Qed.
Lemma unk_alias_numeral n : exists ds, unk_alias n = codes "from_unk_" ++ ds /\ numeral 10 ds (N.of_nat n).
Proof. exact (ex_intro _ _ (conj eq_refl (decimal_numeral n))). Qed.
Lemma u_alias_numeral c : exists ds, u_alias c = codes "u_0x" ++ ds /\ numeral 16 ds c.
Proof. destruct (hexadecimal_numeral c) as (ds & E & H). exists ds. split; [|exact H]. unfold u_alias. rewrite E. reflexivity. Qed.
