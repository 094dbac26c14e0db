(** C04, C41: idempotence and canonical equivalence of NFC rule sets. *)
From Verif Require Import Base RuleModel RuleSpec RuleProofs RewriteProofs IdemProofs CleanCheck
  NfcTables UnicodeTables CanonModel CanonProofs NfcProofs.

(** ** C04 *)
Theorem C04_no_feedback_idempotent : forall ns rs sigma,
  nonempty_lhs rs -> (forall r, In r rs -> rhs r <> [] /\ over sigma (rhs r) = true) ->
  (forall r r', In r rs -> In r' rs -> never_share (lhs r') (rhs r)) ->
  forall f, fst_from_rules ns rs sigma = Some f ->
  forall s t, In t (f s) ->
  (forall r, In r rs -> ~ is_infix (lhs r) t) /\ f t = [t].
Proof. exact no_feedback_idempotent_spec. Qed.
Print Assumptions C04_no_feedback_idempotent.

(** All twenty Brahmic NFC grammars and the pan-Brahmic one. *)
Theorem C04_brahmic_nfc_idempotent : forall ns rs sigma,
  In rs (nfc_BRAHMIC :: nfc_brahmic_tables) ->
  (forall r, In r rs -> over sigma (rhs r) = true) ->
  exists f, fst_from_rules ns rs sigma = Some f /\
    forall s, over sigma s = true ->
    exists t, f s = [t] /\ f t = [t] /\ forall r, In r rs -> ~ is_infix (lhs r) t.
Proof. exact brahmic_nfc_idempotent. Qed.
Print Assumptions C04_brahmic_nfc_idempotent.

(** The Arabic NFC grammar is not idempotent: shadda between sukun and kasra. *)
Theorem C04_arab_nfc_idempotent_refuted :
  exists f s t u, fst_from_rules (fun _ => 1) nfc_ARAB [1616; 1617; 1618]%N = Some f /\
    f s = [t] /\ f t = [u] /\ t <> u.
Proof. exact arab_nfc_not_idempotent. Qed.
Print Assumptions C04_arab_nfc_idempotent_refuted.

Example C04_example :
  let rs := [Rule [1; 2]%N [5%N]; Rule [3%N] [4; 4]%N] in
  nonempty_lhs rs /\ no_feedback rs = true /\
  (forall r r', In r rs -> In r' rs -> never_share (lhs r') (rhs r)).
Proof.
  cbv zeta. split; [|split].
  - intros r [<-|[<-|[]]]; discriminate.
  - vm_compute. reflexivity.
  - intros r r' Hr Hr' x y a b E.
    destruct (le_lt_dec (length a + length (rhs r)) (length x)); auto.
    destruct (le_lt_dec (length x + length (lhs r')) (length a)); auto.
    exfalso.
    pose proof (overlap_complete x (lhs r') y a (rhs r) b E ltac:(lia) ltac:(lia)) as H.
    destruct Hr as [<-|[<-|[]]]; destruct Hr' as [<-|[<-|[]]]; vm_compute in H; discriminate.
Qed.

Example C04_knda_example :
  match fst_from_rules (fun _ => 1) nfc_Knda [3266; 3270; 3275; 3285; 3274]%N with
  | Some f => f [3270; 3266; 3285; 3270; 3266]%N = [[3275; 3274]%N]
  | None => False
  end.
Proof. vm_compute. reflexivity. Qed.

(** ** C41 *)
Theorem C41_nfc_preserves_canonical_equivalence : forall ns rs sigma,
  In rs (nfc_ARAB :: nfc_BRAHMIC :: nfc_brahmic_tables) ->
  (forall r, In r rs -> over sigma (rhs r) = true) ->
  exists f, fst_from_rules ns rs sigma = Some f /\
    forall s, over sigma s = true ->
    exists t, f s = [t] /\ canon decomp_table ccc_table s t.
Proof. exact nfc_canonical. Qed.
Print Assumptions C41_nfc_preserves_canonical_equivalence.

(** The relation is not the full one. *)
Example C41_example :
  nfd decomp_table ccc_table [1570; 1621]%N = [1575; 1621; 1619]%N /\
  nfd decomp_table ccc_table [1570; 1621]%N <> nfd decomp_table ccc_table [1571; 1621]%N.
Proof. vm_compute. split; [reflexivity|discriminate]. Qed.
