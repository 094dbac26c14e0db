(** The shipped NFC tables, checked by computation and lifted to all texts. *)
From Verif Require Import Base RuleModel RuleSpec RuleProofs RewriteProofs IdemProofs CleanCheck
  NfcTables UnicodeTables CanonModel CanonProofs.

Lemma brahmic_stable : forallb stable_rules (nfc_BRAHMIC :: nfc_brahmic_tables) = true.
Proof. vm_compute. reflexivity. Qed.

Lemma nfc_canon_all :
  forallb (canon_rules decomp_table ccc_table) (nfc_ARAB :: nfc_BRAHMIC :: nfc_brahmic_tables)
  = true.
Proof. vm_compute. reflexivity. Qed.

Definition nonempty_lhsb (rs : list rule) : bool :=
  forallb (fun r => negb (str_eqb (lhs r) [])) rs.

Lemma nonempty_lhsb_spec rs : nonempty_lhsb rs = true -> nonempty_lhs rs.
Proof.
  unfold nonempty_lhsb. rewrite forallb_forall. intros H r Hr. apply H in Hr.
  apply negb_true_iff, str_eqb_neq in Hr. exact Hr.
Qed.

Lemma nfc_nonempty :
  forallb nonempty_lhsb (nfc_ARAB :: nfc_BRAHMIC :: nfc_brahmic_tables) = true.
Proof. vm_compute. reflexivity. Qed.

Definition is_layers (p : pres) : bool := match p with Layers _ => true | _ => false end.

Lemma nfc_partitions :
  forallb (fun rs => is_layers (partition_unordered rs))
          (nfc_ARAB :: nfc_BRAHMIC :: nfc_brahmic_tables) = true.
Proof. vm_compute. reflexivity. Qed.

Lemma brahmic_nfc_idempotent ns rs sigma :
  In rs (nfc_BRAHMIC :: nfc_brahmic_tables) ->
  (forall r, In r rs -> over sigma (rhs r) = true) ->
  exists f, fst_from_rules ns rs sigma = Some f /\
    forall s, over sigma s = true ->
    exists t, f s = [t] /\ f t = [t] /\ forall r, In r rs -> ~ is_infix (lhs r) t.
Proof.
  intros Hin. apply stable_rules_sound.
  pose proof brahmic_stable as H. rewrite forallb_forall in H. exact (H rs Hin).
Qed.

Lemma nfc_canonical ns rs sigma :
  In rs (nfc_ARAB :: nfc_BRAHMIC :: nfc_brahmic_tables) ->
  (forall r, In r rs -> over sigma (rhs r) = true) ->
  exists f, fst_from_rules ns rs sigma = Some f /\
    forall s, over sigma s = true ->
    exists t, f s = [t] /\ canon decomp_table ccc_table s t.
Proof.
  intros Hin Hov.
  pose proof nfc_nonempty as Hne. rewrite forallb_forall in Hne. specialize (Hne rs Hin).
  apply nonempty_lhsb_spec in Hne.
  pose proof nfc_canon_all as Hc. rewrite forallb_forall in Hc. specialize (Hc rs Hin).
  pose proof nfc_partitions as Hp. rewrite forallb_forall in Hp. specialize (Hp rs Hin).
  pose proof (fst_from_rules_spec ns rs sigma Hne Hov) as HS.
  destruct (partition_unordered rs) as [ls| |] eqn:E; try discriminate.
  destruct HS as (f & Hf & Hs & _). exists f. split; auto. intros s Hov'.
  destruct (Hs s Hov') as (t & Et & _). exists t. split; auto.
  apply (rules_canon decomp_table ccc_table ns rs sigma f); auto. rewrite Et. left; auto.
Qed.

Definition run_rules (rs : list rule) (sigma : list N) (s : str) : list str :=
  match fst_from_rules (fun _ => 1) rs sigma with Some f => f s | None => [] end.

Lemma run_rules_some rs sigma s t u : run_rules rs sigma s = [t] -> run_rules rs sigma t = [u] ->
  exists f, fst_from_rules (fun _ => 1) rs sigma = Some f /\ f s = [t] /\ f t = [u].
Proof.
  unfold run_rules. destruct (fst_from_rules (fun _ => 1) rs sigma) as [f|].
  - intros H1 H2. exists f. auto.
  - discriminate.
Qed.

Lemma arab_nfc_not_idempotent :
  exists f s t u, fst_from_rules (fun _ => 1) nfc_ARAB [1616; 1617; 1618]%N = Some f /\
    f s = [t] /\ f t = [u] /\ t <> u.
Proof.
  destruct (run_rules_some nfc_ARAB [1616; 1617; 1618]%N [1618; 1617; 1616]%N
              [1617; 1618; 1616]%N [1617; 1616; 1618]%N) as (f & Hf & H1 & H2).
  - vm_compute. reflexivity.
  - vm_compute. reflexivity.
  - exists f, [1618; 1617; 1616]%N, [1617; 1618; 1616]%N, [1617; 1616; 1618]%N.
    split; [exact Hf|]. split; [exact H1|]. split; [exact H2|]. discriminate.
Qed.
