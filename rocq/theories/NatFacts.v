(** Instances of the laws of natural transliteration. *)
From Coq Require Import String.
From Verif Require Import Base RuleModel RegexModel IsoModel AlignModel AlignSpec AlignProofs NatModel NatSpec NatProofs NatBytes NatBlocks NatBlocksProofs NatTyp NatTypMain NatRoman NatRomanMain NatPhon.
Local Open Scope list_scope.

Lemma run_well_formed l : Forall well_formed l -> forall ts out, In out (run l ts) <-> performs_all l ts out.
Proof. intros W. exact (run_ok l (well_formed_all l W)). Qed.
Lemma grammars_well_formed l s before after : ltn_ops l s = Some (before, after) ->
  Forall well_formed (ISO_TO_TXN ++ (txn_ops l ++ before) ++ TRANSLIT_BY_PSA :: after) /\ staged (ISO_TO_TXN ++ (txn_ops l ++ before) ++ TRANSLIT_BY_PSA :: after).
Proof. intros E. destruct (static_ok l s before after E) as (W & St & _). split; assumption. Qed.
Lemma sp_letters l : forallb (fun t => existsb (fun c => String.eqb (btyp c) t) SINGLE_POINT) l = true -> letters (map sp l).
Proof.
  intros H. rewrite forallb_forall in H. apply Forall_forall. intros c I. apply in_map_iff in I as (t & <- & I). specialize (H t I). unfold sp. destruct (find (fun c => String.eqb (btyp c) t) SINGLE_POINT) as [c|] eqn:F; [apply find_some in F as [J _]; exact J|]. exfalso. apply existsb_exists in H as (c & J & E). pose proof (find_none _ _ F c J) as K. cbn beta in K. congruence.
Qed.
Lemma In_nth_error_ok {A} (l : list A) n x : nth_error l n = Some x -> In x l.
Proof. apply nth_error_In. Qed.
Definition results (e : bool) (l : lang) (s : scheme) (t : str) : list str := match romanize e l s with Some g => g t | None => [] end.
Lemma results_ok e l s f t : romanize e l s = Some f -> f t = results e l s t.
Proof. unfold results. intros ->. reflexivity. Qed.
Definition known (e : bool) (l : lang) (s : scheme) : bool := match romanize e l s with Some _ => true | None => false end.
Lemma known_ok e l s : known e l s = true -> exists f, romanize e l s = Some f.
Proof. unfold known. destruct (romanize e l s) as [f|]; [exists f; reflexivity|discriminate]. Qed.
Lemma gujarati_diphthong : exists cs, letters cs /\ (forall e s f, romanize e Gu s = Some f -> f (text_of cs) = []) /\ forall e, transcribe e Gu (text_of cs) = [].
Proof.
  exists (map sp ["a"; "i"]%string). split; [apply sp_letters; vm_compute; reflexivity|]. split; [|intros []; vm_compute; reflexivity].
  intros e s f E. rewrite (results_ok _ _ _ _ _ E). clear E f. destruct e, s; vm_compute; reflexivity.
Qed.
Lemma punjabi_two : exists e f cs x y, romanize e Pa Psaf = Some f /\ letters cs /\ In x (f (text_of cs)) /\ In y (f (text_of cs)) /\ x <> y.
Proof.
  destruct (known_ok false Pa Psaf) as (f & E); [vm_compute; reflexivity|]. exists false, f, (map sp ["add"; "c"]%string), (bytes "chch"), (bytes "tch"). split; [exact E|]. split; [apply sp_letters; vm_compute; reflexivity|].
  rewrite (results_ok _ _ _ _ _ E). clear E f. split; [|split; [|discriminate]].
  - apply (In_nth_error_ok _ 0). vm_compute. reflexivity.
  - apply (In_nth_error_ok _ 1). vm_compute. reflexivity.
Qed.
Lemma psac_doubled : exists e f cs x c, romanize e Hi Psac = Some f /\ letters cs /\ In x (f (text_of cs)) /\ x = [c; c].
Proof.
  destruct (known_ok false Hi Psac) as (f & E); [vm_compute; reflexivity|]. exists false, f, (map sp ["k"; "k"; "k"]%string), (bytes "kk"), 107%N. split; [exact E|]. split; [apply sp_letters; vm_compute; reflexivity|].
  rewrite (results_ok _ _ _ _ _ E). clear E f. split; [|reflexivity]. apply (In_nth_error_ok _ 0). vm_compute. reflexivity.
Qed.
