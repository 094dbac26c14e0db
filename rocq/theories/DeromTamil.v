(** Deromanization of Tamil. *)
From Coq Require Import String.
From Verif Require Import Base RuleModel RegexModel RegexProofs IsoModel AlignModel AlignSpec AlignProofs AlignMore NatModel NatSpec NatProofs NatBytes NatBlocks NatBlocksProofs NatTyp NatTypMain DeromModel DeromBytes DeromPieces DeromSpec DeromReading DeromText DeromIso DeromRun.
Local Open Scope list_scope.

Definition ta : deromanizer := Eval vm_compute in match make TA_PARAMS with Some d => d | None => Deromanizer "" [] [] end.
Definition ta_rank (k : nat) : nat := nth k [0;0;1;1;2;2;3;3;4;4;5;5;6;6;7;7;8;8;8;8;9;9;10;10;11;11;12;12;13;13;14;14] 14.
Lemma ta_make : make TA_PARAMS = Some ta. Proof. vm_compute. reflexivity. Qed.
Lemma ta_ops_ok : check_ops (d_typ_ops ta) tamil_spellings ta_rank 26 false sch 0 (d_typ_ops ta) = true. Proof. vm_compute. reflexivity. Qed.
Lemma ta_letters_ok : check_letters (d_typ_ops ta) = true. Proof. vm_compute. reflexivity. Qed.
Lemma ta_ranks_ok : check_ranks (d_typ_ops ta) ta_rank 0 tamil_spellings = true. Proof. vm_compute. reflexivity. Qed.
Lemma ta_joins_ok : check_joins tamil_spellings = true. Proof. vm_compute. reflexivity. Qed.
Lemma ta_plain : forallb plain_opb (d_typ_ops ta ++ typ2iso_ops ta) = true. Proof. vm_compute. reflexivity. Qed.
Lemma ta_one : forallb one_opb (d_typ_ops ta ++ typ2iso_ops ta) = true. Proof. vm_compute. reflexivity. Qed.
Lemma ta_good : forallb good_opb (d_typ_ops ta) = true. Proof. vm_compute. reflexivity. Qed.
Lemma ta_no_nasal : forallb (fun o => match o with Rewrite rs _ _ => forallb (fun q : word * word => negb (word_eqb (snd q) [name "ans"])) rs | _ => true end) (d_typ_ops ta) = true. Proof. vm_compute. reflexivity. Qed.
Lemma ta_sounds : forallb (forallb (fun p : string * sound => sound_knownb tamil (snd p))) tamil_spellings = true. Proof. vm_compute. reflexivity. Qed.
Lemma ta_native : forallb (fun x => same (values (brh_table "taml") (akshara_toks x)) (native_akshara tamil x)) (all_aksharas tamil) = true. Proof. vm_compute. reflexivity. Qed.
Lemma ta_iso : forallb (fun b => forallb (fun x => same (values iso_table (iso_toks b x)) (iso_akshara tamil b x)) (all_aksharas tamil)) [true; false] = true. Proof. vm_compute. reflexivity. Qed.
Lemma ta_iso_checks : check_cons ta tamil && check_vow ta tamil && check_marks ta && forallb first_op (d_ind_to_sign ta) = true. Proof. vm_compute. reflexivity. Qed.
Lemma sch_checks : singles sch && singles signs && forallb (fun w : word => match w with [Tr _] => true | _ => false end) sch = true. Proof. vm_compute. reflexivity. Qed.
Lemma brh_symbols s : Forall (fun p : tok * str => symbol (fst p)) (brh_table s).
Proof. apply Forall_forall. intros p I. apply in_map_iff in I as (r & <- & I). cbn [fst]. assert (C : forallb (fun r : string * (string * string) => symbolb (name (fst r))) TO_BRAHMIC = true) by (vm_compute; reflexivity). apply symbolb_ok. exact (proj1 (forallb_forall _ _) C _ I). Qed.
Lemma iso_symbols : Forall (fun p : tok * str => symbol (fst p)) iso_table.
Proof. assert (C : forallb (fun p : tok * str => symbolb (fst p)) iso_table = true) by (vm_compute; reflexivity). revert C. apply forallb_Forall. intros p. apply symbolb_ok. Qed.
Lemma brh_pairs s : ls_tr2brh s = table_pairs (brh_table s).
Proof. unfold ls_tr2brh, table_pairs, brh_table. rewrite map_map. apply map_ext. intros r. cbn [fst snd]. f_equal. unfold trl, name. rewrite encs_cons. cbn. rewrite app_nil_r. reflexivity. Qed.
Lemma iso_pairs : print_chars = WStar (WPairs (table_pairs iso_table)).
Proof. unfold print_chars, print_glyph, table_pairs, iso_table. rewrite map_map. reflexivity. Qed.

(** From a run to a text, in any language *)
Section Texts.
Variables (d : deromanizer) (o : orthography).
Hypothesis plain_ok : forallb plain_opb (d_typ_ops d ++ typ2iso_ops d) = true.
Hypothesis one_ok : forallb one_opb (d_typ_ops d ++ typ2iso_ops d) = true.
Hypothesis native_ok : forallb (fun x => same (values (brh_table (d_script d)) (akshara_toks x)) (native_akshara o x)) (all_aksharas o) = true.
Hypothesis iso_ok : forallb (fun b => forallb (fun x => same (values iso_table (iso_toks b x)) (iso_akshara o b x)) (all_aksharas o)) [true; false] = true.
Hypothesis checks_ok : check_cons d o && check_vow d o && check_marks d && forallb first_op (d_ind_to_sign d) = true.
Hypothesis script_ok : (String.eqb (d_script d) "deva" || String.eqb (d_script d) "taml")%bool = true.
Lemma ops_plain : Forall plain_op (d_typ_ops d ++ typ2iso_ops d). Proof. exact (forallb_Forall _ _ _ plain_opb_ok plain_ok). Qed.
Lemma ops_one : Forall one_op (d_typ_ops d ++ typ2iso_ops d). Proof. exact (forallb_Forall _ _ _ one_opb_ok one_ok). Qed.
Lemma texts w l : Forall lower w -> performs_all (d_typ_ops d) (letters_of w) (word_toks l) -> Forall (known o) l -> exists b i, native o l = Some b /\ iso o l = Some i /\ only (bytes b) (to_brahmic d w) /\ only (bytes i) (to_iso d w).
Proof.
  intros Lw P K. pose proof ops_plain as Op. pose proof ops_one as Oo. apply Forall_app in Op as [Op1 Op2]. apply Forall_app in Oo as [Oo1 Oo2].
  destruct (native_text (brh_table (d_script d)) o l native_ok K) as (b & Eb & Vb). destruct (iso_text iso_table o l iso_ok K) as (i & Ei & Vi). exists b, i. split; [exact Eb|]. split; [exact Ei|]. split.
  - unfold to_brahmic. rewrite script_ok. change (only (bytes b) (run_letters (d_typ_ops d) (typ2brh (d_script d)) w)). unfold typ2brh. rewrite brh_pairs. apply (run_letters_only _ _ _ (word_toks l)); [exact Op1|exact Oo1|apply brh_symbols|exact Lw|exact P|exact Vb].
  - change (only (bytes i) (run_letters (d_typ_ops d ++ typ2iso_ops d) print_chars w)). rewrite iso_pairs. apply (run_letters_only _ _ _ (iso_word l)); [exact ops_plain|exact ops_one|exact iso_symbols|exact Lw| |exact Vi].
    apply performs_all_app. exists (word_toks l). split; [exact P|]. pose proof checks_ok as C. rewrite !andb_true_iff in C. pose proof sch_checks as C'. rewrite !andb_true_iff in C'. apply (iso_performs d o); tauto.
Qed.
Lemma no_texts w : ~ Forall lower w -> to_brahmic d w = [] /\ to_iso d w = [].
Proof.
  intros N. split; [unfold to_brahmic; rewrite script_ok; exact (run_letters_none (d_typ_ops d) (typ2brh (d_script d)) w N)|exact (run_letters_none (d_typ_ops d ++ typ2iso_ops d) print_chars w N)].
Qed.
End Texts.

Lemma nas_rule T rank k l r s kd : find_kind T rank k l r = Some (s, kd) -> kind_sound kd = Nas -> r = [name "ans"].
Proof. intros F E. apply find_kind_ok in F as (_ & -> & _). destruct kd; try discriminate E. reflexivity. Qed.

Lemma ta_read w : Forall lower w -> exists R, tamil_reading w R /\ performs_all (d_typ_ops ta) (letters_of w) (word_toks (tamil_write (map snd R))) /\ Forall (known tamil) (tamil_write (map snd R)).
Proof.
  intros Lw. destruct (letters_symbols w Lw) as (Sw & Pw & Iw & Gw). pose proof (forallb_Forall _ _ _ one_opb_ok ta_one) as Oo. apply Forall_app in Oo as [Oo _]. destruct (one_total (d_typ_ops ta) (letters_of w) Oo) as (out & P).
  destruct (trace (d_typ_ops ta) (letters_of w) out (forallb_Forall _ _ _ good_opb_ok ta_good) Gw P) as (L & EL & tr).
  assert (ES : forallb (fun w : word => match w with [Tr _] => true | _ => false end) sch = true) by (pose proof sch_checks as C; rewrite !andb_true_iff in C; tauto).
  pose proof (all_read _ _ _ _ _ _ ta_ops_ok ta_letters_ok _ L tr Iw) as AR.
  set (R := read tamil_spellings ta_rank L).
  assert (NN : forall p, In p R -> snd p <> Nas). { intros p I E. apply in_flat_map in I as (x & Ix & I). destruct (proj1 (Forall_forall _ _) AR x Ix) as (k & l & r & s & kd & -> & F & Er). rewrite Er in I. destruct I as [<-|[]]. cbn [snd] in E. pose proof (nas_rule _ _ _ _ _ _ _ F E) as ->. apply in_split in Ix as (A & B & Ex). destruct (t_fire _ _ _ tr A k l _ B Ex) as (rs & pp & f & En & I & _). pose proof (proj1 (forallb_forall _ _) ta_no_nasal _ (nth_error_In _ _ En)) as K. pose proof (proj1 (forallb_forall _ _) K _ I) as K2. cbn [snd] in K2. rewrite (proj2 (word_eqb_spec _ _) eq_refl) in K2. discriminate K2. }
  assert (TR : typed R = w). { apply letters_inj. unfold letters_of at 1. rewrite <- (t_from _ _ _ tr). symmetry. apply (from_typed _ _ _ _ _ _ ta_ops_ok ta_letters_ok _ L tr Iw). auto. }
  assert (SP : Forall (fun p => exists rank, spelled tamil_spellings rank p) R). { pose proof (read_spelled _ _ _ _ _ _ ta_ops_ok ta_letters_ok _ L tr Iw) as F. apply Forall_forall. intros p I. destruct (proj1 (Forall_forall _ _) F p I) as [E|E]; [destruct (NN p I E)|exact E]. }
  exists R. split; [split; [exact TR|split; [exact SP|split]]|split].
  - exact (read_strongest _ _ _ _ _ _ ta_ops_ok ta_letters_ok ta_ranks_ok _ L tr Iw).
  - intros A x y B z rk E S. destruct (read_joined _ _ _ _ _ _ ta_ops_ok ta_letters_ok ta_ranks_ok _ L tr Iw A x y B z rk ta_joins_ok E S) as [H|H]; [apply (NN x)|apply (NN y)]; try exact H; rewrite E, in_app_iff; right; [left|right; left]; reflexivity.
  - rewrite (read_written _ _ _ _ _ _ ta_ops_ok ta_letters_ok _ L tr Iw ES) in EL. change (final false) with Dead in EL. fold R in EL. unfold tamil_write. rewrite EL. exact P.
  - apply (write_known tamil Dead (List.length (map snd R))); [intros c H; exact H|lia|]. apply (read_known tamil tamil_spellings R ta_sounds). eapply Forall_impl; [|exact SP]. intros p H. right. exact H.
Qed.
Lemma ta_texts w : Forall lower w -> exists R b i, tamil_reading w R /\ native tamil (tamil_write (map snd R)) = Some b /\ iso tamil (tamil_write (map snd R)) = Some i /\ only (bytes b) (TA_TAML w) /\ only (bytes i) (TA_ISO w).
Proof.
  intros Lw. destruct (ta_read w Lw) as (R & HR & P & K). destruct (texts ta tamil ta_plain ta_one ta_native ta_iso ta_iso_checks eq_refl w _ Lw P K) as (b & i & H). exists R, b, i. split; [exact HR|]. unfold TA_TAML, TA_ISO, deromanize. rewrite ta_make. exact H.
Qed.
Lemma ta_none w : ~ Forall lower w -> TA_TAML w = [] /\ TA_ISO w = [].
Proof. intros N. unfold TA_TAML, TA_ISO, deromanize. rewrite ta_make. exact (no_texts ta eq_refl w N). Qed.
