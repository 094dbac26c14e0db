(** Telugu and Kannada: pronunciation and romanization of texts. *)
From Coq Require Import String.
From Verif Require Import Base RuleModel RegexModel IsoModel AlignModel AlignSpec AlignProofs AlignMore NatModel NatSpec NatProofs NatBytes NatBlocks NatBlocksProofs NatTyp NatTypMain NatMain NatRoman NatRomanMain NatPhon NatFacts NatSoundSpec NatSouth NatSouthMain.
Local Open Scope list_scope.

Lemma south_pronounce k cs ds : letters cs -> reading cs ds -> only (encs (southern_sounds k ds)) (pronounce (south k) (text_of cs)).
Proof.
  intros H R y. pose proof (reading_chars cs ds R) as Hd. pose proof (south_performs k ds Hd) as P. rewrite (pronounce_in (south k) cs ds y H R). assert (I : In (south k) [Hi; Bn; Ta; Ml; Gu; Kn; Te; Mr]) by (destruct k; cbn; tauto).
  destruct (phonology_ok true CHARS (south k) ds _ (proj1 (forallb_forall _ _) phonology_eight _ I) Hd P) as [_ U]. split; [intros (ts & P' & ->); rewrite (U eq_refl ts P'); reflexivity|]. intros ->. eauto.
Qed.
(** ** Spelling *)
Definition latin_letter (x : str) : str := match find (fun c => str_eqb (typ c) x) LTN_CHARS with Some c => glyph c | None => [] end.
Definition spelled (w : word) : str := flat_map (fun t => match t with Tr x => latin_letter x | _ => [] end) w.
Lemma spelled_chars ts : printable ts = true -> exists cs, (forall c, In c cs -> In c LTN_CHARS) /\ filter right_symbol ts = map (fun c => Tr (typ c)) cs /\ flat_map glyph cs = spelled ts.
Proof.
  induction ts as [|t ts IH]; intros H; [exists []; split; [intros c []|split; reflexivity]|]. change (t :: ts) with ([t] ++ ts) in H. rewrite printable_app in H. destruct (printable [t]) eqn:P; [|discriminate H]. destruct (IH H) as (cs & Hc & E & O). destruct t as [s|s|s|]; unfold printable in P; cbn [forallb] in P; try discriminate P; cbn [filter right_symbol]; try solve [exists cs; auto].
  rewrite andb_true_r in P. apply existsb_exists in P as (c & I & K). destruct (str_eqb (typ c) s) eqn:Es; [|discriminate K]. unfold spelled. cbn [flat_map]. fold (spelled ts). unfold latin_letter. destruct (find (fun c => str_eqb (typ c) s) LTN_CHARS) as [d|] eqn:F.
  - apply find_some in F as [Id Ed]. apply str_eqb_eq in Ed. exists (d :: cs). split; [intros e [<-|J]; [exact Id|exact (Hc e J)]|]. split; [cbn [map]; rewrite E, Ed; reflexivity|]. cbn [flat_map]. rewrite O. reflexivity.
  - pose proof (find_none _ _ F c I) as X. cbv beta in X. congruence.
Qed.
Lemma print_spelled e ts : Forall symbol ts -> printable ts = true -> only (spelled ts) (print_only_glyph e LTN_CHARS (encs ts)).
Proof. intros Hs P. destruct (spelled_chars ts P) as (cs & Hc & E & <-). intros x. exact (print_glyphs e LTN_CHARS cs ts x ltn_table Hs Hc E). Qed.
Lemma spelled_app a b : spelled (a ++ b) = spelled a ++ spelled b.
Proof. apply flat_map_app. Qed.
(** ** Checked for every character *)
Definition south_scheme (fine : bool) : scheme := if fine then Psaf else Nat.
Definition latin_ops (fine : bool) : list op := TXN_TO_PSA_COMMON ++ (if fine then TRANSLIT_LONG else []).
Lemma south_latin k fine : ltn_ops (south k) (south_scheme fine) = Some (latin_ops fine, []).
Proof. destruct k, fine; try reflexivity; unfold latin_ops; rewrite app_nil_r; reflexivity. Qed.
Definition latin_run (fine : bool) (b : word) : option word :=
  match local_run (latin_ops fine) b with Some m => if gheaded m then find printable (run [TRANSLIT_BY_PSA] m) else None | None => None end.
Definition spells (fine : bool) (b : word) (s : str) : bool :=
  match latin_run fine b with Some o => if printable o then str_eqb (spelled o) s else false | None => false end.
Definition letter_of (fine : bool) (c : bchar) : str :=
  bytes match find (fun q : string * (string * string) => named c (fst q)) southern_letters with Some (_, (a, b)) => if fine then a else b | None => "?" end.
Definition FLAGS : list (bool * bool) := [(false, false); (false, true); (true, false); (true, true)].
Lemma spelling_chars : forallb (fun q : bool * bool => forallb (fun c => if named c "ans" then true else spells (snd q) (first (fst q) c) (if named c "j" then bytes "j" else letter_of (snd q) c)) CHARS) FLAGS = true.
Proof. vm_cast_no_check (eq_refl true). Qed.
Lemma spelling_others : forallb (fun fine => if spells fine JG (bytes "g") then forallb (fun n => spells fine (nasal_named n) (bytes (if String.eqb n "m" then "m" else "n"))) nasal_names else false) [false; true] = true.
Proof. vm_compute. reflexivity. Qed.
Lemma latin_local : forallb (fun fine => forallb local_op (latin_ops fine ++ [TRANSLIT_BY_PSA])) [false; true] = true.
Proof. vm_compute. reflexivity. Qed.
Definition piece_spelling (fine : bool) (c : bchar) (rest : list bchar) : str :=
  bytes (if named c "ans" then if String.eqb (nasal_before rest) "m" then "m" else "n"
         else if named c "j" then match rest with d :: _ => if named d "ny" then "g" else "j" | [] => "j" end
         else match find (fun q : string * (string * string) => named c (fst q)) southern_letters with Some (_, (a, b)) => if fine then a else b | None => "?" end).
Lemma last_spells k fine c rest : In c CHARS -> spells fine (last_piece k c rest) (piece_spelling fine c rest) = true.
Proof.
  intros I. assert (If : In fine [false; true]) by (destruct fine; cbn; auto). pose proof (proj1 (forallb_forall _ _) spelling_others fine If) as O. cbv beta in O. destruct (spells fine JG _) eqn:G; [|discriminate O]. assert (Iq : In (k, fine) FLAGS) by (destruct k, fine; cbn; auto).
  pose proof (proj1 (forallb_forall _ _) (proj1 (forallb_forall _ _) spelling_chars _ Iq) c I) as S. cbv beta in S. cbn [fst snd] in S. unfold last_piece, piece_spelling. destruct (named c "ans") eqn:A.
  - rewrite (named_symbol _ _ A). exact (proj1 (forallb_forall _ _) O _ (nasal_among rest)).
  - destruct (named c "j") eqn:B; [|exact S]. pose proof (f_jj _ _ (facts_ok k c I) B) as E. destruct rest as [|d rest]; [rewrite <- E; exact S|]. destruct (named d "ny"); [rewrite (named_symbol _ _ B); exact G|rewrite <- E; exact S].
Qed.
Lemma spelling_pieces fine ds : southern_spelling fine ds = concat ((fix go ds := match ds with [] => [] | c :: rest => piece_spelling fine c rest :: go rest end) ds).
Proof. induction ds as [|c ds IH]; [reflexivity|]. cbn [southern_spelling concat]. rewrite IH. reflexivity. Qed.
Definition latin_piece (fine : bool) (b : word) : word := match latin_run fine b with Some o => o | None => [] end.
Lemma lasts_spelled k fine ds : (forall c, In c ds -> In c CHARS) -> printable (concat (map (latin_piece fine) (lasts k ds))) = true /\ spelled (concat (map (latin_piece fine) (lasts k ds))) = southern_spelling fine ds.
Proof.
  rewrite spelling_pieces. induction ds as [|c ds IH]; intros H; [split; reflexivity|]. destruct IH as [P E]; [intros d I; apply H; right; exact I|]. cbn [lasts map concat]. rewrite printable_app, spelled_app, E. pose proof (last_spells k fine c ds (H c (or_introl eq_refl))) as S. unfold spells in S. unfold latin_piece at 1 3.
  destruct (latin_run _ _) as [o|]; [|discriminate S]. destruct (printable o); [|discriminate S]. apply str_eqb_eq in S. rewrite S. split; [exact P|reflexivity].
Qed.
Lemma latin_runs fine bs : Forall nonempty_op (latin_ops fine) -> nonempty_op TRANSLIT_BY_PSA -> forallb local_op (latin_ops fine ++ [TRANSLIT_BY_PSA]) = true -> (forall b, In b bs -> latin_run fine b = Some (latin_piece fine b)) ->
  performs_all (latin_ops fine ++ [TRANSLIT_BY_PSA]) (concat bs) (concat (map (latin_piece fine) bs)).
Proof.
  intros N1 N2 L H. rewrite forallb_app in L. apply andb_prop in L as [L1 L2]. cbn [forallb] in L2. rewrite andb_true_r in L2. set (m b := match local_run (latin_ops fine) b with Some x => x | None => [] end). apply performs_all_app. exists (concat (map m bs)).
  assert (K : forall b, In b bs -> local_run (latin_ops fine) b = Some (m b) /\ gheaded (m b) = true /\ In (latin_piece fine b) (run [TRANSLIT_BY_PSA] (m b))).
  { intros b I. pose proof (H b I) as E. unfold latin_run in E. unfold m. destruct (local_run (latin_ops fine) b) as [x|]; [|discriminate E]. destruct (gheaded x); [|discriminate E]. apply find_some in E as [E _]. auto. }
  split; [apply local_run_ok; [exact N1|exact L1|intros b I; apply (K b I)]|]. apply (pa_op _ _ _ (concat (map (latin_piece fine) bs))); [|constructor]. apply local_pieces; [exact L2|apply Forall_forall; intros x I; apply in_map_iff in I as (b & <- & I); apply (K b I)|].
  clear - K N2. induction bs as [|b bs IH]; constructor; [|apply IH; intros c I; apply K; right; exact I]. destruct (K b (or_introl eq_refl)) as (_ & _ & I). apply (run_ok [TRANSLIT_BY_PSA] (Forall_cons _ N2 (Forall_nil _))) in I. inversion I as [|? ? ? x ? P1 P2]; subst. inversion P2; subst. exact P1.
Qed.
Lemma south_romanize k fine e f cs ds : romanize e (south k) (south_scheme fine) = Some f -> letters cs -> reading cs ds -> only (southern_spelling fine ds) (f (text_of cs)).
Proof.
  intros E H R. pose proof (reading_chars cs ds R) as Hd. assert (N1 : south k <> Gu) by (destruct k; discriminate). assert (N2 : south k <> Pa) by (destruct k; discriminate). destruct (romanize_seven e (south k) (south_scheme fine) f cs E N1 N2 H) as (x & On & _).
  assert (I : In (southern_spelling fine ds) (f (text_of cs))); [|apply On in I; rewrite I; exact On].
  destruct (romanize_some e (south k) (south_scheme fine) f E) as (before & after & El & Ef). rewrite (south_latin k fine) in El. injection El as <- <-. rewrite Ef. apply in_flat_map. exists (southern_spelling fine ds). split; [|destruct fine; left; reflexivity].
  apply (romanized_in e (south k) (south_scheme fine) _ _ cs ds _ (south_latin k fine) H R). destruct (lasts_spelled k fine ds Hd) as [P Sp]. exists (concat (map (latin_piece fine) (lasts k ds))).
  assert (Pf : performs_all ((txn_ops (south k) ++ latin_ops fine) ++ [TRANSLIT_BY_PSA]) (flat_map piece_of ds) (concat (map (latin_piece fine) (lasts k ds)))).
  { rewrite <- app_assoc. apply performs_all_app. exists (southern_sounds k ds). split; [exact (south_performs k ds Hd)|]. rewrite <- lasts_sounds. assert (If : In fine [false; true]) by (destruct fine; cbn; auto).
    destruct (static_ok (south k) (south_scheme fine) _ _ (south_latin k fine)) as (W & _). pose proof (well_formed_all _ W) as N. unfold whole in N. apply Forall_app in N as [_ N]. apply Forall_app in N as [N N']. apply Forall_app in N as [_ N]. inversion N' as [|? ? N3 _]; subst.
    apply latin_runs; [exact N|exact N3|exact (proj1 (forallb_forall _ _) latin_local fine If)|].
    clear - Hd. induction ds as [|c ds IH]; intros b I; [destruct I|]. destruct I as [<-|I]; [|apply IH; [intros d J; apply Hd; right; exact J|exact I]]. pose proof (last_spells k fine c ds (Hd c (or_introl eq_refl))) as S. unfold spells in S. unfold latin_piece. destruct (latin_run _ _); [reflexivity|discriminate S]. }
  assert (Sy : Forall symbol (concat (map (latin_piece fine) (lasts k ds)))).
  { destruct (static_ok (south k) (south_scheme fine) _ _ (south_latin k fine)) as (W & _). apply (performs_all_writes symbol (whole (south k) (latin_ops fine) []) (map symbol_of cs)); [eapply Forall_impl; [|exact W]; intros o; apply well_formed_writes| |exact (typ_symbols _ (letters_chars cs H))].
    unfold whole. apply (iso_to_txn_steps cs ds _ _ R). exact Pf. }
  split; [exact Pf|]. split; [exact Sy|]. rewrite <- Sp. apply (print_spelled e _ Sy P). reflexivity.
Qed.
