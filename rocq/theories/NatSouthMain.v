(** Telugu and Kannada: the grammars piece by piece. *)
From Coq Require Import String.
From Verif Require Import Base RuleModel RegexModel IsoModel AlignModel AlignSpec AlignProofs AlignMore NatModel NatSpec NatProofs NatBytes NatBlocks NatBlocksProofs NatTyp NatTypMain NatMain NatRoman NatRomanMain NatPhon NatFacts NatSoundSpec NatSouth.
Local Open Scope list_scope.

Definition south (k : bool) : lang := if k then Kn else Te.
Definition start_ops (k : bool) : list op := (if k then RT_TO_R else []) ++ VOCALIC_U ++ SCHWA_A.
Definition ANS : word := al (grs "ans") NSL.
Definition NAS : list (word * list word) := [(pM, LABIAL); (NI, DENTAL); (NY, ALVEOLAR); (NY, PALATAL); (NN, RETROFLEX); (NG, VELAR)].
Definition nasal_op (q : word * list word) : op := Rewrite [(ANS, al (grs "ans") (fst q))] None (some_of (snd q)).
Definition J : word := al (grs "j") D_ZH.
Definition JG : word := al (grs "j") pG.
Definition GN : word := al (grs "ny") NY.
Lemma south_ops k : txn_ops (south k) = start_ops k ++ map nasal_op NAS ++ DEFAULT_ANUSVARA_LABIAL ++ [Rewrite [(J ++ GN, JG ++ GN)] None None].
Proof. destruct k; reflexivity. Qed.

(** ** Steps on pieces *)
Definition first (k : bool) (c : bchar) : word := symbol_of c :: Eq :: map (southern k) (bph c).
Definition nasals_by (qs : list (word * list word)) (bs : list word) : list word := fold_left (fun bs q => nasal_step ANS (al (grs "ans") (fst q)) (snd q) bs) qs bs.
Definition labial (b : word) : word := if word_eqb b ANS then al (grs "ans") pM else b.
Definition good (b : word) : bool := if piece b then match b with Gr g :: _ :: r => if str_eqb g (bytes "ans") then Nat.eqb (List.length r) 1 else true | _ => false end else false.
Lemma good_clean b : good b = true -> piece b = true /\ clean ANS b.
Proof.
  unfold good. destruct (piece b) eqn:P; [|discriminate]. intros H. split; [reflexivity|]. intros u ->. unfold ANS, al, grs in H. cbn [app NSL ph] in H. change (str_eqb (bytes "ans") (bytes "ans")) with true in H. cbn iota in H. apply Nat.eqb_eq in H. destruct u; [reflexivity|discriminate H].
Qed.
Definition good_nasal (q : word * list word) : bool := if good (al (grs "ans") (fst q)) then forallb single_phoneme (snd q) else false.
Lemma nasal_step_good q bs : good_nasal q = true -> Forall (fun b => good b = true) bs -> Forall (fun b => good b = true) (nasal_step ANS (al (grs "ans") (fst q)) (snd q) bs).
Proof.
  unfold good_nasal. destruct (good (al (grs "ans") (fst q))) eqn:G; [|discriminate]. intros _. induction 1 as [|b bs H _ IH]; cbn [nasal_step]; constructor; [|exact IH]. destruct (word_eqb b ANS); [destruct (one_of _ _); [exact G|exact H]|exact H].
Qed.
Lemma nasals_ok qs : forallb good_nasal qs = true -> forall bs, Forall (fun b => good b = true) bs -> performs_all (map nasal_op qs) (concat bs) (concat (nasals_by qs bs)).
Proof.
  induction qs as [|q qs IH]; intros G bs H; [constructor|]. cbn [forallb] in G. apply andb_prop in G as [Gq G]. cbn [map]. apply (pa_op _ _ _ (concat (nasal_step ANS (al (grs "ans") (fst q)) (snd q) bs))).
  - cbn [nasal_op performs]. apply nasal_step_ok; [reflexivity|unfold good_nasal in Gq; destruct (good (al _ _)); [exact Gq|discriminate Gq]|]. eapply Forall_impl; [|exact H]. intros b. apply good_clean.
  - apply (IH G). apply nasal_step_good; assumption.
Qed.
Definition assign (q : word * list word) (x : option tok) (b : word) : word := if word_eqb b ANS then if one_of x (snd q) then al (grs "ans") (fst q) else b else b.
Definition nstep (q : word * list word) (bs : list word) : list word := nasal_step ANS (al (grs "ans") (fst q)) (snd q) bs.
Lemma nstep_cons q b bs : nstep q (b :: bs) = assign q (onset bs) b :: nstep q bs.
Proof. reflexivity. Qed.
(** The first piece, while the others change *)
Fixpoint nseq (qs : list (word * list word)) (b : word) (bs : list word) : word := match qs with [] => b | q :: qs' => nseq qs' (assign q (onset bs) b) (nstep q bs) end.
Lemma nasals_cons qs : forall b bs, nasals_by qs (b :: bs) = nseq qs b bs :: nasals_by qs bs.
Proof. induction qs as [|q qs IH]; intros b bs; [reflexivity|]. cbn [nseq]. exact (IH (assign q (onset bs) b) (nstep q bs)). Qed.
Lemma nseq_other qs : forall b bs, word_eqb b ANS = false -> nseq qs b bs = b.
Proof. induction qs as [|q qs IH]; intros b bs H; [reflexivity|]. cbn [nseq]. unfold assign. rewrite H. exact (IH b _ H). Qed.
Definition quiet (bs : list word) : Prop := match bs with b :: _ => word_eqb b ANS = false | [] => True end.
Lemma quiet_step q bs : quiet bs -> quiet (nstep q bs) /\ onset (nstep q bs) = onset bs.
Proof. destruct bs as [|b bs]; intros H; [split; [exact I|reflexivity]|]. cbn [quiet] in *. rewrite nstep_cons. unfold assign. rewrite H. split; [exact H|]. destruct b as [|? [|? [|? ?]]]; reflexivity. Qed.
(** Before something else *)
Fixpoint nseq1 (qs : list (word * list word)) (b : word) (x : option tok) : word := match qs with [] => b | q :: qs' => nseq1 qs' (assign q x b) x end.
Lemma nseq1_ok qs : forall b bs, quiet bs -> nseq qs b bs = nseq1 qs b (onset bs).
Proof. induction qs as [|q qs IH]; intros b bs H; [reflexivity|]. cbn [nseq nseq1]. destruct (quiet_step q bs H) as [H' E]. rewrite (IH _ _ H'), E. reflexivity. Qed.
(** Before another one and something else *)
Fixpoint nseq2 (qs : list (word * list word)) (b c : word) (x : option tok) : word := match qs with [] => b | q :: qs' => nseq2 qs' (assign q (onset [c]) b) (assign q x c) x end.
Lemma onset_cons b bs : onset (b :: bs) = onset [b].
Proof. reflexivity. Qed.
Lemma nseq2_ok qs : forall b c bs, quiet bs -> nseq qs b (c :: bs) = nseq2 qs b c (onset bs).
Proof. induction qs as [|q qs IH]; intros b c bs H; [reflexivity|]. cbn [nseq nseq2]. destruct (quiet_step q bs H) as [H' E]. rewrite nstep_cons, (IH _ _ _ H'), E. reflexivity. Qed.
(** Before others *)
Fixpoint nseq3 (qs : list (word * list word)) (b c : word) (S : list word) : list word :=
  match qs with [] => [b] | q :: qs' => flat_map (fun t => nseq3 qs' (assign q (onset [c]) b) (assign q (onset [t]) c) (al (grs "ans") (fst q) :: S)) S end.
Lemma nseq3_ok qs : forall b c t bs S, In t S -> In (nseq qs b (c :: t :: bs)) (nseq3 qs b c S).
Proof.
  induction qs as [|q qs IH]; intros b c t bs S I; [left; reflexivity|]. cbn [nseq nseq3]. apply in_flat_map. exists t. split; [exact I|]. rewrite !nstep_cons. apply IH. unfold assign. destruct (word_eqb t ANS); [destruct (one_of _ _); [left; reflexivity|right; exact I]|right; exact I].
Qed.
Lemma three_nasals : forallb (fun b => word_eqb (labial b) (al (grs "ans") pM)) (nseq3 NAS ANS ANS [ANS]) = true.
Proof. vm_compute. reflexivity. Qed.
(** ** Checked for every character *)
Definition nasal_pieces : list word := map (fun q : word * list word => al (grs "ans") (fst q)) NAS.
Definition single (b : word) : list word := [b].
Definition firsts_ok (k : bool) (c : bchar) : bool :=
  let b := first k c in
  if match local_run (start_ops k) (piece_of c) with Some x => word_eqb x b | None => false end then
    if good b then
      if Bool.eqb (word_eqb b ANS) (named c "ans") then
        if Bool.eqb (word_eqb b J) (named c "j") then
          if Bool.eqb (word_eqb b GN) (named c "ny") then
            if (if named c "ans" then true else match local_run DEFAULT_ANUSVARA_LABIAL b with Some x => word_eqb x b | None => false end) then
              if (if named c "ans" then true else if word_eqb (labial (nseq1 NAS ANS (onset [b]))) (al (grs "ans") [Ph (bytes (nasal_before [c]))]) then
                    word_eqb (labial (nseq2 NAS ANS ANS (onset [b]))) (al (grs "ans") [Ph (bytes (if starts_among [c] ["n"; "d"; "t"]%string then "ny" else "m"))]) else false) then
                if named c "j" then word_eqb b (symbol_of c :: Eq :: bph c) else true
              else false
            else false
          else false
        else false
      else false
    else false
  else false.
Lemma firsts : forallb (fun k => forallb (firsts_ok k) CHARS) [false; true] = true.
Proof. vm_cast_no_check (eq_refl true). Qed.
Record facts (k : bool) (c : bchar) : Prop := {
  f_start : local_run (start_ops k) (piece_of c) = Some (first k c);
  f_good : good (first k c) = true;
  f_ans : word_eqb (first k c) ANS = named c "ans";
  f_j : word_eqb (first k c) J = named c "j";
  f_ny : word_eqb (first k c) GN = named c "ny";
  f_labial : named c "ans" = false -> local_run DEFAULT_ANUSVARA_LABIAL (first k c) = Some (first k c);
  f_nasal : named c "ans" = false -> labial (nseq1 NAS ANS (onset [first k c])) = al (grs "ans") [Ph (bytes (nasal_before [c]))] /\
    labial (nseq2 NAS ANS ANS (onset [first k c])) = al (grs "ans") [Ph (bytes (if starts_among [c] ["n"; "d"; "t"]%string then "ny" else "m"))];
  f_jj : named c "j" = true -> first k c = symbol_of c :: Eq :: bph c }.
Lemma facts_ok k c : In c CHARS -> facts k c.
Proof.
  intros I. assert (Ik : In k [false; true]) by (destruct k; cbn; auto). pose proof (proj1 (forallb_forall _ _) (proj1 (forallb_forall _ _) firsts k Ik) c I) as H. unfold firsts_ok in H. cbv zeta in H.
  destruct (match local_run (start_ops k) (piece_of c) with Some x => word_eqb x (first k c) | None => false end) eqn:H1; [|discriminate H].
  destruct (good (first k c)) eqn:H2; [|discriminate H]. destruct (Bool.eqb _ (named c "ans")) eqn:H3; [|discriminate H]. destruct (Bool.eqb _ (named c "j")) eqn:H4; [|discriminate H]. destruct (Bool.eqb _ (named c "ny")) eqn:H5; [|discriminate H].
  destruct (if named c "ans" then true else _) eqn:H6; [|discriminate H]. destruct (if named c "ans" then true else if word_eqb (labial _) _ then _ else _) eqn:H7; [|discriminate H]. constructor.
  - destruct (local_run (start_ops k) (piece_of c)) as [x|]; [|discriminate H1]. apply word_eqb_ok in H1 as ->. reflexivity.
  - exact H2.
  - exact (proj1 (Bool.eqb_true_iff _ _) H3).
  - exact (proj1 (Bool.eqb_true_iff _ _) H4).
  - exact (proj1 (Bool.eqb_true_iff _ _) H5).
  - intros E. rewrite E in H6. destruct (local_run DEFAULT_ANUSVARA_LABIAL (first k c)) as [x|]; [|discriminate H6]. apply word_eqb_ok in H6 as ->. reflexivity.
  - intros E. rewrite E in H7. destruct (word_eqb (labial (nseq1 _ _ _)) _) eqn:H8; [|discriminate H7]. split; apply word_eqb_ok; assumption.
  - intros E. rewrite E in H. exact (proj1 (word_eqb_ok _ _) H).
Qed.
(** After the nasals *)
Definition mid (k : bool) (c : bchar) (rest : list bchar) : word := if named c "ans" then al (grs "ans") [Ph (bytes (nasal_before rest))] else first k c.
Fixpoint mids (k : bool) (ds : list bchar) : list word := match ds with [] => [] | c :: rest => mid k c rest :: mids k rest end.
Lemma mids_ok k ds : (forall c, In c ds -> In c CHARS) -> map labial (nasals_by NAS (map (first k) ds)) = mids k ds.
Proof.
  induction ds as [|c ds IH]; intros H; [reflexivity|]. pose proof (facts_ok k c (H c (or_introl eq_refl))) as F. assert (H' : forall d, In d ds -> In d CHARS) by (intros d I; apply H; right; exact I).
  cbn [map mids]. rewrite nasals_cons. cbn [map]. rewrite (IH H'). f_equal. unfold mid. destruct (named c "ans") eqn:E; [|pose proof (f_ans _ _ F) as A; rewrite E in A; rewrite (nseq_other NAS _ _ A); unfold labial; rewrite A; reflexivity].
  pose proof (f_ans _ _ F) as A. rewrite E in A. apply word_eqb_ok in A. rewrite A. clear A F IH. destruct ds as [|d ds]; [reflexivity|]. pose proof (facts_ok k d (H' d (or_introl eq_refl))) as F. cbn [map]. pose proof (f_ans _ _ F) as A. unfold nasal_before. destruct (named d "ans") eqn:Ed.
  - apply word_eqb_ok in A. rewrite A. cbn [tl]. destruct ds as [|e ds]; [reflexivity|]. pose proof (facts_ok k e (H' e (or_intror (or_introl eq_refl)))) as F'. cbn [map]. pose proof (f_ans _ _ F') as A'. destruct (named e "ans") eqn:Ee.
    + apply word_eqb_ok in A'. rewrite A'. pose proof (proj1 (forallb_forall _ _) three_nasals _ (nseq3_ok NAS ANS ANS ANS (map (first k) ds) [ANS] (or_introl eq_refl))) as T. apply word_eqb_ok in T. rewrite T.
      assert (Z : starts_among (e :: ds) ["n"; "d"; "t"]%string = false). { unfold starts_among. assert (B : bph e = [Ph (bytes "N")]) by (unfold first, ANS, al in A'; injection A' as _ A'; destruct (bph e) as [|x [|? ?]]; [discriminate A'| |discriminate A']; injection A' as A'; f_equal; revert A'; unfold southern; destruct (among x _); [discriminate|]; destruct (among x _); [discriminate|]; destruct k; [destruct (among x _); [discriminate|]|]; intros A'; exact A'). rewrite B. reflexivity. }
      rewrite Z. reflexivity.
    + rewrite (nseq2_ok NAS ANS ANS (first k e :: map (first k) ds)); [|exact A']. rewrite onset_cons. exact (proj2 (f_nasal _ _ F' Ee)).
  - rewrite (nseq1_ok NAS ANS (first k d :: map (first k) ds)); [|exact A]. rewrite onset_cons. rewrite (proj1 (f_nasal _ _ F Ed)). unfold nasal_before. rewrite Ed. reflexivity.
Qed.
Definition nasal_names : list string := ["m"; "ni"; "ny"; "nn"; "ng"]%string.
Lemma nasal_among ds : In (nasal_before ds) nasal_names.
Proof. unfold nasal_before, nasal_names. destruct (match ds with c :: _ => named c "ans" | [] => false end); [destruct (starts_among _ _); cbn; auto|]. repeat (destruct (starts_among ds _); [cbn; auto 6|]). cbn; auto. Qed.
Definition nasal_named (n : string) : word := al (grs "ans") [Ph (bytes n)].
(** Only the pieces of j and ny start like them *)
Definition cleanb (l b : word) : bool := if word_eqb (firstn (List.length l) b) l then word_eqb b l else true.
Lemma cleanb_ok l b : cleanb l b = true -> clean l b.
Proof.
  intros H u ->. unfold cleanb in H. rewrite firstn_app, Nat.sub_diag, firstn_all, app_nil_r, word_eqb_refl in H. apply word_eqb_ok in H. apply (app_inv_head l). rewrite app_nil_r. exact H.
Qed.
Definition fits (b : word) : bool := if good b then if cleanb J b then cleanb GN b else false else false.
Lemma fits_ok b : fits b = true -> piece b = true /\ clean J b /\ clean GN b.
Proof. unfold fits. destruct (good b) eqn:G; [|discriminate]. destruct (cleanb J b) eqn:A; [|discriminate]. intros B. split; [apply (good_clean b G)|]. split; apply cleanb_ok; assumption. Qed.
Definition kept (o : list op) (b : word) : bool := match local_run o b with Some x => word_eqb x b | None => false end.
Lemma nasal_facts : forallb (fun n => if fits (nasal_named n) then if word_eqb (nasal_named n) J then false else negb (word_eqb (nasal_named n) GN) else false) nasal_names = true.
Proof. vm_compute. reflexivity. Qed.
Lemma nasal_ok ds : fits (nasal_named (nasal_before ds)) = true /\ word_eqb (nasal_named (nasal_before ds)) J = false /\ word_eqb (nasal_named (nasal_before ds)) GN = false.
Proof.
  pose proof (proj1 (forallb_forall _ _) nasal_facts _ (nasal_among ds)) as H. cbv beta in H. destruct (fits _); [|discriminate H]. destruct (word_eqb _ J); [discriminate H|]. destruct (word_eqb _ GN); [discriminate H|]. auto.
Qed.
Lemma first_fits : forallb (fun k => forallb (fun c => fits (first k c)) CHARS) [false; true] = true.
Proof. vm_compute. reflexivity. Qed.
Lemma mid_facts k c ds : In c CHARS -> fits (mid k c ds) = true /\ word_eqb (mid k c ds) J = named c "j" /\ word_eqb (mid k c ds) GN = named c "ny".
Proof.
  intros I. pose proof (facts_ok k c I) as F. assert (Ik : In k [false; true]) by (destruct k; cbn; auto). unfold mid. destruct (named c "ans") eqn:E.
  - destruct (nasal_ok ds) as (G & A & B). unfold nasal_named in G, A, B. rewrite A, B. split; [exact G|]. unfold named in *. apply String.eqb_eq in E. rewrite E. split; reflexivity.
  - split; [exact (proj1 (forallb_forall _ _) (proj1 (forallb_forall _ _) first_fits k Ik) c I)|]. split; [apply (f_j _ _ F)|apply (f_ny _ _ F)].
Qed.
Lemma mids_fit k ds : (forall c, In c ds -> In c CHARS) -> Forall (fun b => piece b = true /\ clean J b /\ clean GN b) (mids k ds).
Proof. induction ds as [|c ds IH]; intros H; cbn [mids]; constructor; [apply fits_ok; apply (mid_facts k c ds); apply H; left; reflexivity|apply IH; intros d I; apply H; right; exact I]. Qed.

(** The pieces of the pronunciation *)
Definition last_piece (k : bool) (c : bchar) (rest : list bchar) : word :=
  symbol_of c :: Eq :: (if named c "ans" then [Ph (bytes (nasal_before rest))]
                  else if named c "j" then match rest with d :: _ => if named d "ny" then [Ph (bytes "g")] else bph c | [] => bph c end
                  else map (southern k) (bph c)).
Fixpoint lasts (k : bool) (ds : list bchar) : list word := match ds with [] => [] | c :: rest => last_piece k c rest :: lasts k rest end.
Lemma lasts_sounds k ds : concat (lasts k ds) = southern_sounds k ds.
Proof. induction ds as [|c ds IH]; [reflexivity|]. cbn [lasts concat southern_sounds]. rewrite IH. reflexivity. Qed.
Lemma named_symbol c s : named c s = true -> symbol_of c = Gr (bytes s).
Proof. unfold named, symbol_of. intros H. apply String.eqb_eq in H. rewrite H. reflexivity. Qed.
Lemma lasts_ok k ds : (forall c, In c ds -> In c CHARS) -> pair_step J GN JG (mids k ds) = lasts k ds.
Proof.
  induction ds as [|c ds IH]; intros H; [reflexivity|]. cbn [mids pair_step lasts]. assert (H' : forall d, In d ds -> In d CHARS) by (intros d I; apply H; right; exact I). rewrite (IH H'). f_equal. pose proof (H c (or_introl eq_refl)) as Ic.
  destruct (mid_facts k c ds Ic) as (_ & Ej & _). rewrite Ej. unfold last_piece, mid. destruct (named c "ans") eqn:A.
  - assert (B : named c "j" = false) by (unfold named in *; apply String.eqb_eq in A; rewrite A; reflexivity). rewrite B, (named_symbol _ _ A). reflexivity.
  - destruct (named c "j") eqn:B; [|reflexivity]. destruct ds as [|d ds]; [exact (f_jj _ _ (facts_ok k c Ic) B)|]. cbn [mids]. destruct (mid_facts k d ds (H' d (or_introl eq_refl))) as (_ & _ & En). rewrite En. destruct (named d "ny"); [rewrite (named_symbol _ _ B); reflexivity|exact (f_jj _ _ (facts_ok k c Ic) B)].
Qed.
(** ** Pronunciation *)
Lemma start_static : forallb (fun k => forallb local_op (start_ops k)) [false; true] = true.
Proof. vm_compute. reflexivity. Qed.
Lemma nasal_static : forallb good_nasal NAS = true.
Proof. vm_compute. reflexivity. Qed.
Definition all_nasals : list word := map nasal_named nasal_names.
Lemma nasals_labial : forallb (fun b => match local_run DEFAULT_ANUSVARA_LABIAL b with Some x => word_eqb x (labial b) | None => false end) (ANS :: all_nasals) = true.
Proof. vm_compute. reflexivity. Qed.
Lemma nasal_step_in l r pl bs b : In b (nasal_step l r pl bs) -> In b bs \/ b = r.
Proof. induction bs as [|a bs IH]; cbn [nasal_step]; intros I; [destruct I|]. destruct I as [E|I]; [|destruct (IH I); [left; right; assumption|right; assumption]]. destruct (word_eqb a l); [destruct (one_of _ _); [right; symmetry; exact E|]|]; left; left; exact E. Qed.
Lemma nasals_in qs : forall bs b, In b (nasals_by qs bs) -> In b bs \/ In b (map (fun q : word * list word => al (grs "ans") (fst q)) qs).
Proof.
  induction qs as [|q qs IH]; intros bs b I; [left; exact I|]. unfold nasals_by in I. cbn [fold_left] in I. apply IH in I as [I|I]; [|right; right; exact I]. apply nasal_step_in in I as [I| ->]; [left; exact I|right; left; reflexivity].
Qed.
Lemma south_performs k ds : (forall c, In c ds -> In c CHARS) -> performs_all (txn_ops (south k)) (flat_map piece_of ds) (southern_sounds k ds).
Proof.
  intros H. rewrite south_ops. pose proof (txn_nonempty (south k)) as N. rewrite south_ops in N. apply Forall_app in N as [N1 N]. apply Forall_app in N as [_ N]. apply Forall_app in N as [N2 _]. assert (Ik : In k [false; true]) by (destruct k; cbn; auto).
  apply performs_all_app. exists (concat (map (first k) ds)). split.
  { rewrite flat_map_concat_map. replace (map (first k) ds) with (map (fun b => match local_run (start_ops k) b with Some x => x | None => [] end) (map piece_of ds)).
    - apply local_run_ok; [exact N1|exact (proj1 (forallb_forall _ _) start_static k Ik)|]. intros b I. apply in_map_iff in I as (c & <- & I). rewrite (f_start _ _ (facts_ok k c (H c I))). reflexivity.
    - rewrite map_map. apply map_ext_in. intros c I. rewrite (f_start _ _ (facts_ok k c (H c I))). reflexivity. }
  apply performs_all_app. exists (concat (nasals_by NAS (map (first k) ds))). split.
  { apply nasals_ok; [exact nasal_static|]. apply Forall_forall. intros b I. apply in_map_iff in I as (c & <- & I). exact (f_good _ _ (facts_ok k c (H c I))). }
  apply performs_all_app. exists (concat (mids k ds)). split.
  { rewrite <- (mids_ok k ds H). apply local_run_ok; [exact N2|reflexivity|]. intros b I. apply nasals_in in I as [I|I].
    - apply in_map_iff in I as (c & <- & I). pose proof (facts_ok k c (H c I)) as F. unfold labial. rewrite (f_ans _ _ F). destruct (named c "ans") eqn:A; [|exact (f_labial _ _ F A)]. pose proof (f_ans _ _ F) as B. rewrite A in B. apply word_eqb_ok in B. rewrite B.
      pose proof (proj1 (forallb_forall _ _) nasals_labial ANS (or_introl eq_refl)) as Q. cbv beta in Q. destruct (local_run _ ANS) as [x|]; [|discriminate Q]. apply word_eqb_ok in Q as ->. reflexivity.
    - assert (J' : In b all_nasals) by (revert I; clear; unfold NAS, all_nasals; cbn [map In fst nasal_names]; intuition). pose proof (proj1 (forallb_forall _ _) nasals_labial b (or_intror J')) as Q. cbv beta in Q. destruct (local_run _ b) as [x|]; [|discriminate Q]. apply word_eqb_ok in Q as ->. reflexivity. }
  apply (pa_op _ _ _ (southern_sounds k ds)); [|constructor]. cbn [performs]. rewrite <- lasts_sounds, <- (lasts_ok k ds H). apply (pair_step_ok J GN JG eq_refl eq_refl ltac:(discriminate) (List.length (mids k ds))); [apply le_n|exact (mids_fit k ds H)].
Qed.
