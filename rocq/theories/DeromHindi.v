(** Deromanization of Hindi. *)
From Coq Require Import String.
From Verif Require Import Base RuleModel RegexModel RegexProofs IsoModel AlignModel AlignSpec AlignProofs AlignMore NatModel NatSpec NatProofs NatBytes NatBlocks NatBlocksProofs NatTyp NatTypMain DeromModel DeromBytes DeromPieces DeromSpec DeromReading DeromText DeromIso DeromRun DeromTamil DeromJoin.
Local Open Scope list_scope.

Definition hi : deromanizer := Eval vm_compute in match make HI_PARAMS with Some d => d | None => Deromanizer "" [] [] end.
Definition hi_ops : list op := Eval vm_compute in firstn 22 (d_typ_ops hi).
Definition hi_rank (k : nat) : nat := nth k [0;0;0;1;2;3;4;5;6;7;8;9;10;11;12;12;13;13;14;14;15;15] 15.
Lemma hi_make : make HI_PARAMS = Some hi. Proof. vm_compute. reflexivity. Qed.
Lemma hi_split : d_typ_ops hi = hi_ops ++ rw_cluster_wi ++ rw_cluster_wf. Proof. vm_compute. reflexivity. Qed.
Lemma hi_ops_ok : check_ops hi_ops hindi_spellings hi_rank 14 true sch 0 hi_ops = true. Proof. vm_compute. reflexivity. Qed.
Lemma hi_letters_ok : check_letters hi_ops = true. Proof. vm_compute. reflexivity. Qed.
Lemma hi_ranks_ok : check_ranks hi_ops hi_rank 0 hindi_spellings = true. Proof. vm_compute. reflexivity. Qed.
Lemma hi_joins_ok : check_joins hindi_spellings = true. Proof. vm_compute. reflexivity. Qed.
Lemma hi_plain : forallb plain_opb (d_typ_ops hi ++ typ2iso_ops hi) = true. Proof. vm_compute. reflexivity. Qed.
Lemma hi_one : forallb one_opb (d_typ_ops hi ++ typ2iso_ops hi) = true. Proof. vm_compute. reflexivity. Qed.
Lemma hi_good : forallb good_opb hi_ops = true. Proof. vm_compute. reflexivity. Qed.
Lemma hi_sounds : forallb (forallb (fun p : string * sound => sound_knownb hindi (snd p))) hindi_spellings = true. Proof. vm_compute. reflexivity. Qed.
Lemma hi_native : forallb (fun x => same (values (brh_table "deva") (akshara_toks x)) (native_akshara hindi x)) (all_aksharas hindi) = true. Proof. vm_compute. reflexivity. Qed.
Lemma hi_iso : forallb (fun b => forallb (fun x => same (values iso_table (iso_toks b x)) (iso_akshara hindi b x)) (all_aksharas hindi)) [true; false] = true. Proof. vm_compute. reflexivity. Qed.
Lemma hi_iso_checks : check_cons hi hindi && check_vow hi hindi && check_marks hi && forallb first_op (d_ind_to_sign hi) = true. Proof. vm_compute. reflexivity. Qed.
Lemma hi_join : check_joins_o hindi = true. Proof. vm_compute. reflexivity. Qed.
Lemma onset_single : singles onset = true. Proof. vm_compute. reflexivity. Qed.

(** ** The nasals *)
Definition hard : list word := map (fun s => grs s) (filter (fun s => negb (String.eqb s "n" || String.eqb s "m")) consonants).
Definition after_n : tctx := Some (true, TAlt (TCat (TWords hard) ANY_SYMBOLS) (TQues TSKIP_RIGHT)).
Definition after_m : tctx := Some (false, TWords [spell "b"; spell "p"]).
Definition before_nasal : tctx := Some (false, TWords vowel_letters).
Lemma hi_0 : nth_error hi_ops 0 = Some (Rewrite [(spell "m", [name "ans"])] before_nasal after_m). Proof. vm_compute. reflexivity. Qed.
Lemma hi_1 : nth_error hi_ops 1 = Some (Rewrite [(spell "n", [name "ans"])] before_nasal after_n). Proof. vm_compute. reflexivity. Qed.
Lemma hi_others : forallb (fun o => match o with Rewrite rs _ _ => forallb (fun q : word * word => negb (word_eqb (snd q) [name "ans"])) rs | _ => true end) (skipn 2 hi_ops) = true. Proof. vm_compute. reflexivity. Qed.
Lemma vowels_spec c : In [Gr [c]] vowel_letters <-> is_vowel_letter c.
Proof. unfold is_vowel_letter. cbn. split; (intros [H|[H|[H|[H|[H|[]]]]]]; [left|right; left|do 2 right; left|do 3 right; left|do 4 right; left]; congruence). Qed.
Lemma hard_spec c : lower c -> (In [Gr [c]] hard <-> ~ In c (bytes "aeiounm")).
Proof.
  intros H. assert (I : In c (map N.of_nat (seq 97 26))) by (rewrite in_map_iff; exists (N.to_nat c); split; [apply N2Nat.id|apply in_seq; unfold lower in H; lia]).
  assert (C : forallb (fun c => Bool.eqb (in_words (Gr [c]) hard) (negb (existsb (N.eqb c) (bytes "aeiounm")))) (map N.of_nat (seq 97 26)) = true) by (vm_compute; reflexivity).
  apply (proj1 (forallb_forall _ _) C) in I. apply Bool.eqb_prop in I. rewrite <- (in_words_ok (Gr [c])), I, negb_true_iff. split.
  - intros E J. assert (K : existsb (N.eqb c) (bytes "aeiounm") = true) by (apply existsb_exists; exists c; split; [exact J|apply N.eqb_refl]). congruence.
  - intros N. destruct (existsb (N.eqb c) (bytes "aeiounm")) eqn:E; [|reflexivity]. apply existsb_exists in E as (x & J & E). apply N.eqb_eq in E. subst x. contradiction.
Qed.
Lemma hard_single : singles hard = true. Proof. vm_compute. reflexivity. Qed.
Lemma hard_grapheme t : In [t] hard -> grapheme t = true.
Proof. intros I. assert (C : forallb (forallb grapheme) hard = true) by (vm_compute; reflexivity). apply (proj1 (forallb_forall _ _) C) in I. cbn in I. rewrite andb_true_r in I. exact I. Qed.
Lemma means_any ts : Forall (fun t => grapheme t = true \/ right_symbol t = true) ts -> means ANY_SYMBOLS ts.
Proof.
  induction 1 as [|t ts H _ IH]; [apply m_stop|]. apply (m_more _ [t] ts); [|exact IH]. apply m_right. destruct H as [H|H]; [apply m_left, m_graphemes|apply m_right, m_rights]; cbn; rewrite H; reflexivity.
Qed.
Lemma after_n_spec ts : unsigned ts -> Forall (fun t => grapheme t = true \/ right_symbol t = true) ts -> (followed after_n ts <-> ts = [] \/ exists t u, ts = t :: u /\ In [t] hard).
Proof.
  intros N F. unfold after_n, followed. split.
  - intros (x & a & u & -> & M & Sk & H). rewrite !unsigned_app in N. rewrite (H eq_refl), (unsigned_skipped x ltac:(tauto) Sk), app_nil_r. cbn [app]. apply talt_inv in M as [M|M].
    + apply tcat_inv in M as (y & z & -> & M & _). apply words_inv in M. destruct (singles_len _ _ hard_single M) as (t & ->). right. exists t, z. auto.
    + left. apply skip_right_unsigned; [tauto|exact M].
  - intros H. exists [], ts, []. rewrite app_nil_r. split; [reflexivity|]. split; [|split; [left; reflexivity|reflexivity]]. destruct H as [->|(t & u & -> & I)]; [apply m_right, m_none|]. apply m_left. apply (m_cat _ _ [t] u); [apply m_words; exact I|]. apply means_any. inversion F; assumption.
Qed.
Lemma down_good k X : Forall good_piece X -> Forall good_piece (down k X).
Proof.
  intros G. apply Forall_forall. intros x I. apply in_flat_map in I as (y & Iy & I). pose proof (proj1 (Forall_forall _ _) G _ Iy) as Gy. destruct y as [t0|j l r]; cbn [earlier] in I; [destruct I as [<-|[]]; exact Gy|]. destruct (j <? k); [destruct I as [<-|[]]; exact Gy|].
  apply in_map_iff in I as (t0 & <- & I). exact (proj1 (forallb_forall _ _) (proj1 (proj2 Gy)) _ I).
Qed.
Lemma down_symbols k X : Forall good_piece X -> Forall (fun t => grapheme t = true \/ right_symbol t = true) (toks (down k X)).
Proof.
  intros G. apply Forall_forall. intros t I. apply in_flat_map in I as (x & Ix & I). pose proof (proj1 (Forall_forall _ _) (down_good k X G) _ Ix) as Gx. destruct x as [t0|j l r]; cbn in I; [destruct I as [<-|[]]; left; exact Gx|]. destruct Gx as (_ & _ & _ & T). pose proof (proj1 (forallb_forall _ _) T _ I) as K. right. destruct t; try discriminate K. reflexivity.
Qed.
Lemma raw_last k X t u : Forall good_piece X -> toks (down k X) = u ++ [t] -> grapheme t = true -> exists v, from X = v ++ [t].
Proof.
  intros G E Gt. rewrite <- (from_down k X). pose proof (down_good k X G) as Gd. destruct (down k X) as [|x0 D0] using rev_ind; [destruct u; discriminate E|]. clear IHD0. apply Forall_app in Gd as [_ Gx]. inversion Gx as [|? ? Gx0 _]; subst. rewrite toks_app in E. rewrite from_app. destruct x0 as [t0|j l r].
  - cbn in E. apply app_inj_tail in E as [_ ->]. exists (from D0). reflexivity.
  - exfalso. destruct Gx0 as (_ & _ & N & T). cbn [fst snd] in *. destruct (exists_last N) as (r0 & t1 & ->). cbn in E. rewrite app_nil_r, app_assoc in E. apply app_inj_tail in E as [_ ->]. rewrite forallb_app in T. apply andb_prop in T as [_ T]. cbn in T. destruct t; discriminate.
Qed.

Section Hindi.
Variables (w : str) (L : list piece).
Hypothesis Lw : Forall lower w.
Hypothesis tr : traced hi_ops (letters_of w) L.
Let Iw : forallb is_letter (letters_of w) = true. Proof. apply letters_symbols. exact Lw. Qed.
Notation rp := (read_piece hindi_spellings hi_rank).
Notation R := (read hindi_spellings hi_rank L).
Lemma hi_all : Forall (fun x => exists k l r s kd, x = Seg k l r /\ find_kind hindi_spellings hi_rank k l r = Some (s, kd) /\ rp x = [(s, kind_sound kd)]) L.
Proof. exact (all_read _ _ _ _ _ _ hi_ops_ok hi_letters_ok _ L tr Iw). Qed.
Lemma hi_from X : (forall x, In x X -> In x L) -> from X = letters_of (typed (flat_map rp X)).
Proof. exact (from_typed _ _ _ _ _ _ hi_ops_ok hi_letters_ok _ L tr Iw X). Qed.
Lemma hi_typed : typed R = w.
Proof. apply letters_inj. rewrite <- (t_from _ _ _ tr). symmetry. apply hi_from. auto. Qed.
Lemma hi_piece A k l r B : L = A ++ Seg k l r :: B -> (k = 0 /\ l = spell "m" /\ r = [name "ans"] /\ preceded before_nasal (toks (down 1 A)) /\ followed after_m (toks (down 0 B))) \/ (k = 1 /\ l = spell "n" /\ r = [name "ans"] /\ preceded before_nasal (toks (down 2 A)) /\ followed after_n (toks (down 1 B))) \/ (2 <= k /\ r <> [name "ans"]).
Proof.
  intros E. destruct (t_fire _ _ _ tr A k l r B E) as (rs & p & f & En & I & P & F). destruct k as [|[|k]].
  - rewrite hi_0 in En. injection En as <- <- <-. destruct I as [I|[]]. injection I as <- <-. left. auto.
  - rewrite hi_1 in En. injection En as <- <- <-. destruct I as [I|[]]. injection I as <- <-. right. left. auto.
  - right. right. split; [lia|]. intros ->. assert (J : In (Rewrite rs p f) (skipn 2 hi_ops)) by (apply (nth_error_In _ k); exact En). pose proof (proj1 (forallb_forall _ _) hi_others _ J) as K. pose proof (proj1 (forallb_forall _ _) K _ I) as K2. cbn [snd] in K2. rewrite (proj2 (word_eqb_spec _ _) eq_refl) in K2. discriminate K2.
Qed.
Lemma good_parts A x B : L = A ++ x :: B -> Forall good_piece A /\ good_piece x /\ Forall good_piece B.
Proof. intros E. pose proof (t_good _ _ _ tr) as G. rewrite E in G. apply Forall_app in G as [GA G]. inversion G; subst. auto. Qed.
Lemma letters_app a b : letters_of (a ++ b) = letters_of a ++ letters_of b. Proof. apply map_app. Qed.
Lemma letters_cons x t u : letters_of x = t :: u -> exists c y, x = c :: y /\ t = Gr [c] /\ u = letters_of y.
Proof. destruct x as [|c x]; [discriminate|]. cbn. intros E. injection E as <- <-. eauto. Qed.
Lemma letters_last x t u : letters_of x = u ++ [t] -> exists c y, x = y ++ [c] /\ t = Gr [c].
Proof. destruct x as [|c0 x0] using rev_ind; [destruct u; discriminate|]. rewrite letters_app. cbn. intros E. apply app_inj_tail in E as [_ <-]. eauto. Qed.
(** A vowel before *)
Lemma vowel_before k A : (forall x, In x A -> In x L) -> Forall good_piece A -> preceded before_nasal (toks (down k A)) -> exists u v, typed (flat_map rp A) = u ++ [v] /\ is_vowel_letter v.
Proof.
  intros H G P. apply preceded_words in P; [|apply good_unsigned; exact G]. destruct P as (u & a & I & E). destruct (vowel_word a I) as (t & -> & Gt & _). destruct (raw_last k A t u G E Gt) as (v & Ev). rewrite hi_from in Ev by exact H. apply letters_last in Ev as (c & y & Ey & ->). exists y, c. split; [exact Ey|apply vowels_spec; exact I].
Qed.
Lemma vowel_before_back k A B : k <= 2 -> L = A ++ B -> (exists u v, typed (flat_map rp A) = u ++ [v] /\ is_vowel_letter v) -> preceded before_nasal (toks (down k A)).
Proof.
  intros Hk E (u & v & Ev & Iv). assert (EF : from A = letters_of (u ++ [v])) by (rewrite <- Ev; apply hi_from; intros x I; rewrite E; apply in_app_iff; left; exact I).
  destruct A as [|x A] using rev_ind; [cbn in EF; destruct u; discriminate EF|]. clear IHA. rewrite <- app_assoc in E. cbn [app] in E. destruct (good_parts _ _ _ E) as (GA & Gx & _). assert (Gall : Forall good_piece (A ++ [x])) by (apply Forall_app; split; [exact GA|constructor; [exact Gx|constructor]]).
  assert (Ix : In x L) by (rewrite E, in_app_iff; right; left; reflexivity). destruct (proj1 (Forall_forall _ _) hi_all x Ix) as (j & l & r & s & kd & -> & _). rewrite from_app, letters_app in EF. cbn in EF. rewrite app_nil_r in EF. destruct Gx as (Nl & _). cbn [fst] in Nl. destruct (exists_last Nl) as (l0 & t & ->). rewrite app_assoc in EF. apply app_inj_tail in EF as [_ ->].
  apply preceded_words; [apply good_unsigned; exact Gall|]. destruct (hi_piece _ _ _ _ _ E) as [(_ & El & _)|[(_ & El & _)|(Hj & _)]].
  - exfalso. change (spell "m") with ([] ++ [Gr [109%N]]) in El. apply app_inj_tail in El as [_ El]. injection El as ->. apply vowels_spec in Iv. cbn in Iv. intuition discriminate.
  - exfalso. change (spell "n") with ([] ++ [Gr [110%N]]) in El. apply app_inj_tail in El as [_ El]. injection El as ->. apply vowels_spec in Iv. cbn in Iv. intuition discriminate.
  - exists (toks (down k A) ++ l0), [Gr [v]]. split; [apply vowels_spec; exact Iv|]. rewrite down_app, toks_app, <- app_assoc. f_equal. cbn [down flat_map earlier]. replace (j <? k) with false by (symmetry; apply Nat.ltb_ge; lia). rewrite app_nil_r. apply toks_raw.
Qed.
Lemma next_letter A B c u : L = A ++ B -> typed (flat_map rp B) = c :: u -> c <> 109%N -> c <> 110%N -> forall k, k <= 2 -> exists v, toks (down k B) = Gr [c] :: v.
Proof.
  intros E Ec Nm Nn k Hk. assert (EF : from B = letters_of (c :: u)) by (rewrite <- Ec; apply hi_from; intros x I; rewrite E; apply in_app_iff; right; exact I).
  destruct B as [|x B]; [discriminate EF|]. destruct (good_parts _ _ _ E) as (_ & Gx & _). assert (Ix : In x L) by (rewrite E, in_app_iff; right; left; reflexivity). destruct (proj1 (Forall_forall _ _) hi_all x Ix) as (j & l & r & s & kd & -> & _). destruct Gx as (Nl & _). cbn [fst] in Nl. destruct l as [|t l]; [congruence|]. cbn in EF. injection EF as -> _.
  destruct (hi_piece _ _ _ _ _ E) as [(_ & El & _)|[(_ & El & _)|(Hj & _)]]; [injection El as -> _; congruence|injection El as -> _; congruence|]. cbn [down flat_map earlier]. replace (j <? k) with false by (symmetry; apply Nat.ltb_ge; lia). eexists. reflexivity.
Qed.
Lemma typed_lower A X B : R = A ++ X ++ B -> Forall lower (typed X).
Proof. intros E. pose proof hi_typed as H. rewrite E in H. unfold typed in H. rewrite !flat_map_app in H. pose proof Lw as F. rewrite <- H in F. apply Forall_app in F as [_ F]. apply Forall_app in F as [F _]. exact F. Qed.
Lemma spell_one s c : spell s = [Gr [c]] -> bytes s = [c].
Proof. unfold spell. destruct (bytes s) as [|d [|]]; try discriminate. cbn. intros E. injection E as ->. reflexivity. Qed.
Lemma hi_nasal A s x B : R = A ++ (s, x) :: B -> (x = Nas <-> nasal_place (typed A) s (typed B)).
Proof.
  intros E. destruct (read_split _ _ _ _ _ _ hi_ops_ok hi_letters_ok _ L tr Iw A [(s, x)] B E) as (PA & PX & PB & EL & EA & EX & EB).
  assert (HX : exists k l r kd, PX = [Seg k l r] /\ find_kind hindi_spellings hi_rank k l r = Some (s, kd) /\ x = kind_sound kd).
  { assert (FX : forall z, In z PX -> In z L) by (intros z I; rewrite EL, !in_app_iff; auto). destruct PX as [|z PX]; [discriminate EX|]. destruct (proj1 (Forall_forall _ _) hi_all z (FX z (or_introl eq_refl))) as (k & l & r & s0 & kd & -> & F & Er). cbn [flat_map] in EX. rewrite Er in EX. cbn in EX. injection EX as Es Ex EX. subst s0. exists k, l, r, kd. split; [|auto].
    destruct PX as [|z PX]; [reflexivity|]. destruct (proj1 (Forall_forall _ _) hi_all z (FX z (or_intror (or_introl eq_refl)))) as (k2 & l2 & r2 & s2 & kd2 & -> & _ & Er2). cbn [flat_map] in EX. rewrite Er2 in EX. discriminate EX. }
  destruct HX as (k & l & r & kd & -> & F & ->). cbn [app] in EL. destruct (good_parts _ _ _ EL) as (GA & GX & GB). pose proof (find_kind_ok _ _ _ _ _ _ _ F) as (El & Er & _).
  assert (HA : forall z, In z PA -> In z L) by (intros z I; rewrite EL, in_app_iff; auto). assert (HB : forall z, In z PB -> In z L) by (intros z I; rewrite EL, in_app_iff; right; right; exact I).
  assert (FB : from PB = letters_of (typed B)) by (rewrite <- EB; apply hi_from; exact HB).
  assert (LB : Forall lower (typed B)) by (apply (typed_lower (A ++ [(s, kind_sound kd)]) B []); rewrite app_nil_r, <- app_assoc; exact E).
  rewrite <- EA. split.
  - intros En. assert (Ek : kd = KNas) by (destruct kd; try discriminate En; reflexivity). subst kd. cbn [kind_toks] in Er. destruct (hi_piece _ _ _ _ _ EL) as [(-> & El2 & _ & P & Fo)|[(-> & El2 & _ & P & Fo)|(_ & N)]]; [| |contradiction].
    + split; [exact (vowel_before 1 PA HA GA P)|]. right. split; [apply code_inj; apply spell_one; rewrite <- El, El2; reflexivity|]. apply followed_words in Fo; [|apply good_unsigned; exact GB]. destruct Fo as (a & u & I & Eu). destruct I as [<-|[<-|[]]]; (destruct (raw_start 0 PB _ _ GB Eu eq_refl) as (v & Ev); rewrite FB in Ev; apply letters_cons in Ev as (c & y & Ey & Ec & _); injection Ec as <-; rewrite Ey; do 2 eexists; split; [reflexivity|cbn; auto]).
    + split; [exact (vowel_before 2 PA HA GA P)|]. left. split; [apply code_inj; apply spell_one; rewrite <- El, El2; reflexivity|]. apply after_n_spec in Fo; [|apply good_unsigned; exact GB|apply down_symbols; exact GB]. destruct Fo as [E0|(t & u & Eu & I)].
      * left. destruct PB as [|z PB]; [cbn in FB; destruct (typed B); [reflexivity|discriminate FB]|]. exfalso. inversion GB as [|? ? Gz _]; subst. destruct z as [t|j l2 r2]; [discriminate E0|]. destruct Gz as (N1 & _ & N2 & _). cbn [fst snd] in *. change (toks (earlier 1 (Seg j l2 r2) ++ down 1 PB) = []) in E0. rewrite toks_app in E0. apply app_eq_nil in E0 as [E0 _]. cbn [earlier] in E0. destruct (j <? 1); [cbn in E0; rewrite app_nil_r in E0; contradiction|rewrite toks_raw in E0; contradiction].
      * right. pose proof (hard_grapheme t I) as Gt. destruct (raw_start 1 PB _ _ GB Eu Gt) as (v & Ev). rewrite FB in Ev. apply letters_cons in Ev as (c & y & Ey & -> & _). exists c, y. split; [exact Ey|]. assert (Lc : lower c) by (rewrite Ey in LB; inversion LB; assumption). exact (proj1 (hard_spec c Lc) I).
  - intros (V & H). destruct (hi_piece _ _ _ _ _ EL) as [(_ & _ & Er2 & _)|[(_ & _ & Er2 & _)|(Hk & Nr)]]; [| |exfalso].
    + unfold find_kind in F. rewrite Er2 in F. rewrite (proj2 (word_eqb_spec _ _) eq_refl) in F. destruct (word_eqb l (spell "m")); [injection F as _ <-; reflexivity|]. destruct (word_eqb l (spell "n")); [injection F as _ <-; reflexivity|discriminate F].
    + unfold find_kind in F. rewrite Er2 in F. rewrite (proj2 (word_eqb_spec _ _) eq_refl) in F. destruct (word_eqb l (spell "m")); [injection F as _ <-; reflexivity|]. destruct (word_eqb l (spell "n")); [injection F as _ <-; reflexivity|discriminate F].
    + assert (EL2 : L = PA ++ [Seg k l r] ++ PB) by exact EL. assert (EL3 : L = (PA ++ [Seg k l r]) ++ PB) by (rewrite <- app_assoc; exact EL).
      destruct H as [(-> & H)|(-> & c & u & Ec & Ic)].
      * apply (t_keep _ _ _ tr 1 _ _ _ PA [Seg k l r] PB [] (Gr [110%N]) [] (spell "n") [name "ans"] (toks (down 1 PB)) hi_1 EL2).
        { cbn [down flat_map earlier]. replace (k <? 2) with false by (symmetry; apply Nat.ltb_ge; lia). cbn. rewrite !app_nil_r. reflexivity. }
        { cbn. rewrite app_nil_r. exact El. } { left. reflexivity. } { reflexivity. }
        { apply after_n_spec; [apply good_unsigned; exact GB|apply down_symbols; exact GB|]. destruct H as [H|(c & u & Ec & Nc)].
          - left. rewrite H in FB. destruct PB as [|z PB]; [reflexivity|]. exfalso. inversion GB as [|? ? Gz _]; subst. destruct z as [t|j l2 r2]; [discriminate FB|]. destruct Gz as (N1 & _). cbn in FB. apply app_eq_nil in FB as [FB _]. contradiction.
          - right. destruct (next_letter (PA ++ [Seg k l r]) PB c u EL3 ltac:(rewrite EB; exact Ec)) with (k := 1) as (v & Ev); [intros ->; apply Nc; cbn; tauto|intros ->; apply Nc; cbn; tauto|lia|]. exists (Gr [c]), v. split; [exact Ev|]. assert (Lc : lower c) by (rewrite Ec in LB; inversion LB; assumption). exact (proj2 (hard_spec c Lc) Nc). }
        { rewrite app_nil_r. apply (vowel_before_back 2 PA _ ltac:(lia) EL). exact V. }
      * apply (t_keep _ _ _ tr 0 _ _ _ PA [Seg k l r] PB [] (Gr [109%N]) [] (spell "m") [name "ans"] (toks (down 0 PB)) hi_0 EL2).
        { cbn [down flat_map earlier]. replace (k <? 1) with false by (symmetry; apply Nat.ltb_ge; lia). cbn. rewrite !app_nil_r. reflexivity. }
        { cbn. rewrite app_nil_r. exact El. } { left. reflexivity. } { reflexivity. }
        { destruct (next_letter (PA ++ [Seg k l r]) PB c u EL3 ltac:(rewrite EB; exact Ec)) with (k := 0) as (v & Ev); [intros ->; cbn in Ic; intuition discriminate|intros ->; cbn in Ic; intuition discriminate|lia|]. apply followed_words; [apply good_unsigned; exact GB|]. exists [Gr [c]], v. split; [|exact Ev]. cbn in Ic. destruct Ic as [<-|[<-|[]]]; [left|right; left]; reflexivity. }
        { rewrite app_nil_r. apply (vowel_before_back 1 PA _ ltac:(lia) EL). exact V. }
Qed.
End Hindi.
Definition nm (c : N) : bool := if (c =? 110)%N then true else (c =? 109)%N.
Definition edge_nm (s : str) : bool := match s with c :: _ :: _ => if nm c then true else nm (last s 0%N) | _ => false end.
Lemma hi_edges : forallb (forallb (fun p : string * sound => if edge_nm (bytes (fst p)) then if str_eqb (bytes (fst p)) [110; 110]%N then true else str_eqb (bytes (fst p)) [109; 109]%N else true)) hindi_spellings = true. Proof. vm_compute. reflexivity. Qed.
Lemma hi_edge rk s z : spelled hindi_spellings rk (s, z) -> edge_nm (bytes s) = true -> bytes s = [110; 110]%N \/ bytes s = [109; 109]%N.
Proof.
  intros (cl & En & I) E. pose proof (proj1 (forallb_forall _ _) hi_edges _ (nth_error_In _ _ En)) as K. pose proof (proj1 (forallb_forall _ _) K _ I) as K2. cbn [fst] in K2. rewrite E in K2. destruct (str_eqb (bytes s) [110; 110]%N) eqn:E1; [left|right]; apply str_eqb_eq; assumption.
Qed.
Lemma hi_read w : Forall lower w -> exists R, hindi_reading w R /\ performs_all (d_typ_ops hi) (letters_of w) (word_toks (hindi_write (map snd R))) /\ Forall (known hindi) (hindi_write (map snd R)).
Proof.
  intros Lw. destruct (letters_symbols w Lw) as (Sw & Pw & Iw & Gw). pose proof (forallb_Forall _ _ _ one_opb_ok hi_one) as Oo. apply Forall_app in Oo as [Oo _]. rewrite hi_split in Oo. apply Forall_app in Oo as [Oo _]. destruct (one_total hi_ops (letters_of w) Oo) as (out & P).
  destruct (trace hi_ops (letters_of w) out (forallb_Forall _ _ _ good_opb_ok hi_good) Gw P) as (L & EL & tr). pose proof sch_checks as SC. rewrite !andb_true_iff in SC. destruct SC as [[S1 _] S3].
  pose proof (read_spelled _ _ _ _ _ _ hi_ops_ok hi_letters_ok _ L tr Iw) as SP. pose proof (fun A s x B => hi_nasal w L Lw tr A s x B) as HN. pose proof (hi_typed w L Lw tr) as TR. pose proof (read_nonempty _ _ _ _ _ _ hi_ops_ok hi_letters_ok _ L tr Iw) as NE.
  pose proof (read_strongest _ _ _ _ _ _ hi_ops_ok hi_letters_ok hi_ranks_ok _ L tr Iw) as ST. pose proof (fun A x y B z rk => read_joined _ _ _ _ _ _ hi_ops_ok hi_letters_ok hi_ranks_ok _ L tr Iw A x y B z rk hi_joins_ok) as RJ.
  pose proof (read_written _ _ _ _ _ _ hi_ops_ok hi_letters_ok _ L tr Iw S3) as RW. change (final true) with Bare in RW.
  set (R := read hindi_spellings hi_rank L) in *.
  assert (UJ : unjoined hindi_spellings R).
  { intros A [a xa] [b xb] B z rk E S. cbn [fst] in S. assert (Na : bytes a <> []) by (apply (NE (a, xa)); rewrite E, in_app_iff; right; left; reflexivity). assert (Nb : bytes b <> []) by (apply (NE (b, xb)); rewrite E, in_app_iff; right; right; left; reflexivity).
    assert (E2 : R = (A ++ [(a, xa)]) ++ (b, xb) :: B) by (rewrite <- app_assoc; exact E).
    destruct (RJ A _ _ B z rk E S) as [H|H]; cbn [snd] in H; subst.
    - apply (HN A a Nas _ E) in H0 || (pose proof (proj1 (HN A a Nas _ E) eq_refl) as H0). destruct H0 as (_ & Hs). unfold typed in Hs. cbn [flat_map fst] in Hs. destruct (bytes b) as [|cb b'] eqn:Eb; [congruence|].
      assert (Ea : bytes a = [110%N] \/ bytes a = [109%N]) by (destruct Hs as [(-> & _)|(-> & _)]; [left|right]; reflexivity).
      destruct (hi_edge rk _ z S) as [Q|Q]; [rewrite bytes_app, Eb; destruct Ea as [-> | ->]; reflexivity| |]; rewrite bytes_app, Eb in Q.
      + destruct Hs as [(-> & [Hs|(c & u & Hs & Nc)])|(-> & c & u & Hs & Ic)]; [discriminate Hs| |discriminate Q]. cbn in Q, Hs. injection Q as -> _. injection Hs as <- _. apply Nc. cbn. tauto.
      + destruct Hs as [(-> & Hs)|(-> & c & u & Hs & Ic)]; [discriminate Q|]. cbn in Q, Hs. injection Q as -> _. injection Hs as <- _. cbn in Ic. intuition discriminate.
    - pose proof (proj1 (HN (A ++ [(a, xa)]) b Nas B E2) eq_refl) as ((u & v & Ev & Iv) & Hs). unfold typed in Ev. rewrite flat_map_app in Ev. cbn [flat_map fst] in Ev. rewrite app_nil_r in Ev. destruct (exists_last Na) as (a' & ca & Ea). rewrite Ea, app_assoc in Ev. apply app_inj_tail in Ev as [_ ->].
      assert (Eb : bytes b = [110%N] \/ bytes b = [109%N]) by (destruct Hs as [(-> & _)|(-> & _)]; [left|right]; reflexivity).
      destruct (hi_edge rk _ z S) as [Q|Q]; [rewrite bytes_app, Ea; unfold edge_nm; destruct a' as [|c0 a']; cbn [app]; (destruct Eb as [-> | ->]); [destruct (nm v); reflexivity|destruct (nm v); reflexivity| |]; cbn [app]; destruct (a' ++ [v]) as [|c1 q] eqn:Eq; try (destruct a'; discriminate Eq); cbn [app]; (destruct (nm c0); [reflexivity|]); rewrite <- Eq || idtac| |].
      all: try (change (c0 :: c1 :: q ++ [110%N]) with ((c0 :: c1 :: q) ++ [110%N]); rewrite last_last; reflexivity).
      all: try (change (c0 :: c1 :: q ++ [109%N]) with ((c0 :: c1 :: q) ++ [109%N]); rewrite last_last; reflexivity).
      all: rewrite bytes_app, Ea in Q; destruct a' as [|c0 a']; cbn in Q; [destruct Eb as [Eb|Eb]; rewrite Eb in Q; try discriminate Q; injection Q as ->; cbn in Iv; unfold is_vowel_letter in Iv; cbn in Iv; intuition discriminate|].
      all: injection Q as _ Q; destruct Eb as [Eb|Eb]; rewrite Eb in Q; destruct a' as [|c1 [|]]; discriminate Q. }
  assert (K : Forall (known hindi) (write Bare (map snd R))).
  { apply (write_known hindi Bare (List.length (map snd R))); [intros c H; exact H|lia|]. apply (read_known hindi hindi_spellings R hi_sounds). eapply Forall_impl; [|exact SP]. intros p [H|H]; [left; split; [exact H|discriminate]|right; exact H]. }
  exists R. split; [split; [exact TR|split; [exact SP|split; [exact ST|split; [exact UJ|exact HN]]]]|split].
  - rewrite hi_split. apply performs_all_app. exists (word_toks (write Bare (map snd R))). split; [rewrite <- RW, EL; exact P|]. apply (joins hindi hi_join S1 onset_single). exact K.
  - unfold hindi_write. apply (end_known hindi), (long_known hindi hi_join), (start_known hindi). exact K.
Qed.
Lemma hi_texts w : Forall lower w -> exists R b i, hindi_reading w R /\ native hindi (hindi_write (map snd R)) = Some b /\ iso hindi (hindi_write (map snd R)) = Some i /\ only (bytes b) (HI_DEVA w) /\ only (bytes i) (HI_ISO w).
Proof.
  intros Lw. destruct (hi_read w Lw) as (R & HR & P & K). destruct (texts hi hindi hi_plain hi_one hi_native hi_iso hi_iso_checks eq_refl w _ Lw P K) as (b & i & H). exists R, b, i. split; [exact HR|]. unfold HI_DEVA, HI_ISO, deromanize. rewrite hi_make. exact H.
Qed.
Lemma hi_none w : ~ Forall lower w -> HI_DEVA w = [] /\ HI_ISO w = [].
Proof. intros N. unfold HI_DEVA, HI_ISO, deromanize. rewrite hi_make. exact (no_texts hi eq_refl w N). Qed.
