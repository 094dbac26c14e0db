(** Pronunciation of texts: one result, aligned, with the graphemes of the text, and its transcription. *)
From Coq Require Import String.
From Verif Require Import Base RuleModel RegexModel IsoModel AlignModel AlignSpec AlignProofs AlignMore NatModel NatSpec NatProofs NatBytes NatBlocks NatBlocksProofs NatTyp NatTypMain NatRepeats NatMain NatRoman NatRomanMain.
Local Open Scope list_scope.

(** ** Bytes and symbols *)
Lemma txn_static : forallb (fun l => if forallb opb (ISO_TO_TXN ++ txn_ops l) then if stagedb (ISO_TO_TXN ++ txn_ops l) then no_pairs_all (txn_ops l) else false else false) LANGS = true.
Proof. vm_compute. reflexivity. Qed.
Lemma txn_static_ok l : Forall well_formed (ISO_TO_TXN ++ txn_ops l) /\ staged (ISO_TO_TXN ++ txn_ops l) /\ no_pairs_all (txn_ops l) = true.
Proof.
  pose proof (proj1 (forallb_forall _ _) txn_static l (all_langs l)) as K. cbn beta in K. destruct (forallb opb _) eqn:A in K; [|discriminate K]. destruct (stagedb _) eqn:B in K; [|discriminate K]. split; [exact (opsb_ok _ A)|split; [exact (stagedb_ok _ B)|exact K]].
Qed.
Lemma pronounce_in l cs ds y : letters cs -> reading cs ds -> (In y (pronounce l (text_of cs)) <-> exists ts, performs_all (txn_ops l) (flat_map piece_of ds) ts /\ y = encs ts).
Proof.
  intros H R. destruct (txn_static_ok l) as (W & St & _). pose proof (typ_symbols _ (letters_chars cs H)) as Hs. pose proof (typ_no_translit _ (letters_chars cs H)) as Hn. unfold pronounce. rewrite in_flat_map. split.
  - intros (u & Iu & I). apply (read_letters cs H) in Iu as ->. apply (run_bytes_ok _ W St _ _ Hs (or_intror Hn)) in I as (ts & P & ->). exists ts. split; [apply (iso_to_txn_steps cs ds _ _ R); exact P|reflexivity].
  - intros (ts & P & ->). exists (encs (map symbol_of cs)). split; [apply (read_letters cs H); reflexivity|]. apply (run_bytes_ok _ W St _ _ Hs (or_intror Hn)). exists ts. split; [apply (iso_to_txn_steps cs ds _ _ R); exact P|reflexivity].
Qed.
Lemma pronounce_symbols l cs ds ts : letters cs -> reading cs ds -> performs_all (txn_ops l) (flat_map piece_of ds) ts -> Forall symbol ts.
Proof.
  intros H R P. destruct (txn_static_ok l) as (W & _ & _). apply (performs_all_writes symbol (ISO_TO_TXN ++ txn_ops l) (map symbol_of cs)); [eapply Forall_impl; [|exact W]; intros o; apply well_formed_writes|apply (iso_to_txn_steps cs ds _ _ R); exact P|exact (typ_symbols _ (letters_chars cs H))].
Qed.
Lemma reading_typ cs ds : letters cs -> reading cs ds -> only (encs (names ds)) (iso_to_typ (text_of cs)).
Proof.
  intros H (_ & U & _). apply (only_bind _ _ _ _ (read_letters cs H)). intros x. rewrite (run_bytes_ok typ_ops typ_well_formed typ_staged (map symbol_of cs) x (typ_symbols _ (letters_chars cs H)) (or_intror (typ_no_translit _ (letters_chars cs H)))).
  split; [intros (o & Q & ->); apply U in Q as ->; reflexivity|intros ->; eexists; split; [apply U; reflexivity|reflexivity]].
Qed.

(** ** Graphemes *)
Lemma piece_graphemes c : In c CHARS -> filter grapheme (piece_of c) = [symbol_of c].
Proof.
  intros I. assert (K : forallb (fun c => forallb (fun t => negb (grapheme t)) (bph c)) CHARS = true) by (vm_compute; reflexivity). pose proof (proj1 (forallb_forall _ _) K c I) as Q. cbn beta in Q.
  unfold piece_of. rewrite bgr_symbol. unfold al. cbn [app filter grapheme symbol_of]. rewrite (filter_none tok grapheme _ Q). reflexivity.
Qed.
Lemma pieces_graphemes ds : (forall c, In c ds -> In c CHARS) -> filter grapheme (flat_map piece_of ds) = names ds.
Proof.
  induction ds as [|c ds IH]; intros H; [reflexivity|]. cbn [flat_map names map]. rewrite filter_app, IH by (intros d I; apply H; right; exact I). rewrite (piece_graphemes c (H c (or_introl eq_refl))). reflexivity.
Qed.
Definition keeps_b (o : op) : bool := match o with Rewrite rs _ _ => forallb (fun q : word * word => word_eqb (filter grapheme (fst q)) (filter grapheme (snd q))) rs | Insert new _ _ => forallb (fun t => negb (grapheme t)) new | Pairs _ => false end.
Lemma keeps_insert new p f d ts out : forallb (fun t => negb (grapheme t)) new = true -> inserting new p f d ts out -> filter grapheme out = filter grapheme ts.
Proof.
  intros K P. induction P as [done _ _|done _|done t rest out _ _ _ IH|done t rest out _ _ IH].
  - rewrite (filter_none tok grapheme new K). reflexivity.
  - reflexivity.
  - rewrite filter_app, (filter_none tok grapheme new K). cbn [app filter]. rewrite IH. reflexivity.
  - cbn [filter]. rewrite IH. reflexivity.
Qed.
Lemma keeps_b_ok o ts out : keeps_b o = true -> performs o ts out -> filter grapheme out = filter grapheme ts.
Proof.
  destruct o as [rs p f|new p f|l]; cbn [keeps_b performs]; intros K P; [| |discriminate K].
  - rewrite forallb_forall in K. induction P as [done|done l r rest out I _ _ _ IH|done t rest out _ _ IH]; [reflexivity| |].
    + specialize (K _ I). cbn [fst snd] in K. apply word_eqb_spec in K. rewrite !filter_app, IH. f_equal. symmetry. exact K.
    + cbn [filter]. rewrite IH. reflexivity.
  - exact (keeps_insert new p f [] ts out K P).
Qed.
Lemma keep_all_ok l ts out : forallb keeps_b l = true -> performs_all l ts out -> filter grapheme out = filter grapheme ts.
Proof. intros K P. induction P as [ts|o l ts mid out P Q IH]; [reflexivity|]. cbn [forallb] in K. apply andb_prop in K as [K1 K2]. rewrite (IH K2). exact (keeps_b_ok o ts mid K1 P). Qed.
Lemma langs_keep : forallb (fun l => forallb keeps_b (txn_ops l)) [Hi; Bn; Ta; Gu; Kn; Te; Mr; Pa] = true.
Proof. vm_compute. reflexivity. Qed.
(** Malayalam: at the end only *)
Section InsertEnd.
Variables (new : word) (p f : tctx) (B : list word).
Hypothesis inside : forall b a c, In b B -> b = a ++ c -> a <> [] -> c <> [] -> maybe (skip_before p) (rev a) = true -> maybe (skip_after f) c = false.
Hypothesis starts : forall b, In b B -> b <> [] /\ maybe (skip_after f) b = false.
Lemma insert_end bs : Forall (fun b => In b B) bs -> forall d out, inserting new p f d (concat bs) out -> out = concat bs \/ out = concat bs ++ new.
Proof.
  induction 1 as [|b bs Ib Hbs IH]; intros d out H.
  - cbn in H. remember ([] : word) as z eqn:Ez in H. destruct H; try discriminate Ez; [right; reflexivity|left; reflexivity].
  - assert (Rest : forall c a o d', b = a ++ c -> inserting new p f (d' ++ a) (c ++ concat bs) o -> exists o', o = c ++ o' /\ (o' = concat bs \/ o' = concat bs ++ new)).
    { clear d out H. induction c as [|t c IHc]; intros a o d' E H.
      - cbn [app] in H. exists o. split; [reflexivity|]. exact (IH _ _ H).
      - cbn [app] in H. remember (t :: c ++ concat bs) as z eqn:Ez in H. remember (d' ++ a) as y eqn:Ey in H. destruct H as [| |done t' rest o P F H|done t' rest o N' H]; try discriminate Ez; injection Ez as -> ->; subst done.
        + exfalso. change (t :: c ++ concat bs) with ((t :: c) ++ concat bs) in F. pose proof (maybe_after f (t :: c) (concat bs) F) as M2. destruct a as [|x a].
          * cbn [app] in E. destruct (starts b Ib) as [_ St]. rewrite E in St. congruence.
          * assert (M1 : maybe (skip_before p) (rev (x :: a)) = true) by (apply (maybe_before p (rev (x :: a)) d'); rewrite rev_involutive; exact P). rewrite (inside b (x :: a) (t :: c) Ib E ltac:(discriminate) ltac:(discriminate) M1) in M2. discriminate M2.
        + rewrite <- app_assoc in H. destruct (IHc (a ++ [t]) o d') as (o' & -> & M); [rewrite <- app_assoc; exact E|exact H|]. exists o'. auto. }
    cbn [concat] in H. destruct (Rest b [] out d eq_refl) as (o' & -> & K); [rewrite app_nil_r; exact H|]. cbn [concat]. destruct K as [->| ->]; [left; reflexivity|right; rewrite app_assoc; reflexivity].
Qed.
End InsertEnd.
Definition ends_only (o : op) (B : list word) : bool :=
  match o with
  | Insert new p f => forallb (fun b => match b with [] => false | _ => if maybe (skip_after f) b then false else
      forallb (fun q : word * word => match fst q with [] => true | _ => if maybe (skip_before p) (fst q) then negb (maybe (skip_after f) (snd q)) else true end) (splits [] b) end) B
  | _ => false
  end.
Lemma ends_only_ok new p f B ts out : ends_only (Insert new p f) B = true -> made_of B ts -> inserting new p f [] ts out -> out = ts \/ out = ts ++ new.
Proof.
  cbn [ends_only]. intros C (bs & -> & Hb) H. rewrite forallb_forall in C. apply (insert_end new p f B) with (bs := bs) (d := []); [| |exact Hb|exact H].
  - intros b a c Ib E Na Nc M. specialize (C b Ib). destruct b as [|x b]; [discriminate C|]. destruct (maybe (skip_after f) (x :: b)); [discriminate C|]. rewrite forallb_forall in C. specialize (C _ (splits_in (x :: b) [] a c E Nc)). rewrite app_nil_r in C. cbn [fst snd] in C. rewrite M in C. destruct (rev a) eqn:Ra; [apply (f_equal (@rev tok)) in Ra; rewrite rev_involutive in Ra; cbn in Ra; congruence|]. apply negb_true_iff in C. exact C.
  - intros b Ib. specialize (C b Ib). destruct b as [|x b]; [discriminate C|]. destruct (maybe (skip_after f) (x :: b)); [discriminate C|]. split; [discriminate|reflexivity].
Qed.
Lemma ml_keeps : match txn_ops Ml with o :: l => if ends_only o (map piece_of CHARS) then forallb keeps_b l else false | [] => false end = true.
Proof. vm_compute. reflexivity. Qed.
Lemma ml_graphemes ds ts : (forall c, In c ds -> In c CHARS) -> performs_all (txn_ops Ml) (flat_map piece_of ds) ts -> filter grapheme ts = names ds \/ filter grapheme ts = names ds ++ [symbol_of (sp "u")].
Proof.
  intros Hd P. pose proof ml_keeps as K. change (txn_ops Ml) with (Insert (al (grs "u") pU) (some_re (TCat (gr_union SCHWA_BEARING) (TCat (TWords [[Eq]]) (TStar ALL)))) TEOW :: tl (txn_ops Ml)) in K, P. cbn iota in K. destruct (ends_only _ _) eqn:E in K; [|discriminate K].
  inversion P as [|o l t m h Pm Ph]; subst. rewrite (keep_all_ok _ _ _ K Ph). destruct (ends_only_ok _ _ _ _ _ _ E (made_of_pieces ds CHARS Hd) Pm) as [->| ->]; [left; exact (pieces_graphemes ds Hd)|right]. rewrite filter_app, (pieces_graphemes ds Hd). f_equal.
Qed.

(** ** Alignment *)
Fixpoint alp (b : bool) (w : word) : bool :=
  match w with
  | [] => negb b
  | Gr _ :: w' => alp true w'
  | Eq :: w' => if b then alp false w' else false
  | Ph _ :: w' => if b then false else alp false w'
  | _ => false
  end.
Definition aligned_b (w : word) : bool := match w with [] => true | Gr _ :: _ => alp true w | _ => false end.
Lemma alp_ok w : (alp true w = true -> exists g r ps, w = g ++ Eq :: r ++ concat ps /\ forallb grapheme g = true /\ forallb phoneme r = true /\ Forall aligned_piece ps) /\ (alp false w = true -> exists r ps, w = r ++ concat ps /\ forallb phoneme r = true /\ Forall aligned_piece ps).
Proof.
  induction w as [|t w [IHt IHf]]; split; cbn [alp]; intros K; try discriminate K.
  - exists [], []. auto.
  - destruct t as [s|s|s|]; try discriminate K.
    + destruct (IHt K) as (g & r & ps & -> & G & R & F). exists (Gr s :: g), r, ps. auto.
    + destruct (IHf K) as (r & ps & -> & R & F). exists [], r, ps. auto.
  - destruct t as [s|s|s|]; try discriminate K.
    + destruct (IHt K) as (g & r & ps & E & G & R & F). exists [], (((Gr s :: g) ++ Eq :: r) :: ps). split; [|split; [reflexivity|]].
      * cbn [app concat]. rewrite E, <- app_assoc. reflexivity.
      * constructor; [|exact F]. exists (Gr s :: g), r. split; [reflexivity|]. split; [discriminate|]. split; [exact G|exact R].
    + destruct (IHf K) as (r & ps & -> & R & F). exists (Ph s :: r), ps. auto.
Qed.
Lemma aligned_b_ok w : aligned_b w = true -> aligned w.
Proof.
  destruct w as [|t w]; [exists []; auto|]. destruct t as [s|s|s|]; try discriminate. cbn [aligned_b]. intros K. destruct (proj1 (alp_ok (Gr s :: w)) K) as (g & r & ps & E & G & R & F). exists ((g ++ Eq :: r) :: ps). split; [cbn [concat]; rewrite E, <- app_assoc; reflexivity|].
  constructor; [|exact F]. exists g, r. split; [reflexivity|]. split; [|auto]. intros ->. discriminate E.
Qed.
Lemma aligned_app a b : aligned a -> aligned b -> aligned (a ++ b).
Proof. intros (p & -> & F) (q & -> & G). exists (p ++ q). rewrite concat_app. split; [reflexivity|]. apply Forall_app. auto. Qed.
Lemma made_of_aligned B ts : forallb aligned_b B = true -> made_of B ts -> aligned ts.
Proof.
  intros K (bs & -> & F). rewrite forallb_forall in K. induction F as [|b bs I F IH]; [exists []; auto|]. cbn [concat]. apply aligned_app; [apply aligned_b_ok, K, I|exact IH].
Qed.

(** ** Transcription *)
Definition key_ok (p : word * str) : Prop := fst p <> [] /\ Forall symbol (fst p) /\ forallb right_symbol (fst p) = true.
Definition enc_pair (q : word * str) : str * str := (encs (fst q), snd q).
Lemma encs_flat (ps : list (word * str)) : flat_map fst (map enc_pair ps) = encs (flat_map fst ps).
Proof. induction ps as [|p ps IH]; [reflexivity|]. cbn [map flat_map enc_pair fst]. rewrite encs_app. f_equal. exact IH. Qed.
Lemma snd_flat (ps : list (word * str)) : flat_map snd (map enc_pair ps) = flat_map snd ps.
Proof. induction ps as [|p ps IH]; [reflexivity|]. cbn [map flat_map enc_pair snd]. f_equal. exact IH. Qed.
Lemma right_words w : Forall symbol w -> forallb right_symbol w = true -> Forall (fun c => c <> 61%N /\ c <> 60%N) (encs w).
Proof. induction 1 as [|t w T W IH]; intros S2; [constructor|]. cbn [forallb] in S2. apply andb_prop in S2 as [R1 R2]. rewrite encs_cons. apply Forall_app. split; [apply right_no_marks; assumption|apply IH; exact R2]. Qed.
Lemma print_words b (tab : list (word * str)) ts o : Forall key_ok tab -> Forall symbol ts ->
  (In o (print_only b (WStar (WPairs (map enc_pair tab))) (encs ts)) <-> exists ps, (forall p, In p ps -> In p tab) /\ filter right_symbol ts = flat_map fst ps /\ o = flat_map snd ps).
Proof.
  intros Ht Hs. rewrite Forall_forall in Ht. assert (NE : Forall (fun p : str * str => fst p <> []) (map enc_pair tab)).
  { apply Forall_forall. intros p Hp. apply in_map_iff in Hp as (q & <- & Hq). destruct (Ht q Hq) as (N & _). cbn [enc_pair fst]. destruct (fst q) as [|t w]; [congruence|]. rewrite encs_cons. destruct (enc_open t) as (v & ->). discriminate. }
  assert (Sy : forall ps, (forall p, In p ps -> In p tab) -> Forall symbol (flat_map fst ps) /\ Forall (fun c => c <> 61%N /\ c <> 60%N) (encs (flat_map fst ps))).
  { induction ps as [|p ps IH]; intros P; [split; constructor|]. destruct IH as [I1 I2]; [intros q Hq; apply P; right; exact Hq|]. destruct (Ht p (P p (or_introl eq_refl))) as (_ & S1 & S2). cbn [flat_map]. rewrite encs_app. split; apply Forall_app; split; try assumption.
    apply right_words; assumption. }
  unfold print_only. rewrite in_flat_map. destruct (extract_symbols b ts Hs) as [X1 X2]. split.
  - intros (t & T & H). apply outs_pairs in H as (qs & Q & -> & ->); [|exact NE]. assert (E : exists ps, (forall p, In p ps -> In p tab) /\ qs = map enc_pair ps).
    { clear -Q. induction qs as [|q qs IH]; [exists []; split; [intros p []|reflexivity]|]. destruct IH as (ps & P & ->); [intros p Hp; apply Q; right; exact Hp|]. assert (A : In q (map enc_pair tab)) by (apply Q; left; reflexivity). apply in_map_iff in A as (p & <- & A). exists (p :: ps). split; [intros p' [<-|Hp]; [exact A|apply P; exact Hp]|reflexivity]. }
    destruct E as (ps & P & ->). exists ps. split; [exact P|]. rewrite snd_flat. split; [|reflexivity]. rewrite encs_flat in T. destruct (Sy ps P) as [S1 S2]. apply X2 in T as [T|(_ & c & C1 & C2)].
    + apply encs_inj in T; [symmetry; exact T|exact S1|]. clear -Hs. induction Hs as [|t ts Ht H IH]; [constructor|]. cbn [filter]. destruct (right_symbol t); [constructor|]; assumption.
    + exfalso. apply (proj1 (Forall_forall _ _) S2) in C2 as [C2 C3]. cbn in C1. intuition congruence.
  - intros (ps & P & E & ->). exists (encs (filter right_symbol ts)). split; [exact X1|]. apply outs_pairs; [exact NE|]. exists (map enc_pair ps). rewrite encs_flat, snd_flat, E. repeat split. intros p Hp. apply in_map_iff in Hp as (q & <- & Hq). apply in_map_iff. exists q. split; [reflexivity|apply P; exact Hq].
Qed.
(** Reading of symbols with the table *)
Fixpoint starting (k w : word) : option word := match k, w with [] , _ => Some w | x :: k', y :: w' => if tok_eqb x y then starting k' w' else None | _ , _ => None end.
Lemma starting_app k w : starting k (k ++ w) = Some w.
Proof. induction k as [|x k IH]; [reflexivity|]. cbn. destruct (tok_eqb x x) eqn:E; [exact IH|]. exfalso. assert (tok_eqb x x = true) by (apply tok_eqb_spec; reflexivity). congruence. Qed.
Lemma starting_ok k w r : starting k w = Some r -> w = k ++ r.
Proof. revert w. induction k as [|x k IH]; intros [|y w] H; cbn in H; try discriminate H; [injection H as <-; reflexivity|injection H as <-; reflexivity|]. destruct (tok_eqb x y) eqn:E; [|discriminate H]. apply tok_eqb_spec in E as ->. cbn. f_equal. exact (IH w H). Qed.
Definition follows (tab : list (word * str)) (r : word) : bool := match r with [] => true | t :: _ => existsb (fun q : word * str => match fst q with x :: _ => tok_eqb x t | [] => true end) tab end.
(** No key followed by the start of a key is the start of another key *)
Definition unambiguous (tab : list (word * str)) : bool :=
  forallb (fun p : word * str => forallb (fun q : word * str => match starting (fst p) (fst q) with None => true | Some [] => str_eqb (snd p) (snd q) | Some r => negb (follows tab r) end) tab) tab.
Lemma follows_keys tab t r ps : (forall p, In p ps -> In p tab) -> Forall key_ok tab -> flat_map fst ps = t :: r -> follows tab (t :: r) = true.
Proof.
  intros P K E. destruct ps as [|[k v] ps]; [discriminate E|]. cbn [flat_map fst] in E. pose proof (P (k, v) (or_introl eq_refl)) as Ip. cbn [follows]. apply existsb_exists. exists (k, v). split; [exact Ip|]. cbn [fst]. destruct k as [|x w]; [reflexivity|]. cbn [app] in E. injection E as -> _. apply tok_eqb_spec. reflexivity.
Qed.
Lemma unambiguous_ok tab : Forall key_ok tab -> unambiguous tab = true -> forall ps qs, (forall p, In p ps -> In p tab) -> (forall q, In q qs -> In q tab) -> flat_map fst ps = flat_map fst qs -> flat_map snd ps = flat_map snd qs.
Proof.
  intros K U. unfold unambiguous in U. rewrite forallb_forall in U.
  assert (Amb : forall p q r rest ws, In p tab -> In q tab -> (forall x, In x ws -> In x tab) -> fst q = fst p ++ r -> flat_map fst ws = r ++ rest -> r = [] /\ snd p = snd q).
  { intros p q r rest ws Ip Iq W E F. specialize (U p Ip). rewrite forallb_forall in U. specialize (U q Iq). rewrite E, starting_app in U. destruct r as [|t r]; [split; [reflexivity|apply str_eqb_eq; exact U]|]. exfalso. cbn [app] in F. pose proof (follows_keys tab t (r ++ rest) ws W K F) as G. cbn [follows] in G, U. rewrite G in U. discriminate U. }
  rewrite Forall_forall in K. induction ps as [|p ps IH]; intros [|q qs] P Q E.
  - reflexivity.
  - exfalso. destruct (K q (Q q (or_introl eq_refl))) as (N & _). cbn [flat_map] in E. symmetry in E. apply app_eq_nil in E as [E _]. exact (N E).
  - exfalso. destruct (K p (P p (or_introl eq_refl))) as (N & _). cbn [flat_map] in E. apply app_eq_nil in E as [E _]. exact (N E).
  - cbn [flat_map] in E |- *. assert (P' : forall x, In x ps -> In x tab) by (intros x I; apply P; right; exact I). assert (Q' : forall x, In x qs -> In x tab) by (intros x I; apply Q; right; exact I).
    assert (D : snd p = snd q /\ flat_map fst ps = flat_map fst qs).
    { apply app_eq_app in E as (r & [[E1 E2]|[E1 E2]]).
      - destruct (Amb q p r (flat_map fst ps) qs (Q q (or_introl eq_refl)) (P p (or_introl eq_refl)) Q' E1 E2) as [-> Es]. cbn in E2. split; congruence.
      - destruct (Amb p q r (flat_map fst qs) ps (P p (or_introl eq_refl)) (Q q (or_introl eq_refl)) P' E1 E2) as [-> Es]. cbn in E2. split; congruence. }
    destruct D as [D1 D]. exact (f_equal2 (@app N) D1 (IH qs P' Q' D)).
Qed.
Fixpoint spell (keys : list (word * str)) (n : nat) (w : word) : bool :=
  match w with [] => true | _ => match n with 0 => false | S k =>
    (fix try (tab : list (word * str)) : bool := match tab with [] => false | p :: tab' => match starting (fst p) w with Some r => if spell keys k r then true else try tab' | None => try tab' end end) keys end end.
Lemma spell_ok keys n w : spell keys n w = true -> exists ps, (forall p, In p ps -> In p keys) /\ w = flat_map fst ps.
Proof.
  revert w. induction n as [|n IH]; intros [|t w] H; try (exists []; split; [intros p []|reflexivity]); [discriminate H|]. cbn [spell] in H.
  assert (G : forall tab, (fix try (tab : list (word * str)) : bool := match tab with [] => false | p :: tab' => match starting (fst p) (t :: w) with Some r => if spell keys n r then true else try tab' | None => try tab' end end) tab = true -> exists p r, In p tab /\ starting (fst p) (t :: w) = Some r /\ spell keys n r = true).
  { induction tab as [|p tab IHt]; intros G; [discriminate G|]. destruct (starting (fst p) (t :: w)) as [r|] eqn:E; [destruct (spell keys n r) eqn:F|].
    - exists p, r. split; [left; reflexivity|]. auto.
    - destruct (IHt G) as (q & r' & I & E' & F'). exists q, r'. split; [right; exact I|auto].
    - destruct (IHt G) as (q & r' & I & E' & F'). exists q, r'. split; [right; exact I|auto]. }
  destruct (G keys H) as (p & r & I & E & F). destruct (IH r F) as (ps & P & ->). apply starting_ok in E. exists (p :: ps). split; [intros q [<-|Iq]; [exact I|exact (P q Iq)]|exact E].
Qed.
Definition spelled (b : word) : bool := spell IPA (length (filter right_symbol b)) (filter right_symbol b).
Lemma spelled_ok b : spelled b = true -> exists ps, (forall p, In p ps -> In p IPA) /\ filter right_symbol b = flat_map fst ps.
Proof. exact (spell_ok IPA (length (filter right_symbol b)) (filter right_symbol b)). Qed.
Lemma made_of_spelled B ts : forallb spelled B = true -> made_of B ts -> exists ps, (forall p, In p ps -> In p IPA) /\ filter right_symbol ts = flat_map fst ps.
Proof.
  intros K (bs & -> & F). rewrite forallb_forall in K. induction F as [|b bs I F IH]; [exists []; split; [intros p []|reflexivity]|]. destruct IH as (ps & P & E). destruct (spelled_ok b (K b I)) as (qs & Q & E2). exists (qs ++ ps). cbn [concat]. rewrite filter_app, flat_map_app, E, E2. split; [|reflexivity]. intros p Ip. apply in_app_iff in Ip as [Ip|Ip]; auto.
Qed.
Definition key_b (p : word * str) : bool := match fst p with [] => false | _ => if forallb symbolb (fst p) then forallb right_symbol (fst p) else false end.
Lemma ipa_static : (if forallb key_b IPA then unambiguous IPA else false) = true.
Proof. vm_compute. reflexivity. Qed.
Lemma ipa_keys : Forall key_ok IPA.
Proof.
  pose proof ipa_static as H. destruct (forallb key_b IPA) eqn:E in H; [|discriminate H]. apply (forallb_Forall key_b); [|exact E]. intros p K. unfold key_b in K. unfold key_ok. destruct (fst p) as [|t w]; [discriminate K|]. destruct (forallb symbolb (t :: w)) eqn:F; [|discriminate K].
  split; [discriminate|split; [exact (forallb_Forall _ _ _ symbolb_ok F)|exact K]].
Qed.
Lemma ipa_unambiguous : unambiguous IPA = true.
Proof. pose proof ipa_static as H. destruct (forallb key_b IPA) eqn:E in H; [exact H|discriminate H]. Qed.
Lemma ipa_prints b B ts : forallb spelled B = true -> made_of B ts -> Forall symbol ts -> exists x, only x (print_only_ipa b (map enc_pair IPA) (encs ts)).
Proof.
  intros K M Hs. destruct (made_of_spelled B ts K M) as (ps & P & E). exists (flat_map snd ps). intros x. unfold print_only_ipa, ls_translit_ipa. rewrite (print_words b IPA ts x ipa_keys Hs). split.
  - intros (qs & Q & F & ->). symmetry. apply (unambiguous_ok IPA ipa_keys ipa_unambiguous ps qs P Q). congruence.
  - intros ->. exists ps. auto.
Qed.

(** ** All languages *)
Definition phonology (det : bool) (K : list bchar) (l : lang) : bool :=
  match posts det (txn_ops l) (map piece_of K) with None => false | Some B => forallb aligned_b B end.
Definition phonetic (det : bool) (K : list bchar) (l : lang) : bool :=
  match posts det (txn_ops l) (map piece_of K) with None => false | Some B => forallb spelled B end.
Lemma phonology_eight : forallb (phonology true CHARS) [Hi; Bn; Ta; Ml; Gu; Kn; Te; Mr] = true.
Proof. vm_cast_no_check (eq_refl true). Qed.
Lemma phonology_pa : phonology false CHARS Pa = true.
Proof. vm_cast_no_check (eq_refl true). Qed.
Lemma phonetic_seven : forallb (phonetic true CHARS) [Hi; Bn; Ta; Ml; Kn; Te; Mr] = true.
Proof. vm_cast_no_check (eq_refl true). Qed.
Lemma phonetic_gu : phonetic true PLAIN Gu = true.
Proof. vm_cast_no_check (eq_refl true). Qed.
Lemma phonetic_pa : phonetic false CHARS Pa = true.
Proof. vm_cast_no_check (eq_refl true). Qed.
Lemma txn_nonempty l : Forall nonempty_op (txn_ops l).
Proof. destruct (txn_static_ok l) as (W & _ & _). apply Forall_app in W as [_ W]. exact (well_formed_all _ W). Qed.
Lemma txn_total l ts : exists out, performs_all (txn_ops l) ts out.
Proof. destruct (txn_static_ok l) as (_ & _ & N). exact (performs_all_total _ (txn_nonempty l) N ts). Qed.
Lemma keeps_names l ds ts : (forall c, In c ds -> In c CHARS) -> performs_all (txn_ops l) (flat_map piece_of ds) ts -> filter grapheme ts = names ds \/ (l = Ml /\ filter grapheme ts = names ds ++ [symbol_of (sp "u")]).
Proof.
  intros Hd P. assert (D : l = Ml \/ In l [Hi; Bn; Ta; Gu; Kn; Te; Mr; Pa]) by (destruct l; cbn; tauto). destruct D as [->|I]; [destruct (ml_graphemes ds ts Hd P); auto|left]. rewrite (keep_all_ok _ _ _ (proj1 (forallb_forall _ _) langs_keep l I) P). exact (pieces_graphemes ds Hd).
Qed.
Lemma phonology_ok det K l ds ts : phonology det K l = true -> (forall c, In c ds -> In c K) -> performs_all (txn_ops l) (flat_map piece_of ds) ts -> aligned ts /\ (det = true -> forall ts', performs_all (txn_ops l) (flat_map piece_of ds) ts' -> ts' = ts).
Proof.
  intros C Hd P. unfold phonology in C. destruct (posts det (txn_ops l) (map piece_of K)) as [B|] eqn:E; [|discriminate C]. split; [exact (made_of_aligned B ts C (posts_sound det _ (txn_nonempty l) _ _ _ _ E (made_of_pieces ds K Hd) P))|].
  intros -> ts' P'. exact (posts_unique _ (txn_nonempty l) _ _ _ _ _ E (made_of_pieces ds K Hd) P' P).
Qed.
Lemma pronounce_one l cs : l <> Pa -> letters cs -> exists ds ts, (forall c, In c ds -> In c CHARS) /\ only (encs (names ds)) (iso_to_typ (text_of cs)) /\ only (encs ts) (pronounce l (text_of cs)) /\ aligned ts /\ (filter grapheme ts = names ds \/ (l = Ml /\ filter grapheme ts = names ds ++ [symbol_of (sp "u")])).
Proof.
  intros N H. destruct (reading_exists cs H) as (ds & R). pose proof (reading_chars cs ds R) as Hd. destruct (txn_total l (flat_map piece_of ds)) as (ts & P). exists ds, ts. split; [exact Hd|]. split; [exact (reading_typ cs ds H R)|].
  assert (I : In l [Hi; Bn; Ta; Ml; Gu; Kn; Te; Mr]) by (destruct l; cbn; tauto || congruence). destruct (phonology_ok true CHARS l ds ts (proj1 (forallb_forall _ _) phonology_eight l I) Hd P) as [A U]. split; [|split; [exact A|exact (keeps_names l ds ts Hd P)]].
  intros y. rewrite (pronounce_in l cs ds y H R). split; [intros (ts' & P' & ->); rewrite (U eq_refl ts' P'); reflexivity|]. intros ->. exists ts. auto.
Qed.
Lemma pronounce_pa cs : letters cs -> exists ds, (forall c, In c ds -> In c CHARS) /\ only (encs (names ds)) (iso_to_typ (text_of cs)) /\ pronounce Pa (text_of cs) <> [] /\ forall y, In y (pronounce Pa (text_of cs)) -> exists ts, y = encs ts /\ aligned ts /\ filter grapheme ts = names ds.
Proof.
  intros H. destruct (reading_exists cs H) as (ds & R). pose proof (reading_chars cs ds R) as Hd. exists ds. split; [exact Hd|]. split; [exact (reading_typ cs ds H R)|]. split.
  - destruct (txn_total Pa (flat_map piece_of ds)) as (ts & P). assert (I : In (encs ts) (pronounce Pa (text_of cs))) by (apply (pronounce_in Pa cs ds _ H R); exists ts; auto). intros E. rewrite E in I. destruct I.
  - intros y I. apply (pronounce_in Pa cs ds _ H R) in I as (ts & P & ->). exists ts. split; [reflexivity|]. destruct (phonology_ok false CHARS Pa ds ts phonology_pa Hd P) as [A _]. split; [exact A|]. destruct (keeps_names Pa ds ts Hd P) as [K|[K _]]; [exact K|discriminate K].
Qed.
Lemma pronounce_letters l s : pronounce l s <> [] -> exists cs, letters cs /\ s = text_of cs.
Proof.
  unfold pronounce. intros H. destruct (map fst (outs read_iso s)) as [|x r] eqn:E; [cbn in H; congruence|]. apply (read_only_letters s x). rewrite E. left. reflexivity.
Qed.
Lemma phonetic_ok det K l ds ts b : phonetic det K l = true -> (forall c, In c ds -> In c K) -> performs_all (txn_ops l) (flat_map piece_of ds) ts -> Forall symbol ts -> (exists x, only x (print_only_ipa b (map enc_pair IPA) (encs ts))) /\ (det = true -> forall ts', performs_all (txn_ops l) (flat_map piece_of ds) ts' -> ts' = ts).
Proof.
  intros C Hd P Hs. unfold phonetic in C. destruct (posts det (txn_ops l) (map piece_of K)) as [B|] eqn:E; [|discriminate C]. split; [exact (ipa_prints b B ts C (posts_sound det _ (txn_nonempty l) _ _ _ _ E (made_of_pieces ds K Hd) P) Hs)|].
  intros -> ts' P'. exact (posts_unique _ (txn_nonempty l) _ _ _ _ _ E (made_of_pieces ds K Hd) P' P).
Qed.
Lemma transcribe_ok K e l cs ds : phonetic true K l = true -> letters cs -> reading cs ds -> (forall c, In c ds -> In c K) -> exists x, only x (transcribe e l (text_of cs)).
Proof.
  intros C H R Hd. destruct (txn_total l (flat_map piece_of ds)) as (ts & P). destruct (phonetic_ok true K l ds ts e C Hd P (pronounce_symbols l cs ds ts H R P)) as [(x & On) U]. exists x. unfold transcribe. apply (only_bind (encs ts) _ _ x); [|exact On].
  intros y. rewrite (pronounce_in l cs ds y H R). split; [intros (ts' & P' & ->); rewrite (U eq_refl ts' P'); reflexivity|]. intros ->. exists ts. auto.
Qed.
Lemma transcribe_seven e l cs : l <> Gu -> l <> Pa -> letters cs -> exists x, only x (transcribe e l (text_of cs)).
Proof.
  intros N1 N2 H. destruct (reading_exists cs H) as (ds & R). assert (I : In l [Hi; Bn; Ta; Ml; Kn; Te; Mr]) by (destruct l; cbn; tauto || congruence). exact (transcribe_ok CHARS e l cs ds (proj1 (forallb_forall _ _) phonetic_seven l I) H R (reading_chars cs ds R)).
Qed.
Lemma transcribe_gu e cs : letters cs -> no_diphthong cs -> exists x, only x (transcribe e Gu (text_of cs)).
Proof. intros H N. destruct (reading_exists cs H) as (ds & R). exact (transcribe_ok PLAIN e Gu cs ds phonetic_gu H R (reading_plain cs ds H N R)). Qed.
Lemma transcribe_pa e cs : letters cs -> forall y, In y (pronounce Pa (text_of cs)) -> exists x, only x (print_only_ipa e (map (fun q : word * str => (encs (fst q), snd q)) IPA) y).
Proof.
  intros H y I. destruct (reading_exists cs H) as (ds & R). destruct (proj1 (pronounce_in Pa cs ds y H R) I) as (ts & P & ->). exact (proj1 (phonetic_ok false CHARS Pa ds ts e phonetic_pa (reading_chars cs ds R) P (pronounce_symbols Pa cs ds ts H R P))).
Qed.
