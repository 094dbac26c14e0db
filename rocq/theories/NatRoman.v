(** Romanization of texts: exactly one result, made of letters. *)
From Coq Require Import String.
From Verif Require Import Base RuleModel RegexModel IsoModel AlignModel AlignSpec AlignProofs AlignMore NatModel NatSpec NatProofs NatBytes NatBlocks NatBlocksProofs NatTyp NatTypMain NatRepeats NatMain.
Local Open Scope list_scope.

Definition PSA_RULES : list (word * word) := match TRANSLIT_BY_PSA with Rewrite rs _ _ => rs | _ => [] end.
Lemma psa_op : TRANSLIT_BY_PSA = Rewrite PSA_RULES None None.
Proof. reflexivity. Qed.
Lemma psa_phonemes : forallb (fun q : word * word => phonemes (fst q)) PSA_RULES = true.
Proof. vm_compute. reflexivity. Qed.
Lemma psa_nonempty : nonempty_op TRANSLIT_BY_PSA.
Proof. rewrite psa_op. apply nonemptyb_ok. vm_compute. reflexivity. Qed.
Definition the_good (b : word) : option word :=
  match filter phoneme_free (op_toks TRANSLIT_BY_PSA b) with [] => None | x :: r => if forallb (word_eqb x) r then Some x else None end.
Lemma the_good_ok b x : the_good b = Some x -> rewriting PSA_RULES None None [] b x /\ phoneme_free x = true /\ forall o, rewriting PSA_RULES None None [] b o -> phoneme_free o = true -> o = x.
Proof.
  unfold the_good. intros H. destruct (filter phoneme_free (op_toks TRANSLIT_BY_PSA b)) as [|y r] eqn:E; [discriminate H|]. destruct (forallb (word_eqb y) r) eqn:F; [|discriminate H]. injection H as ->.
  assert (I : forall o, In o (x :: r) <-> rewriting PSA_RULES None None [] b o /\ phoneme_free o = true). { intros o. rewrite <- E, filter_In, (op_toks_ok _ _ _ psa_nonempty), psa_op. reflexivity. }
  destruct (proj1 (I x) (or_introl eq_refl)) as [R P]. split; [exact R|split; [exact P|]]. intros o Ro Po. destruct (proj2 (I o) (conj Ro Po)) as [J|J]; [symmetry; exact J|]. rewrite forallb_forall in F. specialize (F o J). apply word_eqb_spec in F. symmetry. exact F.
Qed.
Fixpoint goods (B : list word) : option (list word) :=
  match B with [] => Some [] | b :: B' => match the_good b with None => None | Some x => match goods B' with None => None | Some r => Some (x :: r) end end end.
Definition good (b : word) : word := match the_good b with Some x => x | None => [] end.
Lemma goods_ok B : forall B3, goods B = Some B3 -> forall b, In b B -> the_good b = Some (good b) /\ In (good b) B3.
Proof.
  induction B as [|a B IH]; intros B3 H b I; [destruct I|]. cbn [goods] in H. destruct (the_good a) as [x|] eqn:E; [|discriminate H]. destruct (goods B) as [r|] eqn:Er; [|discriminate H]. injection H as <-.
  destruct I as [<-|I]; [unfold good; rewrite E; split; [reflexivity|left; reflexivity]|]. destruct (IH r eq_refl b I) as [J1 J2]. split; [exact J1|right; exact J2].
Qed.

Definition latin (det : bool) (K : list bchar) (ops before after : list op) : bool :=
  match posts det (ops ++ before) (map piece_of K) with
  | None => false
  | Some B2 => if forallb headed B2 then match goods B2 with None => false | Some B3 => match posts det after B3 with None => false | Some B4 => forallb printable B4 end end else false
  end.
Definition no_pairs_all (l : list op) : bool := forallb no_pairs l.
Lemma latin_ok det K ops before after : latin det K ops before after = true -> Forall nonempty_op (ops ++ before) -> Forall nonempty_op after -> no_pairs_all (ops ++ before) = true -> no_pairs_all after = true -> forallb keeps_phonemes after = true ->
  forall ts, made_of (map piece_of K) ts ->
  exists out, performs_all ((ops ++ before) ++ TRANSLIT_BY_PSA :: after) ts out /\ printable out = true /\
  forall out', performs_all ((ops ++ before) ++ TRANSLIT_BY_PSA :: after) ts out' -> phoneme_free out' = true -> printable out' = true /\ (det = true -> out' = out).
Proof.
  intros H N1 N2 Q1 Q2 Kp ts M. unfold latin in H. destruct (posts det (ops ++ before) (map piece_of K)) as [B2|] eqn:E2; [|discriminate H]. destruct (forallb headed B2) eqn:Hd; [|discriminate H]. destruct (goods B2) as [B3|] eqn:E3; [|discriminate H]. destruct (posts det after B3) as [B4|] eqn:E4; [|discriminate H].
  assert (Heads : Forall (fun b => headed b = true) B2) by (apply Forall_forall; apply forallb_forall; exact Hd).
  assert (One : forall b, In b B2 -> rewriting PSA_RULES None None [] b (good b) /\ forallb (fun t => negb (phoneme t)) (good b) = true /\ forall o, rewriting PSA_RULES None None [] b o -> forallb (fun t => negb (phoneme t)) o = true -> o = good b).
  { intros b I. destruct (goods_ok B2 B3 E3 b I) as [J _]. exact (the_good_ok b _ J). }
  assert (St : forall m, performs_all (ops ++ before) ts m -> exists g, performs TRANSLIT_BY_PSA m g /\ made_of B3 g /\ forall o, performs TRANSLIT_BY_PSA m o -> phoneme_free o = true -> o = g).
  { intros m P. destruct (posts_sound det _ N1 _ _ _ _ E2 M P) as (bs & -> & Hb). exists (concat (map good bs)). rewrite psa_op. cbn [performs]. destruct (within PSA_RULES psa_phonemes good B2 Heads One bs Hb) as [W1 W2]. split; [exact W1|]. split; [|exact W2].
    exists (map good bs). split; [reflexivity|]. apply Forall_forall. intros w I. apply in_map_iff in I as (b & <- & I). exact (proj2 (goods_ok B2 B3 E3 b (proj1 (Forall_forall _ _) Hb b I))). }
  assert (Pr : forall g h, made_of B3 g -> performs_all after g h -> printable h = true).
  { intros g h Mg P. destruct (posts_sound det _ N2 _ _ _ _ E4 Mg P) as (bs & -> & Hb). clear - H Hb. induction Hb as [|b bs I _ IH]; [reflexivity|]. cbn [concat]. rewrite printable_app, IH. rewrite (proj1 (forallb_forall _ _) H b I). reflexivity. }
  destruct (performs_all_total _ N1 Q1 ts) as (m & Pm). destruct (St m Pm) as (g & Pg & Mg & Ug). destruct (performs_all_total _ N2 Q2 g) as (h & Ph). exists h. split; [|split; [exact (Pr g h Mg Ph)|]].
  - apply performs_all_app. exists m. split; [exact Pm|]. econstructor; [exact Pg|exact Ph].
  - intros h' P' F. apply performs_all_app in P' as (m' & Pm' & Q'). inversion Q' as [|o l t g' h0 Pg' Ph']; subst. destruct (St m' Pm') as (g2 & Pg2 & Mg2 & Ug2). pose proof (keep_phonemes_ok after g' h' Kp Ph' F) as Fg. pose proof (Ug2 g' Pg' Fg) as ->. split; [exact (Pr g2 h' Mg2 Ph')|].
    intros ->. pose proof (posts_unique _ N1 _ _ _ _ _ E2 M Pm Pm') as <-. pose proof (Ug g2 Pg2 Fg) as ->. exact (posts_unique _ N2 _ _ _ _ _ E4 Mg Ph' Ph).
Qed.

(** ** The grammars *)
Definition LANGS : list lang := [Hi; Bn; Ta; Gu; Kn; Te; Ml; Mr; Pa].
Definition SCHEMES : list scheme := [Psaf; Psac; Nat].
Lemma all_langs l : In l LANGS.
Proof. destruct l; cbn; tauto. Qed.
Lemma all_schemes s : In s SCHEMES.
Proof. destruct s; cbn; tauto. Qed.
Definition whole (l : lang) (before after : list op) : list op := ISO_TO_TXN ++ (txn_ops l ++ before) ++ TRANSLIT_BY_PSA :: after.
Definition static (l : lang) (s : scheme) : bool :=
  match ltn_ops l s with
  | None => true
  | Some (before, after) => if forallb opb (whole l before after) then if stagedb (whole l before after) then if no_pairs_all (txn_ops l ++ before) then if no_pairs_all after then forallb keeps_phonemes after else false else false else false else false
  end.
Lemma statics : forallb (fun l => forallb (static l) SCHEMES) LANGS = true.
Proof. vm_compute. reflexivity. Qed.
Lemma static_ok l s before after : ltn_ops l s = Some (before, after) -> Forall well_formed (whole l before after) /\ staged (whole l before after) /\ no_pairs_all (txn_ops l ++ before) = true /\ no_pairs_all after = true /\ forallb keeps_phonemes after = true.
Proof.
  intros E. pose proof (proj1 (forallb_forall _ _) (proj1 (forallb_forall _ _) statics l (all_langs l)) s (all_schemes s)) as K. unfold static in K. rewrite E in K.
  repeat match type of K with (if ?b then _ else false) = true => let C := fresh "C" in destruct b eqn:C; [|discriminate K] end. repeat split; auto. - apply opsb_ok. exact C. - apply stagedb_ok. exact C0.
Qed.
Lemma run_bytes_app l1 : forall l2 s x, In x (run_bytes (l1 ++ l2) s) <-> exists y, In y (run_bytes l1 s) /\ In x (run_bytes l2 y).
Proof.
  induction l1 as [|o l1 IH]; intros l2 s x; cbn [app run_bytes].
  - split; [intros H; exists s; split; [left; reflexivity|exact H]|intros (y & [<-|[]] & H); exact H].
  - rewrite in_flat_map. split.
    + intros (t & I & J). apply IH in J as (y & J1 & J2). exists y. split; [apply in_flat_map; exists t; auto|exact J2].
    + intros (y & J & J2). apply in_flat_map in J as (t & I & J). exists t. split; [exact I|]. apply IH. exists y. auto.
Qed.
(** The characters of a text *)
Definition reading (cs ds : list bchar) : Prop := (forall c, In c ds -> In c CHARS) /\ (forall o, performs_all typ_ops (map symbol_of cs) o <-> o = map symbol_of ds) /\ (text_of ds = bytes "." ++ text_of cs \/ text_of ds = text_of cs).
Lemma reading_exists cs : letters cs -> exists ds, reading cs ds.
Proof.
  intros H. destruct (typ_runs cs H) as (ts & P & U & Ht). destruct (chars_glyphs ts Ht) as (ds & -> & Hd & Eg). exists ds. split; [exact Hd|split; [exact U|]]. destruct (steps_text cs _ H P) as [_ [[_ K]|[_ K]]]; rewrite <- Eg; auto.
Qed.
Lemma iso_to_txn_steps cs ds rest out : reading cs ds -> (performs_all (ISO_TO_TXN ++ rest) (map symbol_of cs) out <-> performs_all rest (flat_map piece_of ds) out).
Proof.
  intros (Hd & U & _). unfold ISO_TO_TXN. rewrite <- app_assoc, performs_all_app. split.
  - intros (m & P & Q). apply U in P as ->. cbn [app] in Q. inversion Q as [|o l t g h Pg Ph]; subst. apply (translated_chars ds g Hd) in Pg as ->. exact Ph.
  - intros Q. exists (map symbol_of ds). split; [apply U; reflexivity|]. cbn [app]. econstructor; [apply (translated_chars ds _ Hd); reflexivity|exact Q].
Qed.
Lemma performs_all_writes Q l ts out : Forall (writes Q) l -> performs_all l ts out -> Forall Q ts -> Forall Q out.
Proof. intros W P. induction P as [ts|o l ts mid out P R IH]; intros H; [exact H|]. inversion W; subst. apply IH; [assumption|]. eapply performs_writes; eassumption. Qed.
Definition romanized (e : bool) (l : lang) (before after : list op) (t : str) : list str :=
  flat_map (print_only_glyph e LTN_CHARS) (flat_map (run_bytes (before ++ [TRANSLIT_BY_PSA] ++ after)) (pronounce l t)).
Lemma romanized_in e l s before after cs ds x : ltn_ops l s = Some (before, after) -> letters cs -> reading cs ds ->
  (In x (romanized e l before after (text_of cs)) <-> exists out, performs_all ((txn_ops l ++ before) ++ TRANSLIT_BY_PSA :: after) (flat_map piece_of ds) out /\ Forall symbol out /\ In x (print_only_glyph e LTN_CHARS (encs out))).
Proof.
  intros E H R. destruct (static_ok l s before after E) as (W & St & _). pose proof (typ_symbols _ (letters_chars cs H)) as Hs. pose proof (typ_no_translit _ (letters_chars cs H)) as Hn.
  assert (B : forall y, (exists u v, In u (map fst (outs read_iso (text_of cs))) /\ In v (run_bytes (ISO_TO_TXN ++ txn_ops l) u) /\ In y (run_bytes (before ++ [TRANSLIT_BY_PSA] ++ after) v)) <-> exists out, performs_all (whole l before after) (map symbol_of cs) out /\ y = encs out).
  { intros y. rewrite <- (run_bytes_ok (whole l before after) W St (map symbol_of cs) y Hs (or_intror Hn)). assert (Ew : whole l before after = (ISO_TO_TXN ++ txn_ops l) ++ (before ++ [TRANSLIT_BY_PSA] ++ after)) by (unfold whole; rewrite <- !app_assoc; reflexivity). rewrite Ew, run_bytes_app. split.
    - intros (u & v & Iu & Iv & Iy). apply (read_letters cs H) in Iu as ->. eauto.
    - intros (v & Iv & Iy). exists (encs (map symbol_of cs)), v. split; [apply (read_letters cs H); reflexivity|auto]. }
  unfold romanized, pronounce. rewrite in_flat_map. split.
  - intros (y & Iy & Ix). apply in_flat_map in Iy as (v & Iv & Iy). apply in_flat_map in Iv as (u & Iu & Iv). destruct (proj1 (B y) (ex_intro _ u (ex_intro _ v (conj Iu (conj Iv Iy))))) as (out & P & ->). exists out. split; [apply (iso_to_txn_steps cs ds _ out R); exact P|]. split; [|exact Ix].
    apply (performs_all_writes symbol (whole l before after) (map symbol_of cs)); [eapply Forall_impl; [|exact W]; intros o; apply well_formed_writes|exact P|exact Hs].
  - intros (out & P & _ & Ix). exists (encs out). split; [|exact Ix]. destruct (proj2 (B (encs out)) (ex_intro _ out (conj (proj2 (iso_to_txn_steps cs ds _ out R) P) eq_refl))) as (u & v & Iu & Iv & Iy). apply in_flat_map. exists v. split; [apply in_flat_map; exists u; auto|exact Iy].
Qed.
Lemma romanized_ok det K e l s before after cs ds : ltn_ops l s = Some (before, after) -> latin det K (txn_ops l) before after = true -> letters cs -> reading cs ds -> (forall c, In c ds -> In c K) ->
  (exists x, In x (romanized e l before after (text_of cs))) /\ (forall x, In x (romanized e l before after (text_of cs)) -> over LOWER x = true) /\
  (det = true -> forall x y, In x (romanized e l before after (text_of cs)) -> In y (romanized e l before after (text_of cs)) -> x = y).
Proof.
  intros E La H R Hk. destruct (static_ok l s before after E) as (W & _ & Q1 & Q2 & Kp). pose proof (well_formed_all _ W) as N. unfold whole in N. apply Forall_app in N as [_ N]. apply Forall_app in N as [N1 N2]. inversion N2 as [|? ? _ N3]; subst.
  destruct (latin_ok det K (txn_ops l) before after La N1 N3 Q1 Q2 Kp (flat_map piece_of ds) (made_of_pieces ds K Hk)) as (out & P & Pr & U).
  assert (Sy : Forall symbol out). { apply (performs_all_writes symbol (whole l before after) (map symbol_of cs)); [eapply Forall_impl; [|exact W]; intros o; apply well_formed_writes|apply (iso_to_txn_steps cs ds _ out R); exact P|exact (typ_symbols _ (letters_chars cs H))]. }
  pose proof (fun x => romanized_in e l s before after cs ds x E H R) as B. split; [|split].
  - destruct (print_lower e out Sy Pr) as (o & On & _). exists o. apply B. exists out. split; [exact P|split; [exact Sy|]]. apply On. reflexivity.
  - intros x I. apply B in I as (out' & P' & Sy' & I). pose proof (print_phoneme e out' x Sy' I) as F. destruct (U out' P' F) as [Pr' _]. destruct (print_lower e out' Sy' Pr') as (o & On & Lo). apply On in I as ->. exact Lo.
  - intros -> x y Ix Iy. apply B in Ix as (o1 & P1 & S1 & Ix). apply B in Iy as (o2 & P2 & S2 & Iy). destruct (U o1 P1 (print_phoneme e o1 x S1 Ix)) as [_ E1]. destruct (U o2 P2 (print_phoneme e o2 y S2 Iy)) as [_ E2]. rewrite (E1 eq_refl) in *. rewrite (E2 eq_refl) in *.
    destruct (print_lower e out Sy Pr) as (o & On & _). apply On in Ix as ->. apply On in Iy as ->. reflexivity.
Qed.
(** With the removal of repeated letters *)
Definition ending (s : scheme) (u : str) : list str := match s with Psac => remove_repeated_ltn u | _ => [u] end.
Lemma ending_ok s u : over LOWER u = true -> exists o, ending s u = [o] /\ over LOWER o = true.
Proof. destruct s; cbn [ending]; intros H; [exists u; auto|exact (remove_repeated_ok u H)|exists u; auto]. Qed.
Lemma romanize_some e l s f : romanize e l s = Some f -> exists before after, ltn_ops l s = Some (before, after) /\ forall t, f t = flat_map (ending s) (romanized e l before after t).
Proof. unfold romanize. destruct (ltn_ops l s) as [[before after]|]; [|discriminate]. intros H. injection H as <-. exists before, after. split; [reflexivity|]. intros t. reflexivity. Qed.
Lemma romanize_ok det K e l s f cs ds : romanize e l s = Some f -> (forall before after, ltn_ops l s = Some (before, after) -> latin det K (txn_ops l) before after = true) -> letters cs -> reading cs ds -> (forall c, In c ds -> In c K) ->
  (exists x, In x (f (text_of cs))) /\ (forall x, In x (f (text_of cs)) -> lower_case x) /\ (det = true -> exists x, only x (f (text_of cs))).
Proof.
  intros E La H R Hk. destruct (romanize_some e l s f E) as (before & after & El & Ef). destruct (romanized_ok det K e l s before after cs ds El (La before after El) H R Hk) as ((x & Ix) & Lo & U). rewrite Ef.
  destruct (ending_ok s x (Lo x Ix)) as (o & Eo & Ho). split; [exists o; apply in_flat_map; exists x; split; [exact Ix|rewrite Eo; left; reflexivity]|]. split.
  - intros y I. apply in_flat_map in I as (z & Iz & I). destruct (ending_ok s z (Lo z Iz)) as (p & Ep & Hp). rewrite Ep in I. destruct I as [<-|[]]. exact (lower_range p Hp).
  - intros Hd. exists o. intros y. rewrite in_flat_map. split.
    + intros (z & Iz & I). rewrite (U Hd z x Iz Ix), Eo in I. destruct I as [<-|[]]. reflexivity.
    + intros ->. exists x. split; [exact Ix|rewrite Eo; left; reflexivity].
Qed.
(** No text of other characters *)
Lemma romanize_letters e l s f t x : romanize e l s = Some f -> In x (f t) -> exists cs, letters cs /\ t = text_of cs.
Proof.
  intros E I. destruct (romanize_some e l s f E) as (before & after & _ & Ef). rewrite Ef in I. apply in_flat_map in I as (y & I & _). apply in_flat_map in I as (z & I & _). apply in_flat_map in I as (v & I & _). apply in_flat_map in I as (u & I & _). exact (read_only_letters t u I).
Qed.

(** ** The languages *)
Definition latin_all (det : bool) (K : list bchar) (l : lang) : bool := forallb (fun s => match ltn_ops l s with None => true | Some (before, after) => latin det K (txn_ops l) before after end) SCHEMES.
Lemma latin_all_ok det K l s : latin_all det K l = true -> forall before after, ltn_ops l s = Some (before, after) -> latin det K (txn_ops l) before after = true.
Proof. intros H before after E. pose proof (proj1 (forallb_forall _ _) H s (all_schemes s)) as Q. cbn beta in Q. rewrite E in Q. exact Q. Qed.
Lemma latin_seven : forallb (latin_all true CHARS) [Hi; Bn; Ta; Kn; Te; Ml; Mr] = true.
Proof. vm_cast_no_check (eq_refl true). Qed.
Definition diphthong (c : bchar) : bool := existsb (fun t => String.eqb (btyp c) t) ["ai"; "au"; "ai_i"; "au_i"]%string.
Definition PLAIN : list bchar := filter (fun c => negb (diphthong c)) CHARS.
Lemma latin_gu : latin_all true PLAIN Gu = true.
Proof. vm_cast_no_check (eq_refl true). Qed.
Lemma latin_pa : latin_all false CHARS Pa = true.
Proof. vm_cast_no_check (eq_refl true). Qed.
