(** Typed Malayalam text becomes the native text it stands for. *)
From Verif Require DeromTexts IdemProofs ScriptChecks RewriteProofs.
From Verif Require Import Base RuleModel RuleSpec VisualModel ScriptData ScriptTables ScriptModel IsoModel IsoSpec IsoPieceSpec IsoPieces IsoRoundSpec IsoRound IsoProofs IsoFullModel IsoFull IsoTextSpec IsoText IsoLongest IsoReader
  FixedTables FixedModel FixedSpec FixedJoin FixedCheck.
From Coq Require Import Lia.
Local Notation str := (list N).

Lemma mlym_all : In data_Mlym all_scripts. Proof. unfold all_scripts. cbn [In]. tauto. Qed.
Lemma mlym_one : In data_Mlym one_reading_scripts. Proof. destruct (all_scripts_split _ mlym_all) as [H|H]; [exact H|discriminate H]. Qed.
(** ** Pieces *)
Fixpoint pieces (after : option kind) (w : list unit) : list (tag * str) :=
  match w with [] => [] | u :: w' => piece_of u (dot_before (fst u) after) :: pieces (Some (fst u)) w' end.
Lemma typed_pieces w : forall after, typed after w = concat (map snd (pieces after w)).
Proof.
  induction w as [|u w IH]; intros after; [reflexivity|]. cbn [typed pieces map concat]. rewrite <- IH. unfold piece_of. cbn [snd]. rewrite <- app_assoc. f_equal.
  unfold dot_before. destruct (fst u); try reflexivity. destruct after as [[]|]; reflexivity.
Qed.
Lemma piece_in u after : In u units -> In (piece_of u (dot_before (fst u) after)) all_pieces.
Proof.
  intros H. unfold all_pieces. apply in_or_app. destruct (dot_before (fst u) after) eqn:E.
  - right. apply in_flat_map. exists u. split; [exact H|]. destruct (fst u); try discriminate E. left. reflexivity.
  - left. apply (in_map (fun u => piece_of u false)), H.
Qed.
Lemma pieces_linked w : text w -> forall after, linked _ tag_allowed all_pieces (pieces after w).
Proof.
  induction 1 as [|u I|u v w I M T IH]; intros after; cbn [pieces].
  - apply linked_none.
  - apply linked_one, piece_in, I.
  - apply linked_more; [apply piece_in, I| |exact (IH (Some (fst u)))]. unfold tag_allowed, piece_of. cbn [fst snd]. rewrite M. apply Bool.eqb_reflx.
Qed.
Lemma fixed_nonempty : nonempty_lhs fixed_Mlym.
Proof. pose proof (proj1 (forallb_forall _ _) fixed_nonempty_b) as H. intros r I E. specialize (H r I). cbv beta in H. rewrite E in H. discriminate H. Qed.
Lemma cascade_typed w : text w -> forall after, cascade fixed_Mlym (typed after w) = concat (map (fun p => cascade fixed_Mlym (snd p)) (pieces after w)).
Proof. intros T after. rewrite typed_pieces. exact (cascade_pieces _ _ _ _ _ fixed_nonempty pieces_apart (pieces_linked _ T after)). Qed.

(** ** Reading units *)
Section Read.
Variable v : str.
Lemma write_app a b r : write (Some a) (write (Some b) r) = write (Some (a ++ b)) r.
Proof. destruct r; cbn [write]; [rewrite app_assoc|]; reflexivity. Qed.
Lemma write_nil r : write (Some []) r = r. Proof. destruct r; reflexivity. Qed.
Lemma run_read n : forall p o q rest, run v p n = Some (o, q) -> read (Some v) p (n ++ rest) = write (Some o) (read (Some v) q rest).
Proof.
  induction n as [|c n IH]; intros p o q rest H; cbn [run] in H.
  - injection H as <- <-. cbn [app]. rewrite write_nil. reflexivity.
  - cbn [app read].
    assert (K : forall a p', match run v p' n with Some (t, q) => Some (a ++ t, q) | None => None end = Some (o, q) -> write (Some a) (read (Some v) p' (n ++ rest)) = write (Some o) (read (Some v) q rest)).
    { intros a p' E. destruct (run v p' n) as [[t q']|] eqn:R; [|discriminate E]. injection E as <- <-. rewrite (IH _ _ _ rest R). apply write_app. }
    destruct p as [|[]|]; destruct c; try discriminate H; apply K in H; rewrite <- H; cbn [app]; rewrite ?write_nil, ?write_app, ?write_nil; try reflexivity.
Qed.
Definition head_free (l : list letter) : Prop := match l with [] => True | c :: _ => match c with Consonant _ | Vowel _ | Other _ => True | _ => False end end.
Lemma waiting_settles b n : head_free n -> read (Some v) (Waiting b) n = write (Some v) (read (Some v) Dotted n).
Proof.
  destruct n as [|c n]; intros H; cbn [read]; [cbn [write]; rewrite app_nil_r; reflexivity|].
  destruct c; try destruct H; destruct b; rewrite ?write_nil; reflexivity.
Qed.
Lemma read_unit rs l p u dot rest : read_ok rs v l p u dot = true -> head_free rest ->
  read (Some v) p (l ++ rest) = write (Some (cascade rs (snd (piece_of u dot)))) (read (Some v) (left_at (fst u)) rest).
Proof.
  intros H F. unfold read_ok in H. destruct (run v p l) as [[o q]|] eqn:R; [|discriminate H]. rewrite (run_read _ _ _ _ rest R).
  destruct q as [|b|]; cbn [settled] in H.
  - destruct (left_at (fst u)); cbn [place_eqb] in H; try discriminate H. apply str_eqb_eq in H as ->. reflexivity.
  - destruct (left_at (fst u)); cbn [place_eqb] in H; try discriminate H. apply str_eqb_eq in H. rewrite (waiting_settles b rest F), write_app, H. reflexivity.
  - destruct (left_at (fst u)); cbn [place_eqb] in H; try discriminate H. apply str_eqb_eq in H as ->. reflexivity.
Qed.
End Read.
Lemma inherent_a : inherent data_Mlym = Some [97%N]. Proof. reflexivity. Qed.
Lemma unit_facts u : In u units -> exists l, chars data_Mlym (fst (snd u)) = Some l /\ head_ok l = true /\ read_ok fixed_Mlym [97%N] l Fresh u false = true /\ read_ok fixed_Mlym [97%N] l Dotted u (independent (fst u)) = true.
Proof.
  intros H. pose proof (proj1 (forallb_forall _ _) units_ok u H) as Q. cbv beta in Q. unfold unit_ok in Q. destruct (chars data_Mlym (fst (snd u))) as [l|]; [|discriminate Q]. exists l.
  destruct (head_ok l); [|discriminate Q]. destruct (read_ok fixed_Mlym [97%N] l Fresh u false); [|discriminate Q]. auto.
Qed.
Definition place_after (after : option kind) : place := match after with Some k => left_at k | None => Fresh end.
Lemma text_units w : text w -> Forall (fun u => In u units) w. Proof. induction 1; constructor; auto. Qed.
Lemma head_app l rest : head_ok l = true -> head_free (l ++ rest).
Proof. destruct l as [|c l]; [discriminate|]. cbn [app head_ok head_free]. destruct c; try discriminate; intros _; exact I. Qed.
Lemma chars_app d a b l m : chars d a = Some l -> chars d b = Some m -> chars d (a ++ b) = Some (l ++ m).
Proof.
  revert l. induction a as [|c a IH]; intros l H B; cbn [chars app] in *; [injection H as <-; exact B|]. destruct (letter_of d [c]) as [t|]; [|discriminate H]. destruct (chars d a) as [l'|]; [|discriminate H].
  injection H as <-. rewrite (IH l' eq_refl B). reflexivity.
Qed.
Lemma read_native w : Forall (fun u => In u units) w -> exists l, chars data_Mlym (native w) = Some l /\ head_free l /\
  forall after, read (Some [97%N]) (place_after after) l = Some (concat (map (fun p => cascade fixed_Mlym (snd p)) (pieces after w))).
Proof.
  induction 1 as [|u w H F (l & C & Hl & IH)].
  - exists []. split; [reflexivity|]. split; [exact I|]. intros after. cbn. destruct after as [[]|]; reflexivity.
  - destruct (unit_facts u H) as (lu & Cu & Hu & R1 & R2). exists (lu ++ l). split; [exact (chars_app _ _ _ _ _ Cu C)|]. split; [exact (head_app _ _ Hu)|]. intros after. cbn [pieces map concat].
    assert (R : read_ok fixed_Mlym [97%N] lu (place_after after) u (dot_before (fst u) after) = true).
    { destruct after as [k|]; [|destruct u as [[] u]; exact R1]. unfold place_after. destruct k; cbn [left_at]; destruct u as [[] u]; cbn [fst dot_before independent] in *; assumption. }
    etransitivity; [exact (read_unit _ _ _ _ _ _ l R Hl)|]. change (left_at (fst u)) with (place_after (Some (fst u))). rewrite IH. reflexivity.
Qed.
(** single characters *)
Lemma mlym_single x l : letter_of data_Mlym x = Some l -> exists c, x = [c].
Proof.
  intros H. apply letter_row in H.
  assert (K : forall f o, In f (letter_tables data_Mlym) -> row f x o -> exists c, x = [c]).
  { intros f o F R. pose proof (proj1 (forallb_forall _ _) (proj1 (forallb_forall _ _) single_letters f F)) as Q. cbv beta in Q.
    assert (X : exists t, In (x, t) f) by (destruct R as [R|[R _]]; eexists; exact R). destruct X as (t & X). specialize (Q _ X). cbn [fst] in Q. destruct x as [|c [|]]; try discriminate Q. exists c. reflexivity. }
  destruct l; try (eapply K; [|exact H]; unfold letter_tables; cbn [In]; tauto).
  - destruct H as (o & H). eapply K; [|exact H]. unfold letter_tables. cbn [In]. tauto.
  - destruct H as [H|[H|[H|[H|H]]]]; (eapply K; [|exact H]; unfold letter_tables; cbn [In]; tauto).
Qed.
Lemma chars_letters d x l : (forall x l, letter_of d x = Some l -> exists c, x = [c]) -> chars d x = Some l -> letters d 0 x = Some l.
Proof.
  intros Si. revert l. induction x as [|c x IH]; intros l H; [exact H|]. cbn [chars] in H. destruct (letter_of d [c]) as [t|] eqn:E; [|discriminate H]. destruct (chars d x) as [l'|]; [|discriminate H]. injection H as <-.
  assert (Fi : first_letter d (c :: x) = Some (1, t)).
  { unfold first_letter. assert (K : forall n, orelse (match letter_of d (firstn (S n) (c :: x)) with Some l => Some (length (firstn (S n) (c :: x)), l) | None => None end) (Some (1, t)) = Some (1, t)).
    { intros n. cbn [firstn]. destruct (letter_of d (c :: firstn n x)) as [t'|] eqn:E'; [|reflexivity]. destruct (Si _ _ E') as (c' & Q). injection Q as _ Q. rewrite Q in E' |- *. rewrite E in E'. injection E' as <-. reflexivity. }
    assert (E1 : match letter_of d (firstn 1 (c :: x)) with Some l => Some (length (firstn 1 (c :: x)), l) | None => None end = Some (1, t)) by (cbn [firstn]; rewrite E; reflexivity).
    rewrite E1, (K 1), (K 2), (K 3). reflexivity. }
  cbn [letters]. rewrite Fi. cbn [Nat.sub]. rewrite (IH l' eq_refl). reflexivity.
Qed.
Lemma romanize_typed w : text w -> romanize data_Mlym (native w) = Some (cascade fixed_Mlym (typed None w)).
Proof.
  intros T. rewrite (cascade_typed w T None). destruct (read_native w (text_units w T)) as (l & C & _ & R). unfold romanize. rewrite (chars_letters _ _ _ mlym_single C), inherent_a. exact (R None).
Qed.

(** ** The grammar *)
Lemma mlym_longest : In data_Mlym longest_scripts. Proof. unfold longest_scripts. cbn [In]. tauto. Qed.
Lemma over_incl (s : list N) x : (forall c, In c x -> In c s) -> over s x = true.
Proof. intros H. apply forallb_forall. intros c I. apply memN_spec. auto. Qed.
Lemma rule_over sigma rs : incl (rule_chars rs) sigma -> forall r, In r rs -> over sigma (rhs r) = true.
Proof. intros H r I. apply over_incl. intros c C. apply H. unfold rule_chars. apply in_flat_map. exists r. split; [exact I|]. apply in_or_app. right. exact C. Qed.
Lemma fixed_rules ns rs : nonempty_lhs rs -> exists f, fixed_rule_fst ns rs = Some f /\ forall x, over ascii_input_chars x = true -> f x = [cascade rs x].
Proof.
  intros Ne. destruct (IdemProofs.cascading_spec ns rs (fixed_sigma rs) Ne) as (f & F & S).
  { apply rule_over. intros c H. unfold fixed_sigma. apply in_or_app. left. exact H. }
  exists f. split; [exact F|]. intros x O. rewrite S. replace (over (fixed_sigma rs) x) with true; [reflexivity|]. symmetry. apply over_incl. intros c C.
  unfold over in O. rewrite forallb_forall in O. specialize (O c C). apply memN_spec in O. unfold fixed_sigma. apply in_or_app. right. apply in_or_app. left. exact O.
Qed.
Lemma mlym_ascii ns x : over ascii_input_chars x = true -> MLYM ns x = to_script ns data_Mlym (cascade fixed_Mlym x).
Proof.
  intros O. unfold MLYM, fixed_grammar. destruct (fixed_rules ns fixed_Mlym fixed_nonempty) as (f & F & S). rewrite F. unfold compose, ascii_acceptor. rewrite O. cbn [flat_map]. rewrite app_nil_r, (S x O). cbn [map all_outs].
  destruct (to_script ns data_Mlym (cascade fixed_Mlym x)); [rewrite app_nil_r|]; reflexivity.
Qed.
Lemma mlym_other ns x : over ascii_input_chars x = false -> MLYM ns x = Some [].
Proof. intros O. unfold MLYM, fixed_grammar. destruct (fixed_rules ns fixed_Mlym fixed_nonempty) as (f & F & S). rewrite F. unfold compose, ascii_acceptor. rewrite O. reflexivity. Qed.
Lemma nfc_same ns d t : In d all_scripts -> over (script_sigma d) t = true -> (forall r, In r (sd_nfc d) -> ~ is_infix (lhs r) t) -> exists f, script_nfc ns d = Some f /\ f t = [t].
Proof.
  intros Hd O N. destruct (shipped_nfc ns d Hd) as (f & Hf & _). exists f. split; [exact Hf|]. unfold script_nfc in Hf.
  pose proof ScriptChecks.all_scripts_ok as Q. rewrite forallb_forall in Q. specialize (Q _ Hd). unfold ScriptChecks.script_ok in Q. apply andb_prop in Q as [Q _]. apply andb_prop in Q as [Q _].
  unfold ScriptChecks.rules_ok in Q. apply andb_prop in Q as [Q _]. apply andb_prop in Q as [Qn Qo]. rewrite forallb_forall in Qn, Qo.
  apply (IdemProofs.no_lhs_identity ns (sd_nfc d) (script_sigma d)); [|exact Qo|exact Hf|exact O|exact N].
  intros r Hr. specialize (Qn r Hr). apply negb_true_iff, str_eqb_neq in Qn. exact Qn.
Qed.
(** what the rules make of a text is the romanization of its result *)
Lemma mlym_reads ns x t : over ascii_input_chars x = true -> over (script_sigma data_Mlym) t = true -> (forall r, In r (sd_nfc data_Mlym) -> ~ is_infix (lhs r) t) ->
  romanize data_Mlym t = Some (cascade fixed_Mlym x) -> exists l, MLYM ns x = Some l /\ forall z, In z (best_among l) <-> z = t.
Proof.
  intros Ox Ot N R. destruct (nfc_same ns _ t mlym_all Ot N) as (f & Hf & Ef). destruct (from_best ns _ t mlym_all Ot) as (f' & t' & l & Hf' & Et & Hl & B).
  assert (f' = f) by congruence. subst f'. assert (t' = t) by congruence. subst t'.
  assert (Iy : In (cascade fixed_Mlym x) (best_among l)). { rewrite B. apply (romanize_all _ mlym_longest); exact R. }
  destruct (full_round_trip ns _ mlym_all t l _ Ot Hl Iy) as (g & t2 & l' & Hg & E2 & Hl' & Z). assert (g = f) by congruence. subst g. assert (t2 = t) by congruence. subst t2.
  exists l'. split; [rewrite (mlym_ascii ns x Ox); exact Hl'|exact Z].
Qed.
Lemma over_concat s l : Forall (fun x => over s x = true) l -> over s (concat l) = true.
Proof. induction 1 as [|x l H F IH]; [reflexivity|]. cbn [concat]. unfold over in *. rewrite forallb_app, H, IH. reflexivity. Qed.
Lemma unit_over u : In u units -> over (script_sigma data_Mlym) (fst (snd u)) = true /\ over ascii_input_chars (snd (snd u)) = true.
Proof. intros H. pose proof (proj1 (forallb_forall _ _) units_over u H) as Q. cbv beta in Q. unfold over_ok in Q. destruct (over (script_sigma data_Mlym) (fst (snd u))); [auto|discriminate Q]. Qed.
Lemma typed_over w : Forall (fun u => In u units) w -> forall after, over ascii_input_chars (typed after w) = true.
Proof.
  induction 1 as [|u w H F IH]; intros after; [reflexivity|]. cbn [typed]. unfold over. rewrite !forallb_app. fold (over ascii_input_chars (snd (snd u))). rewrite (proj2 (unit_over u H)). fold (over ascii_input_chars (typed (Some (fst u)) w)). rewrite IH, !andb_true_r.
  destruct (fst u); try reflexivity. destruct after as [[]|]; reflexivity.
Qed.
Lemma native_over w : Forall (fun u => In u units) w -> over (script_sigma data_Mlym) (native w) = true.
Proof. intros F. unfold native. rewrite flat_map_concat_map. apply over_concat, Forall_map. apply (Forall_impl _ (fun u H => proj1 (unit_over u H)) F). Qed.
Lemma native_nfc w : Forall (fun u => In u units) w -> forall r, In r (sd_nfc data_Mlym) -> ~ is_infix (lhs r) (native w).
Proof.
  intros F r I. unfold native. rewrite flat_map_concat_map. apply (DeromTexts.free_infix (map (fun u => fst (snd u)) units)); [exact (proj1 (forallb_forall _ _) units_nfc r I)|].
  apply Forall_map. apply (Forall_impl _ (fun u H => in_map (fun u => fst (snd u)) _ _ H) F).
Qed.
Lemma typed_text ns w : text w -> exists l, MLYM ns (typed None w) = Some l /\ forall z, In z (best_among l) <-> z = native w.
Proof.
  intros T. pose proof (text_units w T) as F. apply mlym_reads; [exact (typed_over w F None)|exact (native_over w F)|exact (native_nfc w F)|exact (romanize_typed w T)].
Qed.
(** ** At most one result *)
Lemma letter_over x l : letter_of data_Mlym x = Some l -> over (script_sigma data_Mlym) x = true.
Proof.
  intros E. apply letter_row in E.
  assert (K : forall f o, In f (letter_tables data_Mlym) -> row f x o -> over (script_sigma data_Mlym) x = true).
  { intros f o F R. pose proof (proj1 (forallb_forall _ _) (proj1 (forallb_forall _ _) letters_over f F)) as Q. cbv beta in Q.
    assert (X : exists t, In (x, t) f) by (destruct R as [R|[R _]]; eexists; exact R). destruct X as (t & X). exact (Q _ X). }
  destruct l; try (eapply K; [|exact E]; unfold letter_tables; cbn [In]; tauto).
  - destruct E as (o & E). eapply K; [|exact E]. unfold letter_tables. cbn [In]. tauto.
  - destruct E as [E|[E|[E|[E|E]]]]; (eapply K; [|exact E]; unfold letter_tables; cbn [In]; tauto).
Qed.
Lemma read_over y z w : In (z, w) (outs (w_invert (iso_wt data_Mlym)) y) -> over (script_sigma data_Mlym) z = true.
Proof.
  intros H. destruct (shipped_star_ok _ mlym_all) as [S S']. apply (outs_inverse _ z y w S S') in H. apply (outs_rel _ _ _ _ S) in H. apply iso_pieces in H.
  pose proof (proj1 (forallb_forall _ _) all_letters_ok _ mlym_all) as Q. cbv beta in Q. destruct (pieces_cut _ _ Q _ _ _ H) as (ts & m & [F <-] & _). apply over_concat, Forall_map.
  eapply Forall_impl; [|exact F]. intros t [_ L]. exact (letter_over _ _ L).
Qed.
Lemma one_text ns x : exists l, MLYM ns x = Some l /\ forall z z', In z (best_among l) -> In z' (best_among l) -> z = z'.
Proof.
  destruct (over ascii_input_chars x) eqn:O; [|exists []; split; [exact (mlym_other ns x O)|intros z z' []]].
  rewrite (mlym_ascii ns x O). destruct (shipped_nfc ns _ mlym_all) as (f & Hf & Ht & _). unfold to_script. rewrite Hf. eexists. split; [reflexivity|].
  set (y := cascade fixed_Mlym x). intros z z' Hz Hz'.
  assert (K : forall z, In z (best_among (flat_map (fun '(z, w) => map (fun t => (t, w)) (f z)) (outs (w_invert (iso_wt data_Mlym)) y))) -> exists s, In s (best_outs (w_invert (iso_wt data_Mlym)) y) /\ f s = [z]).
  { clear z z' Hz Hz'. intros z Hz. apply best_among_in in Hz as (w & I & M). apply in_flat_map in I as ([s w'] & I & Q). apply in_map_iff in Q as (t & E & Q). injection E as -> ->.
    destruct (Ht s (read_over _ _ _ I)) as (t & E & _). rewrite E in Q. destruct Q as [->|[]]. exists s. split; [|exact E]. rewrite best_outs_among. apply best_among_in. exists w. split; [exact I|].
    intros [s' w'] I'. destruct (Ht s' (read_over _ _ _ I')) as (t' & E' & _). apply (M (t', w')). apply in_flat_map. exists (s', w'). split; [exact I'|]. rewrite E'. left. reflexivity. }
  destruct (K z Hz) as (s & B & E). destruct (K z' Hz') as (s' & B' & E'). pose proof (one_reading _ mlym_one y s s' B B') as <-. congruence.
Qed.
(** ** Instances *)
Definition kind_eqb (a b : kind) : bool := match a, b with Syllable, Syllable | Half, Half | Joined, Joined | Mark, Mark | Quiet, Quiet | Independent, Independent => true | _, _ => false end.
Definition unit_eqb (u v : unit) : bool := if kind_eqb (fst u) (fst v) then if str_eqb (fst (snd u)) (fst (snd v)) then str_eqb (snd (snd u)) (snd (snd v)) else false else false.
Lemma unit_eqb_eq u v : unit_eqb u v = true -> u = v.
Proof.
  destruct u as [k [a b]], v as [k' [a' b']]. unfold unit_eqb. cbn [fst snd]. destruct (kind_eqb k k') eqn:E; [|discriminate]. destruct (str_eqb a a') eqn:E2; [|discriminate]. intros E3.
  apply str_eqb_eq in E2 as ->, E3 as ->. f_equal. destruct k, k'; try discriminate E; reflexivity.
Qed.
Fixpoint text_b (w : list unit) : bool :=
  match w with
  | [] => true
  | u :: w' => if existsb (unit_eqb u) units then if match w' with [] => true | v :: _ => may_follow u v end then text_b w' else false else false
  end.
Lemma text_b_ok w : text_b w = true -> text w.
Proof.
  induction w as [|u w IH]; [intros _; apply text_none|]. cbn [text_b]. destruct (existsb (unit_eqb u) units) eqn:E; [|discriminate].
  assert (I : In u units) by (apply existsb_exists in E as (u' & I & Q); apply unit_eqb_eq in Q as ->; exact I).
  destruct w as [|v w]; [intros _; apply text_one, I|]. destruct (may_follow u v) eqn:M; [|discriminate]. intros H. apply text_more; [exact I|exact M|exact (IH H)].
Qed.
Lemma not_ascii ns x c : In c x -> (126 < c \/ c = 91 \/ c = 93)%N -> MLYM ns x = Some [].
Proof.
  intros I C. apply mlym_other. destruct (over ascii_input_chars x) eqn:O; [|reflexivity]. unfold over in O. rewrite forallb_forall in O. specialize (O c I). apply memN_spec in O.
  assert (A : forallb (fun c => if N.leb c 126 then negb (N.eqb c 91 || N.eqb c 93) else false) ascii_input_chars = true) by reflexivity.
  rewrite forallb_forall in A. specialize (A c O). destruct (N.leb c 126) eqn:L; [|discriminate A]. apply N.leb_le in L. apply negb_true_iff, orb_false_iff in A as [A1 A2]. apply N.eqb_neq in A1, A2. lia.
Qed.
Lemma m_long_o ns : exists l, MLYM ns [109; 79]%N = Some l /\ forall z, In z (best_among l) <-> z = [3330; 3347]%N.
Proof.
  apply mlym_reads; [reflexivity|reflexivity| |reflexivity]. intros r I. apply (DeromTexts.free_infix [[3330; 3347]%N] (lhs r)) with (ps := [[3330; 3347]%N]); [|constructor; [left; reflexivity|constructor]].
  revert r I. apply forallb_forall. reflexivity.
Qed.
Lemma m_long_o_refuted ns : ~ (exists l, MLYM ns [109; 79]%N = Some l /\ In [3374; 3403]%N (best_among l)).
Proof. intros (l & E & H). destruct (m_long_o ns) as (l' & E' & K). rewrite E' in E. injection E as <-. apply K in H. discriminate H. Qed.
