From Verif Require Import Base RuleModel VisualModel ScriptData ScriptTables IsoModel IsoSpec IsoProofs IsoPieceSpec.

Lemma rel_pairs l i o w : rel (WPairs l) i o w <-> In (i, o) l /\ w = 0%N.
Proof. split; [intros H; inversion H; auto|intros [H ->]; constructor; exact H]. Qed.
Lemma rel_eps v i o w : rel (WEps v) i o w <-> i = [] /\ o = [] /\ w = v.
Proof. split; [intros H; inversion H; auto|intros (-> & -> & ->); constructor]. Qed.
Lemma rel_cat a b i o w : rel (WCat a b) i o w <-> exists i1 o1 w1 i2 o2 w2, rel a i1 o1 w1 /\ rel b i2 o2 w2 /\ i = i1 ++ i2 /\ o = o1 ++ o2 /\ w = (w1 + w2)%N.
Proof.
  split; [intros H; inversion H; subst; repeat eexists; eassumption|].
  intros (? & ? & ? & ? & ? & ? & A & B & -> & -> & ->). constructor; assumption.
Qed.
Lemma rel_alt a b i o w : rel (WAlt a b) i o w <-> rel a i o w \/ rel b i o w.
Proof. split; [intros H; inversion H; auto|intros [H|H]; [apply R_alt1|apply R_alt2]; exact H]. Qed.
Lemma rel_map f i o w : rel (string_map f) i o w <-> row f i o /\ w = 0%N.
Proof.
  unfold string_map. rewrite rel_pairs, in_map_iff. unfold row. split.
  - intros [([x [y|]] & E & K) ->]; cbn in E; injection E as <- <-; auto.
  - intros [[K|[K ->]] ->]; (split; [|reflexivity]); eexists; (split; [|exact K]); reflexivity.
Qed.
Lemma rel_insert l i o w : rel (insert l) i o w <-> i = [] /\ In o l /\ w = 0%N.
Proof.
  unfold insert. rewrite rel_pairs, in_map_iff. split.
  - intros [(x & E & K) ->]. injection E as <- <-. auto.
  - intros (-> & K & ->). split; [|reflexivity]. exists o. auto.
Qed.
Lemma rel_delete l i o w : rel (delete l) i o w <-> o = [] /\ In i l /\ w = 0%N.
Proof.
  unfold delete. rewrite rel_pairs, in_map_iff. split.
  - intros [(x & E & K) ->]. injection E as <- <-. auto.
  - intros (-> & K & ->). split; [|reflexivity]. exists i. auto.
Qed.
Lemma rel_cross l v i o w : rel (cross_to l v) i o w <-> o = v /\ In i l /\ w = 0%N.
Proof.
  unfold cross_to. rewrite rel_pairs, in_map_iff. split.
  - intros [(x & E & K) ->]. injection E as <- <-. auto.
  - intros (-> & K & ->). split; [|reflexivity]. exists i. auto.
Qed.
Lemma in_inputs f v : In v (inputs f) <-> exists c, In (v, c) f.
Proof.
  unfold inputs. rewrite in_map_iff. split; [intros ([x c] & <- & K); exists c; exact K|intros [c K]; exists (v, c); auto].
Qed.
Lemma rel_ques f i o w : rel (ques_safe f) i o w <-> w = 0%N /\ (i = [] /\ o = [] \/ row f i o).
Proof.
  unfold ques_safe, w_ques. rewrite rel_alt, rel_pairs. split.
  - destruct f as [|x f].
    + rewrite rel_pairs. intros [[[E|[]] ->]|[[E|[]] ->]]; injection E as <- <-; auto.
    + rewrite rel_map. intros [[K ->]|[[E|[]] ->]]; [auto|injection E as <- <-; auto].
  - intros [-> [[-> ->]|K]]; [right; split; [left|]; reflexivity|]. left. destruct f as [|x f]; [destruct K as [[]|[[] _]]|]. apply rel_map. auto.
Qed.
Lemma rel_consonant d i o w : rel (WCat (string_map (sd_consonant d)) (ques_safe (sd_subjoined_consonant d))) i o w <-> consonant_piece d i o /\ w = 0%N.
Proof.
  rewrite rel_cat. split.
  - intros (i1 & o1 & w1 & i2 & o2 & w2 & A & B & -> & -> & ->). apply rel_map in A as [A ->]. apply rel_ques in B as [-> B]. split; [|reflexivity].
    destruct B as [[-> ->]|B]; [rewrite !app_nil_r; apply cp_one; exact A|apply cp_two; assumption].
  - intros [K ->]. destruct K as [i o A|i o i' o' A B].
    + exists i, o, 0%N, [], [], 0%N. rewrite rel_map, rel_ques, !app_nil_r. auto 8.
    + exists i, o, 0%N, i', o', 0%N. rewrite rel_map, rel_ques. auto 8.
Qed.
Definition dot_vowel (d : script_data) : wt := WCat (insert [[46%N]]) (string_map (sd_vowel d)).
Lemma rel_dot_vowel d i o w : rel (dot_vowel d) i o w <-> exists v, row (sd_vowel d) i v /\ o = 46%N :: v /\ w = 0%N.
Proof.
  unfold dot_vowel. rewrite rel_cat. split.
  - intros (i1 & o1 & w1 & i2 & o2 & w2 & A & B & -> & -> & ->). apply rel_insert in A as (-> & [<-|[]] & ->). apply rel_map in B as [B ->]. exists o2. auto.
  - intros (v & K & -> & ->). exists [], [46%N], 0%N, i, v, 0%N. rewrite rel_insert, rel_map. repeat split; auto. left; reflexivity.
Qed.
Lemma rel_hiatus d i o w : rel (WStar (dot_vowel d)) i o w <-> w = 0%N /\ exists n, hiatus d n i o.
Proof.
  split.
  - intros H. remember (WStar (dot_vowel d)) as r eqn:E. induction H; try discriminate E.
    + split; [reflexivity|]. exists 0. constructor.
    + injection E as ->. apply rel_dot_vowel in H as (v & K & -> & ->). destruct (IHrel2 eq_refl) as [-> [n Q]]. split; [reflexivity|]. exists (S n). apply hi_more; assumption.
  - intros [-> [n H]]. induction H as [|n i o i' o' K H IH]; [constructor|]. change 0%N with (0 + 0)%N. constructor; [|exact IH]. apply rel_dot_vowel. exists o. auto.
Qed.
Lemma rel_plus d i o w : rel (w_plus (dot_vowel d)) i o w <-> w = 0%N /\ exists n, hiatus d (S n) i o.
Proof.
  unfold w_plus. rewrite rel_cat. split.
  - intros (i1 & o1 & w1 & i2 & o2 & w2 & A & B & -> & -> & ->). apply rel_dot_vowel in A as (v & K & -> & ->). apply rel_hiatus in B as [-> [n Q]].
    split; [reflexivity|]. exists n. apply hi_more; assumption.
  - intros [-> [n H]]. inversion H as [|m i1 o1 i2 o2 K Q]; subst. exists i1, (46%N :: o1), 0%N, i2, o2, 0%N. rewrite rel_dot_vowel, rel_hiatus.
    split; [exists o1; auto|]. split; [split; [reflexivity|exists n; exact Q]|]. auto.
Qed.

Lemma piece_eq d i o w i' o' w' : piece d i o w -> i' = i -> o' = o -> w' = w -> piece d i' o' w'.
Proof. intros H -> -> ->. exact H. Qed.
Lemma unit_piece d i o w : (exists u, In u (iso_units d) /\ rel u i o w) -> piece d i o w.
Proof.
  intros (u & K & R). unfold iso_units in K. cbv zeta in K. cbn [w_concat] in K. fold (dot_vowel d) in K. cbn [In] in K.
  repeat match type of K with _ \/ _ => destruct K as [<-|K] end; [..|destruct K];
  repeat match goal with
  | H : rel (WCat (string_map (sd_consonant d)) (ques_safe _)) _ _ _ |- _ => apply rel_consonant in H as [H ->]
  | H : rel (w_plus (dot_vowel d)) _ _ _ |- _ => apply rel_plus in H as [-> [? H]]
  | H : rel (WStar (dot_vowel d)) _ _ _ |- _ => apply rel_hiatus in H as [-> [? H]]
  | H : rel (string_map _) _ _ _ |- _ => apply rel_map in H as [H ->]
  | H : rel (insert (inputs _)) _ _ _ |- _ => apply rel_insert in H as (-> & H & ->); apply in_inputs in H as [? H]
  | H : rel (insert [_]) _ _ _ |- _ => apply rel_insert in H as (-> & [<-|[]] & ->)
  | H : rel (delete _) _ _ _ |- _ => apply rel_delete in H as (-> & H & ->); apply in_inputs in H as [? H]
  | H : rel (cross_to _ _) _ _ _ |- _ => apply rel_cross in H as (-> & H & ->); apply in_inputs in H as [? H]
  | H : rel (WEps _) _ _ _ |- _ => apply rel_eps in H as (-> & -> & ->)
  | H : rel (WCat _ _) _ _ _ |- _ => apply rel_cat in H as (? & ? & ? & ? & ? & ? & ? & H & -> & -> & ->)
  | H : rel common_symbol _ _ _ |- _ => apply rel_pairs in H as [H ->]
  end;
  try solve [
   eapply piece_eq; [first
    [ eapply pc_syllable; [eassumption|first [eapply nu_sign; eassumption|eapply nu_inherent; eassumption|eapply nu_virama; eassumption]|first [eassumption|apply hi_none]]
    | eapply pc_dangling_sign; [eassumption|eassumption]
    | eapply pc_vowel; [eassumption|first [eassumption|apply hi_none]]
    | eapply pc_coda; eassumption | eapply pc_dead; eassumption | eapply pc_length; eassumption | eapply pc_standalone; eassumption
    | eapply pc_dangling_virama; eassumption ]
   | cbn [app]; rewrite ?app_nil_r, <- ?app_assoc; cbn [app]; rewrite ?app_nil_r; reflexivity
   | cbn [app]; rewrite ?app_nil_r, <- ?app_assoc; cbn [app]; rewrite ?app_nil_r; reflexivity
   | reflexivity ] ].
  destruct R as [E|[E|[]]]; injection E as <- <-; [apply pc_non_joiner|apply pc_joiner].
Qed.
Ltac base := first [apply rel_consonant; split; [eassumption|reflexivity]
  | apply rel_plus; split; [reflexivity|eexists; eassumption]
  | apply rel_hiatus; split; [reflexivity|eexists; eassumption]
  | apply rel_map; split; [eassumption|reflexivity]
  | apply rel_insert; split; [reflexivity|split; [first [left; reflexivity|apply in_inputs; eexists; eassumption]|reflexivity]]
  | apply rel_delete; split; [reflexivity|split; [apply in_inputs; eexists; eassumption|reflexivity]]
  | apply rel_cross; split; [reflexivity|split; [apply in_inputs; eexists; eassumption|reflexivity]]
  | apply rel_eps; split; [reflexivity|split; reflexivity]
  | apply rel_pairs; split; [cbn [In]; tauto|reflexivity]].
Lemma rel_eq r i o w i' o' w' : rel r i o w -> i' = i -> o' = o -> w' = w -> rel r i' o' w'.
Proof. intros H -> -> ->. exact H. Qed.
Ltac tidy := cbn [app]; rewrite ?app_nil_r, <- ?app_assoc; cbn [app]; rewrite ?app_nil_r; reflexivity.
Ltac parts := lazymatch goal with
  | |- rel (WCat (string_map (sd_consonant _)) (ques_safe _)) _ _ _ => base
  | |- rel (w_plus _) _ _ _ => base
  | |- rel (WCat _ _) _ _ _ => eapply R_cat; [parts|parts]
  | |- _ => base end.
Tactic Notation "fill" integer(n) := eexists; split; [do n right; left; reflexivity|eapply rel_eq; [parts|tidy|tidy|reflexivity]].
Lemma piece_unit d i o w : piece d i o w -> exists u, In u (iso_units d) /\ rel u i o w.
Proof.
  unfold iso_units. cbv zeta. cbn [w_concat]. fold (dot_vowel d). cbn [In].
  intros [i1 o1 i2 o2 w2 n h h' C U H|i1 o1 n h h' K H|i1 o1 K|i1 o1 K|i1 o1 K|i1 o1 K|i1 o1 n h h' K H|v c K| |].
  - destruct U as [i2 o2 U|v c U|v c U]; (destruct n as [|n]; [inversion H; subst|]).
    + fill 0. + fill 12. + fill 1. + fill 14. + fill 2. + fill 13.
  - destruct n as [|n]; [inversion H; subst; fill 3|fill 11].
  - fill 4.
  - fill 5.
  - fill 6.
  - fill 7.
  - fill 8.
  - fill 9.
  - eexists. split; [do 10 right; left; reflexivity|]. apply rel_pairs. split; [cbn [In]; tauto|reflexivity].
  - eexists. split; [do 10 right; left; reflexivity|]. apply rel_pairs. split; [cbn [In]; tauto|reflexivity].
Qed.
Lemma iso_pieces d i o w : rel (iso_wt d) i o w <-> in_pieces d i o w.
Proof.
  unfold iso_wt. split.
  - intros H. remember (WStar (w_union (iso_units d))) as r eqn:E. induction H; try discriminate E; [constructor|]. injection E as ->.
    apply ip_more; [|apply IHrel2; reflexivity]. apply unit_piece, rel_union. exact H.
  - intros H. induction H as [|i o w i' o' w' P H IH]; constructor; [|exact IH]. apply rel_union, piece_unit. exact P.
Qed.
Local Open Scope N_scope.
Lemma units_example : rel (iso_wt data_Deva) [2325] [107; 97] 1 /\ rel (iso_wt data_Deva) [2325; 2311] [107; 97; 46; 105] 0 /\ rel (iso_wt data_Deva) [2325; 2381] [107] 1 /\
  rel (iso_wt data_Deva) [2367] [45; 105] 1 /\ ~ rel (iso_wt data_Deva) [2325] [107] 0.
Proof.
  assert (K : star_ok (iso_wt data_Deva) = true) by (vm_compute; reflexivity).
  assert (F : forall i o w, existsb (fun p => str_eqb (fst p) o && N.eqb (snd p) w) (outs (iso_wt data_Deva) i) = true <-> rel (iso_wt data_Deva) i o w).
  { intros i o w. rewrite <- (outs_rel _ _ _ _ K), existsb_exists. split.
    - intros ([x y] & I' & E). apply andb_true_iff in E as [E1 E2]. apply str_eqb_eq in E1. apply N.eqb_eq in E2. cbn in E1, E2. subst. exact I'.
    - intros I'. exists (o, w). split; [exact I'|]. cbn [fst snd]. rewrite (proj2 (str_eqb_eq o o) eq_refl), N.eqb_refl. reflexivity. }
  rewrite <- !F. repeat split; try (vm_compute; reflexivity). intros H. vm_compute in H. discriminate H.
Qed.
