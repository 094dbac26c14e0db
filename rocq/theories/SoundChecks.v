(** Checks of the phonemes and letters, made once, and what follows from them. *)
From Verif Require Import Base FeatureModel FeatureSpec ProfileModel ProfileSpec FeatureProofs ProfileProofs SoundTables SoundModel SoundDocs SoundSpec SoundProofs.
From Coq Require Import String Lia.
Local Open Scope list_scope.
Local Infix "+++" := String.append (at level 60, right associativity).
Local Open Scope string_scope.
Local Open Scope list_scope.

Definition page_b (st : symbols) (prefix : string) (aspects : list string) (page : list (string * list (list string))) : bool :=
  let names := map chars aspects in forallb (fun p => rows_b st (prefix +++ fst p) (combine names (snd p))) page.
Definition listed (l : list string) (s : string) : bool := existsb (String.eqb s) l.
Definition name_rows (name : string) : list (str * list string) :=
  (chars "type", ["abstract"]) :: map (fun r => (chars (fst r), snd r)) (described name).
Definition names_b (st : symbols) : bool :=
  forallb (fun p => if String.eqb (fst p) "oi" then negb (rows_b st ("x_uni." +++ fst p) (name_rows (snd p))) else rows_b st ("x_uni." +++ fst p) (name_rows (snd p))) phonemes.
(** Names and value sets of some symbols; None: one of them is not as it should be *)
Fixpoint sets_of (W : world) (st : symbols) (l : list string) : option (list (string * list (list nat))) :=
  match l with
  | [] => Some []
  | s :: r =>
    match find_symbol s st with
    | Some x => match value_sets W x with
                | Some us => if proper_b W (aspects W DESCRIPTIVE) us then match sets_of W st r with Some k => Some ((s, us) :: k) | None => None end else None
                | None => None
                end
    | None => None
    end
  end.
Definition is_pair (s t : string) (r : string * string) : bool :=
  if String.eqb ("x_uni." +++ fst r) s then String.eqb ("x_uni." +++ snd r) t else false.
Definition alike_b (W : world) (as_ : list nat) (ps : list (string * list (list nat))) : bool :=
  forallb (fun p => forallb (fun q => if zero_b W as_ (snd p) (snd q) then
    if String.eqb (fst p) (fst q) then true else if existsb (is_pair (fst p) (fst q)) look_alikes then true else existsb (is_pair (fst q) (fst p)) look_alikes
    else true) ps) ps.
Definition dist_b (W : world) (st : symbols) (s t : string) (d : Z) : bool := match sound_distance W st s t with Some e => Z.eqb d e | None => false end.
Definition far_b (W : world) (st : symbols) (s t : string) : bool := match sound_distance W st s t with Some e => (0 <? e)%Z | None => false end.
Definition some_eqb (a b : option Z) : bool := match a, b with Some x, Some y => Z.eqb x y | _, _ => false end.
Definition distances_b (W : world) : bool :=
  forallb (fun x => let '(asp, m, texts, rows) := x in
    existsb (fun a => if str_eqb (aspect_alias W a) (chars asp) then
      let fs := filter (fun f => same_aspect (aspect_of W f) (Some a)) (seq 0 (List.length feature_names)) in
      let gs := filter (fun f => negb (Nat.eqb f (any_of W a) || Nat.eqb f (na_of W a))) fs in
      if Z.eqb (max_dist (data W a)) m then if all_eqb String.eqb (map feature_text gs) texts then
        all_eqb (all_eqb some_eqb) (map (fun f => map (distance W f) gs) gs) (map (map Some) rows)
      else false else false else false) (aspects W DESCRIPTIVE)) distances_documented.
(** The values of each aspect of [l] are those of the [ss]. *)
Definition subset_b (a b : list string) : bool := forallb (fun s => listed b s) a.
Fixpoint row_values (asp : str) (rows : list (str * list string)) : list string :=
  match rows with [] => [] | (a, vs) :: r => if str_eqb asp a then vs ++ row_values asp r else row_values asp r end.
Fixpoint all_rows (st : symbols) (l : list string) : option (list (list (str * list string))) :=
  match l with
  | [] => Some []
  | s :: r => match table_rows st s, all_rows st r with Some a, Some b => Some (a :: b) | _, _ => None end
  end.
Definition union_b (st : symbols) (l : string) (ss : list string) : bool :=
  match table_rows st l, all_rows st ss with
  | Some rows, Some rowss =>
    forallb (fun asp => let a := row_values (chars asp) rows in let b := flat_map (row_values (chars asp)) rowss in
      if subset_b a b then subset_b b a else false) sound_aspects
  | _, _ => false
  end.
Definition case_b (st : symbols) (prefix l : string) : bool :=
  match table_rows st (prefix +++ l), table_rows st (prefix +++ l +++ "_upper") with
  | Some a, Some b => all_eqb (fun x y => if str_eqb (fst x) (fst y) then if str_eqb (fst x) (chars "case") then
      if all_eqb String.eqb (snd x) ["lower"] then all_eqb String.eqb (snd y) ["upper"] else false else all_eqb String.eqb (snd x) (snd y) else false) a b
  | _, _ => false
  end.
Definition part0 (W : world) (st : symbols) : bool := page_b st "x_uni." x_uni_aspects_documented x_uni_documented.
Definition part1 (W : world) (st : symbols) : bool := page_b st "latn." latn_aspects_documented latn_documented.
Definition part2 (W : world) (st : symbols) : bool := page_b st "en." en_latn_aspects_documented en_latn_documented.
Definition part3 (W : world) (st : symbols) : bool := subset_b (map fst st) (page_names pages).
Definition part4 (W : world) (st : symbols) : bool := names_b st.
Definition part5 (W : world) (st : symbols) : bool := match sets_of W st (map fst st) with Some _ => true | None => false end.
Definition part6 (W : world) (st : symbols) : bool := match sets_of W st (map (fun p => "x_uni." +++ fst p) phonemes) with Some k => alike_b W (aspects W DESCRIPTIVE) k | None => false end.
Definition part7 (W : world) (st : symbols) : bool := forallb (fun r => dist_b W st ("x_uni." +++ fst r) ("x_uni." +++ snd r) 0) look_alikes.
Definition part8 (W : world) (st : symbols) : bool := distances_b W.
Definition part9 (W : world) (st : symbols) : bool := forallb (fun r => union_b st ("en." +++ fst r) (snd r)) en_sounds.
Definition part10 (W : world) (st : symbols) : bool := forallb (fun r => forallb (fun s => dist_b W st ("en." +++ fst r) s 0) (snd r)) en_sounds.
Definition part11 (W : world) (st : symbols) : bool := forallb (case_b st "latn.") latn_letters.
Definition part12 (W : world) (st : symbols) : bool := forallb (case_b st "en.") latn_letters.
Definition part13 (W : world) (st : symbols) : bool := forallb (fun l => if String.eqb l "r" then far_b W st ("latn." +++ l) ("en." +++ l) else dist_b W st ("latn." +++ l) ("en." +++ l) 0) latn_letters.
Definition part14 (W : world) (st : symbols) : bool := forallb (fun l => if listed unlike_phoneme l then far_b W st ("latn." +++ l) ("x_uni." +++ l) else dist_b W st ("latn." +++ l) ("x_uni." +++ l) 0) latn_letters.
Definition part15 (W : world) (st : symbols) : bool := forallb (fun p => far_b W st "latn.r" ("x_uni." +++ fst p)) phonemes.
Definition part16 (W : world) (st : symbols) : bool := forallb (fun x => let '(s, t, d) := x in dist_b W st s t d) samples.
Definition checks (W : world) (st : symbols) : bool :=
  if part0 W st then
  if part1 W st then
  if part2 W st then
  if part3 W st then
  if part4 W st then
  if part5 W st then
  if part6 W st then
  if part7 W st then
  if part8 W st then
  if part9 W st then
  if part10 W st then
  if part11 W st then
  if part12 W st then
  if part13 W st then
  if part14 W st then
  if part15 W st then
  part16 W st else false else false else false else false else false else false else false else false else false else false else false else false else false else false else false else false.
Lemma checks_parts W st : checks W st = true -> part0 W st = true /\ part1 W st = true /\ part2 W st = true /\ part3 W st = true /\ part4 W st = true /\ part5 W st = true /\ part6 W st = true /\ part7 W st = true /\ part8 W st = true /\ part9 W st = true /\ part10 W st = true /\ part11 W st = true /\ part12 W st = true /\ part13 W st = true /\ part14 W st = true /\ part15 W st = true /\ part16 W st = true.
Proof.
  unfold checks.
  destruct (part0 W st); [|discriminate].
  destruct (part1 W st); [|discriminate].
  destruct (part2 W st); [|discriminate].
  destruct (part3 W st); [|discriminate].
  destruct (part4 W st); [|discriminate].
  destruct (part5 W st); [|discriminate].
  destruct (part6 W st); [|discriminate].
  destruct (part7 W st); [|discriminate].
  destruct (part8 W st); [|discriminate].
  destruct (part9 W st); [|discriminate].
  destruct (part10 W st); [|discriminate].
  destruct (part11 W st); [|discriminate].
  destruct (part12 W st); [|discriminate].
  destruct (part13 W st); [|discriminate].
  destruct (part14 W st); [|discriminate].
  destruct (part15 W st); [|discriminate].
  intros C. repeat (split; [reflexivity|]). exact C.
Qed.
Definition base0 (W : world) : bool := forallb entry_b all_entries.
Definition base1 (W : world) : bool := forallb (belongs all_entries) (seq 0 (List.length (of_features all_entries))).
Definition base2 (W : world) : bool := forallb (fun e => Nat.ltb (e_inventory e) 3) all_entries.
Definition base3 (W : world) : bool := forallb (listed_b W) (seq 0 (List.length (of_features all_entries))).
Definition base4 (W : world) : bool := forallb (named_inv W sound_attributes) (seq 0 3).
Definition base5 (W : world) : bool := Z.eqb (largest W) 94.
Definition base6 (W : world) : bool := Nat.eqb (List.length (of_features all_entries)) (List.length feature_names).
Definition world_checks (W : world) : bool :=
  if base0 W then
  if base1 W then
  if base2 W then
  if base3 W then
  if base4 W then
  if base5 W then
  base6 W else false else false else false else false else false else false.
Lemma world_parts W : world_checks W = true -> base0 W = true /\ base1 W = true /\ base2 W = true /\ base3 W = true /\ base4 W = true /\ base5 W = true /\ base6 W = true.
Proof.
  unfold world_checks.
  destruct (base0 W); [|discriminate].
  destruct (base1 W); [|discriminate].
  destruct (base2 W); [|discriminate].
  destruct (base3 W); [|discriminate].
  destruct (base4 W); [|discriminate].
  destruct (base5 W); [|discriminate].
  intros C. repeat (split; [reflexivity|]). exact C.
Qed.
Definition all_checks (o : option (world * symbols)) : bool := match o with Some (W, st) => if world_checks W then checks W st else false | None => false end.
Lemma all_checks_true : all_checks sounds = true.
Proof. vm_cast_no_check (eq_refl true). Qed.
Lemma all_checks_some o : all_checks o = true -> exists W st, o = Some (W, st).
Proof. destruct o as [[W st]|]; [eauto|discriminate]. Qed.
Lemma all_checks_of o W st : all_checks o = true -> o = Some (W, st) -> world_checks W = true /\ checks W st = true.
Proof. intros C ->. unfold all_checks in C. destruct (world_checks W); [auto|discriminate]. Qed.

Lemma if_true (a b : bool) : (if a then b else false) = true -> a = true /\ b = true.
Proof. destruct a; [auto|discriminate]. Qed.
Lemma if_some {A} (o : option A) (f : A -> bool) : (match o with Some x => f x | None => false end) = true -> exists x, o = Some x /\ f x = true.
Proof. destruct o as [x|]; [eauto|discriminate]. Qed.
Lemma sounds_some : exists W st, sounds = Some (W, st).
Proof. exact (all_checks_some sounds all_checks_true). Qed.
Lemma listed_spec l s : listed l s = true <-> In s l.
Proof.
  unfold listed. rewrite existsb_exists. split.
  - intros (t & I' & E). apply String.eqb_eq in E. subst. auto.
  - intros I'. exists s. split; auto. apply String.eqb_refl.
Qed.
Lemma subset_spec a b : subset_b a b = true <-> incl a b.
Proof. unfold subset_b. rewrite forallb_forall. split; intros H s I'; [apply listed_spec|rewrite listed_spec]; auto. Qed.
Lemma find_listed s st : find_symbol s st <> None <-> In s (map fst st).
Proof.
  induction st as [|[t m] r IH]; cbn; [tauto|]. destruct (String.eqb_spec s t) as [->|N].
  - split; [auto|discriminate].
  - rewrite IH. intuition congruence.
Qed.
Lemma row_values_spec asp rows v : In v (row_values asp rows) <-> has_value rows asp v.
Proof.
  unfold has_value. induction rows as [|[a vs] r IH]; cbn [row_values].
  - split; [intros []|intros (vs & [] & _)].
  - destruct (str_eqb asp a) eqn:E.
    + apply str_eqb_iff in E. subst a. rewrite in_app_iff, IH. split.
      * intros [I'|(ws & I' & J)]; [exists vs|exists ws]; split; auto; [left; auto|right; auto].
      * intros (ws & [F|I'] & J); [injection F as <-; auto|right; eauto].
    + rewrite IH. split; intros (ws & I' & J); exists ws; (split; [|auto]).
      * right. auto.
      * destruct I' as [F|I']; auto. injection F as -> <-. rewrite (proj2 (str_eqb_iff asp asp) eq_refl) in E. discriminate.
Qed.
Lemma all_rows_spec st : forall ss rowss, all_rows st ss = Some rowss -> forall rows, In rows rowss <-> exists s, In s ss /\ table_rows st s = Some rows.
Proof.
  induction ss as [|s r IH]; intros rowss E rows; cbn in E.
  - injection E as <-. split; [intros []|intros (s & [] & _)].
  - destruct (table_rows st s) as [a|] eqn:A; [|discriminate]. destruct (all_rows st r) as [b|] eqn:Q; [|discriminate]. injection E as <-. cbn [In]. rewrite (IH b eq_refl). split.
    + intros [->|(t & I' & J)]; [exists s|exists t]; auto.
    + intros (t & [->|I'] & J); [left; congruence|right; eauto].
Qed.
Lemma union_spec st l ss : union_b st l ss = true -> forall asp v, In asp sound_aspects ->
  (exists rows, table_rows st l = Some rows /\ has_value rows (chars asp) v) <->
  (exists s rows, In s ss /\ table_rows st s = Some rows /\ has_value rows (chars asp) v).
Proof.
  unfold union_b. destruct (table_rows st l) as [rows|]; [|discriminate]. destruct (all_rows st ss) as [rowss|] eqn:R; [|discriminate]. intros H asp v Ia.
  rewrite forallb_forall in H. specialize (H asp Ia). cbv zeta in H. apply if_true in H. destruct H as [H1 H2]. rewrite subset_spec in H1, H2.
  specialize (H1 v). specialize (H2 v). rewrite row_values_spec in H1, H2. rewrite in_flat_map in H1, H2. split.
  - intros (rs & E & Hv). injection E as <-. destruct (H1 Hv) as (rs & I' & J). apply row_values_spec in J. destruct (proj1 (all_rows_spec st ss rowss R rs) I') as (s & Is & T). eauto.
  - intros (s & rs & Is & T & Hv). exists rows. split; auto. apply H2. exists rs. split; [apply (all_rows_spec st ss rowss R); eauto|apply row_values_spec; auto].
Qed.
Lemma dist_spec W st s t d : dist_b W st s t d = true -> sound_distance W st s t = Some d.
Proof. unfold dist_b. destruct (sound_distance W st s t) as [e|]; [|discriminate]. intros E. apply Z.eqb_eq in E. congruence. Qed.
Lemma far_spec W st s t : far_b W st s t = true -> exists d, sound_distance W st s t = Some d /\ (0 < d)%Z.
Proof. unfold far_b. destruct (sound_distance W st s t) as [e|]; [|discriminate]. intros E. apply Z.ltb_lt in E. eauto. Qed.
Lemma sets_of_in W st : forall l k, sets_of W st l = Some k -> forall s, In s l -> exists x us, find_symbol s st = Some x /\ value_sets W x = Some us /\ proper W (aspects W DESCRIPTIVE) us /\ In (s, us) k.
Proof.
  induction l as [|t r IH]; intros k E s; [intros []|]. cbn [sets_of] in E. destruct (find_symbol t st) as [x|] eqn:F; [|discriminate]. destruct (value_sets W x) as [us|] eqn:V; [|discriminate].
  destruct (proper_b W (aspects W DESCRIPTIVE) us) eqn:P; [|discriminate]. destruct (sets_of W st r) as [k'|]; [|discriminate]. injection E as <-. intros [->|I'].
  - exists x, us. split; auto. split; auto. split; [apply proper_b_spec; auto|left; auto].
  - destruct (IH k' eq_refl s I') as (y & vs & A1 & A2 & A3 & A4). exists y, vs. repeat (split; auto). right. auto.
Qed.
Lemma is_pair_spec s t r : is_pair ("x_uni." +++ s) ("x_uni." +++ t) r = true <-> r = (s, t).
Proof.
  assert (forall a b, "x_uni." +++ a = "x_uni." +++ b -> a = b) as Inj by (intros a b E; injection E; auto).
  unfold is_pair. destruct r as [a b]. cbn [fst snd]. destruct (String.eqb_spec ("x_uni." +++ a) ("x_uni." +++ s)) as [E|E].
  - apply Inj in E. rewrite String.eqb_eq. split; [intros F; apply Inj in F; congruence|congruence].
  - split; [discriminate|congruence].
Qed.
Lemma has_pair s t : existsb (is_pair ("x_uni." +++ s) ("x_uni." +++ t)) look_alikes = true <-> In (s, t) look_alikes.
Proof.
  rewrite existsb_exists. split.
  - intros (r & I' & E). apply is_pair_spec in E. congruence.
  - intros I'. exists (s, t). split; auto. apply is_pair_spec. auto.
Qed.

Lemma made_of es W st : sounds_of es = Some (W, st) -> exists table, all_aspects es = Some table /\ W = make_world es table.
Proof.
  unfold sounds_of. destruct (all_aspects es) as [table|]; [|discriminate]. cbv zeta. intros E. exists table. split; auto.
  destruct (build_sounds es (make_world es table)); [|discriminate]. cbn [option_map] in E. congruence.
Qed.

Lemma make_bounded es table f a : aspect_of (make_world es table) f = Some a -> In f (seq 0 (List.length (of_features es))).
Proof.
  intros E. cbn [make_world aspect_of] in E. fold (of_features es) in E. apply in_seq. split; [lia|].
  destruct (le_lt_dec (List.length (of_features es)) f); [|lia]. rewrite nth_overflow in E; [discriminate|auto].
Qed.
Lemma make_empty es table : forallb (fun e => Nat.ltb (e_inventory e) 3) es = true -> forall i, 3 <= i -> aspects (make_world es table) i = [].
Proof.
  intros C3 i L. cbn [make_world aspects]. generalize (seq 0 (List.length es)). intros l.
  induction l as [|a l IH]; auto. cbn [filter]. destruct (nth_error es a) as [e|] eqn:E; [|auto]. rewrite forallb_forall in C3. specialize (C3 e (nth_error_In _ _ E)). apply Nat.ltb_lt in C3.
  destruct (Nat.eqb_spec (e_inventory e) i); [lia|auto].
Qed.

Section Sounds.
  Variables (W : world) (st : symbols).
  Hypothesis So : sounds = Some (W, st).

  Lemma both_checked : world_checks W = true /\ checks W st = true.
  Proof. exact (all_checks_of sounds W st all_checks_true So). Qed.
  Lemma world_made : exists table, all_aspects all_entries = Some table /\ W = make_world all_entries table.
  Proof. exact (made_of all_entries W st So). Qed.
  Lemma world_built : built W.
  Proof.
    destruct (world_parts W (proj1 both_checked)) as (C1 & C2 & _). destruct world_made as (table & T & ->). exact (built_world all_entries table T C1 C2).
  Qed.
  Lemma of_bounded f a : aspect_of W f = Some a -> In f (seq 0 (List.length (of_features all_entries))).
  Proof. destruct world_made as (table & T & ->). exact (make_bounded all_entries table f a). Qed.
  Lemma world_named : well_named W sound_attributes.
  Proof.
    destruct (world_parts W (proj1 both_checked)) as (_ & _ & C3 & C4 & C5 & _).
    apply (named_world W sound_attributes 3 (seq 0 (List.length (of_features all_entries))) of_bounded); [|exact C4|exact C5].
    destruct world_made as (table & T & ->). exact (make_empty all_entries table C3).
  Qed.
  Lemma largest_94 : largest W = 94%Z.
  Proof. destruct (world_parts W (proj1 both_checked)) as (_ & _ & _ & _ & _ & C & _). apply Z.eqb_eq. exact C. Qed.
  Lemma known_sets s : In s (map fst st) -> exists x us, find_symbol s st = Some x /\ value_sets W x = Some us /\ proper W (aspects W DESCRIPTIVE) us.
  Proof.
    intros I'. destruct (checks_parts W st (proj2 both_checked)) as (_ & _ & _ & _ & _ & C & _). unfold part5 in C. destruct (sets_of W st (map fst st)) as [k|] eqn:K; [|discriminate]. destruct (sets_of_in W st _ _ K s I') as (x & us & A1 & A2 & A3 & _). eauto.
  Qed.
  Lemma metric s t : In s (map fst st) -> In t (map fst st) ->
    exists d, sound_distance W st s t = Some d /\ sound_distance W st t s = Some d /\ (0 <= d <= 94)%Z /\ (s = t -> d = 0%Z).
  Proof.
    intros Is It. destruct (known_sets s Is) as (x & us & A1 & A2 & A3). destruct (known_sets t It) as (y & vs & B1 & B2 & B3).
    assert (largest W <> 0%Z) as NZ by (rewrite largest_94; discriminate).
    rewrite (distance_sets W st s t x y us vs), (distance_sets W st t s y x vs us); auto.
    destruct (total_bounds W world_built _ us vs A3 B3) as (d & E & R). exists d. split; auto. split; [rewrite (total_sound_sym W world_built); auto|].
    split; [change (total_max W (aspects W DESCRIPTIVE)) with (largest W) in R; rewrite largest_94 in R; auto|].
    intros <-. rewrite A1 in B1. injection B1 as <-. rewrite A2 in B2. injection B2 as <-. rewrite (total_self W world_built) in E; auto. congruence.
  Qed.
  Lemma page_rows prefix asps page : page_b st prefix asps page = true -> forall s rows, In (s, rows) page -> table_rows st (prefix +++ s) = Some (combine (map chars asps) rows).
  Proof. unfold page_b. intros H s rows I'. rewrite forallb_forall in H. specialize (H _ I'). apply rows_b_spec. exact H. Qed.
  Lemma x_uni_page s rows : In (s, rows) x_uni_documented -> table_rows st ("x_uni." +++ s) = Some (combine (map chars x_uni_aspects_documented) rows).
  Proof. apply page_rows. destruct (checks_parts W st (proj2 both_checked)) as (C & _). unfold part0 in C. exact C. Qed.
  Lemma latn_page s rows : In (s, rows) latn_documented -> table_rows st ("latn." +++ s) = Some (combine (map chars latn_aspects_documented) rows).
  Proof. apply page_rows. destruct (checks_parts W st (proj2 both_checked)) as (_ & C & _). unfold part1 in C. exact C. Qed.
  Lemma en_page s rows : In (s, rows) en_latn_documented -> table_rows st ("en." +++ s) = Some (combine (map chars en_latn_aspects_documented) rows).
  Proof. apply page_rows. destruct (checks_parts W st (proj2 both_checked)) as (_ & _ & C & _). unfold part2 in C. exact C. Qed.
  Lemma rows_found s rows : table_rows st s = Some rows -> In s (map fst st).
  Proof. unfold table_rows. intros E. apply find_listed. destruct (find_symbol s st); [discriminate|discriminate E]. Qed.
  Lemma in_pages s : In s (page_names pages) <-> exists p, In p pages /\ exists r, In r (snd p) /\ s = fst p +++ fst r.
  Proof.
    unfold page_names. rewrite in_flat_map. split; intros (p & I' & H); exists p; (split; [auto|]).
    - apply in_map_iff in H. destruct H as (r & <- & J). eauto.
    - destruct H as (r & J & ->). apply (in_map (fun r => fst p +++ fst r)). auto.
  Qed.
  Lemma known s : In s (map fst st) <-> In s (page_names pages).
  Proof.
    split.
    - destruct (checks_parts W st (proj2 both_checked)) as (_ & _ & _ & C & _). unfold part3 in C. exact (proj1 (subset_spec _ _) C s).
    - intros I'. destruct (proj1 (in_pages s) I') as (p & Ip & (l & rows) & Ir & ->). cbn [fst].
      destruct Ip as [<-|[<-|[<-|[]]]]; cbn [fst snd] in *; eapply rows_found; [apply x_uni_page|apply latn_page|apply en_page]; eauto.
  Qed.
  Lemma names s name : In (s, name) phonemes -> s <> "oi" -> table_rows st ("x_uni." +++ s) = Some (name_rows name).
  Proof.
    intros I' N. destruct (checks_parts W st (proj2 both_checked)) as (_ & _ & _ & _ & C & _). unfold part4 in C. unfold names_b in C. rewrite forallb_forall in C. specialize (C _ I'). cbn [fst snd] in C. destruct (String.eqb_spec s "oi"); [contradiction|]. apply rows_b_spec. exact C.
  Qed.
  Lemma oi_wrong name : In ("oi", name) phonemes -> table_rows st "x_uni.oi" <> Some (name_rows name).
  Proof.
    intros I' E. destruct (checks_parts W st (proj2 both_checked)) as (_ & _ & _ & _ & C & _). unfold part4 in C. unfold names_b in C. rewrite forallb_forall in C. specialize (C _ I'). cbn [fst snd] in C. cbn [String.append] in C. rewrite String.eqb_refl in C. unfold rows_b in C. rewrite E in C.
    apply Bool.negb_true_iff in C. revert C. generalize (name_rows name). intros l C. assert (forall a, row_eqb a a = true) as R.
    { intros [a x]. unfold row_eqb. cbn. rewrite (proj2 (str_eqb_iff a a) eq_refl). induction x as [|y x IH]; cbn; auto. rewrite String.eqb_refl. auto. }
    induction l as [|r l IH]; cbn in C; [discriminate|]. rewrite R in C. auto.
  Qed.
  Lemma phoneme_known s name : In (s, name) phonemes -> In ("x_uni." +++ s) (map fst st).
  Proof.
    intros I'. destruct (checks_parts W st (proj2 both_checked)) as (_ & _ & _ & _ & _ & _ & C & _). unfold part6 in C. destruct (sets_of W st (map (fun p => "x_uni." +++ fst p) phonemes)) as [k|] eqn:K; [|discriminate].
    destruct (sets_of_in W st _ _ K ("x_uni." +++ s)) as (x & us & A1 & _); [apply (in_map (fun p => "x_uni." +++ fst p) phonemes (s, name)); auto|]. apply find_listed. congruence.
  Qed.
  Lemma alike s t m n : In (s, m) phonemes -> In (t, n) phonemes -> s <> t ->
    sound_distance W st ("x_uni." +++ s) ("x_uni." +++ t) = Some 0%Z <-> In (s, t) look_alikes \/ In (t, s) look_alikes.
  Proof.
    intros Is It N. assert (forall a b, In (a, b) look_alikes -> sound_distance W st ("x_uni." +++ a) ("x_uni." +++ b) = Some 0%Z) as Z0.
    { intros a b I'. destruct (checks_parts W st (proj2 both_checked)) as (_ & _ & _ & _ & _ & _ & _ & C & _). unfold part7 in C. rewrite forallb_forall in C. specialize (C _ I'). cbn [fst snd] in C. apply dist_spec. exact C. }
    split.
    - intros E. destruct (checks_parts W st (proj2 both_checked)) as (_ & _ & _ & _ & _ & _ & C & _). unfold part6 in C. destruct (sets_of W st (map (fun p => "x_uni." +++ fst p) phonemes)) as [k|] eqn:K; [|discriminate].
      destruct (sets_of_in W st _ _ K ("x_uni." +++ s)) as (x & us & A1 & A2 & A3 & A4); [apply (in_map (fun p => "x_uni." +++ fst p) phonemes (s, m)); auto|].
      destruct (sets_of_in W st _ _ K ("x_uni." +++ t)) as (y & vs & B1 & B2 & B3 & B4); [apply (in_map (fun p => "x_uni." +++ fst p) phonemes (t, n)); auto|].
      rewrite (distance_sets W st _ _ x y us vs) in E by (auto; rewrite largest_94; discriminate). apply (zero_b_spec W world_built) in E; auto.
      unfold alike_b in C. rewrite forallb_forall in C. specialize (C _ A4). rewrite forallb_forall in C. specialize (C _ B4). cbn [fst snd] in C. rewrite E in C.
      destruct (String.eqb_spec ("x_uni." +++ s) ("x_uni." +++ t)) as [F|_]; [injection F as ->; congruence|].
      destruct (existsb (is_pair ("x_uni." +++ s) ("x_uni." +++ t)) look_alikes) eqn:X; [left|right]; apply has_pair; auto.
    - intros [H|H]; [auto|]. apply Z0 in H. destruct (metric ("x_uni." +++ t) ("x_uni." +++ s)) as (d & D1 & D2 & _); [eapply phoneme_known; eauto|eapply phoneme_known; eauto|]. congruence.
  Qed.
  Lemma distance_tables asp m texts rows : In (asp, m, texts, rows) distances_documented -> exists a fs,
    In a (aspects W DESCRIPTIVE) /\ aspect_alias W a = chars asp /\ max_dist (data W a) = m /\
    (forall f, In f fs -> aspect_of W f = Some a) /\ (forall f, aspect_of W f = Some a -> In f fs \/ f = any_of W a \/ f = na_of W a) /\
    map feature_text fs = texts /\ map (fun f => map (distance W f) fs) fs = map (map Some) rows.
  Proof.
    intros I'. destruct (checks_parts W st (proj2 both_checked)) as (_ & _ & _ & _ & _ & _ & _ & _ & C & _). unfold part8 in C. unfold distances_b in C. rewrite forallb_forall in C. specialize (C _ I'). cbv beta iota in C.
    apply existsb_exists in C. destruct C as (a & Ia & C). cbv zeta in C.
    apply if_true in C. destruct C as [C1 C]. apply if_true in C. destruct C as [C2 C]. apply if_true in C. destruct C as [C3 C].
    exists a. eexists. split; [exact Ia|]. split; [apply str_eqb_iff; auto|]. split; [apply Z.eqb_eq; exact C2|]. split; [|split; [|split]].
    3:{ apply all_eqb_eq in C3; [exact C3|]. intros x y E. apply String.eqb_eq. exact E. }
    3:{ apply all_eqb_eq in C; [exact C|]. intros x y E. apply all_eqb_eq in E; auto. intros [p|] [q|] F; try discriminate F. apply Z.eqb_eq in F. congruence. }
    - intros f F. apply filter_In in F. destruct F as [F _]. apply filter_In in F. destruct F as [_ F]. apply same_aspect_eq. exact F.
    - intros f F. destruct (Nat.eqb_spec f (any_of W a)) as [|Na]; [auto|]. destruct (Nat.eqb_spec f (na_of W a)) as [|Nn]; [auto|]. left. apply filter_In. split.
      + apply filter_In. split; [|apply same_aspect_eq; auto]. apply in_seq. split; [lia|].
        apply of_bounded in F. destruct (world_parts W (proj1 both_checked)) as (_ & _ & _ & _ & _ & _ & Q). unfold base6 in Q. apply Nat.eqb_eq in Q. rewrite Q in F. apply in_seq in F. apply F.
      + destruct (Nat.eqb_spec f (any_of W a)); [contradiction|]. destruct (Nat.eqb_spec f (na_of W a)); [contradiction|]. reflexivity.
  Qed.
  Lemma english l ss asp v : In (l, ss) en_sounds -> In asp sound_aspects ->
    (exists rows, table_rows st ("en." +++ l) = Some rows /\ has_value rows (chars asp) v) <->
    (exists s rows, In s ss /\ table_rows st s = Some rows /\ has_value rows (chars asp) v).
  Proof.
    intros I' Ia. destruct (checks_parts W st (proj2 both_checked)) as (_ & _ & _ & _ & _ & _ & _ & _ & _ & C & _). unfold part9 in C. rewrite forallb_forall in C. specialize (C _ I'). cbn [fst snd] in C. exact (union_spec st _ _ C asp v Ia).
  Qed.
  Lemma english_near l ss s : In (l, ss) en_sounds -> In s ss -> sound_distance W st ("en." +++ l) s = Some 0%Z.
  Proof.
    intros I' J. destruct (checks_parts W st (proj2 both_checked)) as (_ & _ & _ & _ & _ & _ & _ & _ & _ & _ & C & _). unfold part10 in C. rewrite forallb_forall in C. specialize (C _ I'). rewrite forallb_forall in C. specialize (C _ J). apply dist_spec. exact C.
  Qed.
  Lemma strings_eqb a b : all_eqb String.eqb a b = true -> a = b.
  Proof. intros H. apply all_eqb_eq in H; auto. intros x y E. apply String.eqb_eq. exact E. Qed.
  Lemma case_spec prefix l : case_b st prefix l = true -> exists a b, table_rows st (prefix +++ l) = Some a /\ table_rows st (prefix +++ l +++ "_upper") = Some b /\ same_but_case (chars "case") a b.
  Proof.
    unfold case_b. destruct (table_rows st (prefix +++ l)) as [a|]; [|discriminate]. destruct (table_rows st (prefix +++ l +++ "_upper")) as [b|]; [|discriminate]. intros H. exists a, b. split; auto. split; auto.
    revert b H. induction a as [|x a IH]; intros [|y b] H; try discriminate H; [constructor|]. cbn [all_eqb] in H. apply if_true in H. destruct H as [H1 H]. constructor; [|apply IH; exact H].
    apply if_true in H1. destruct H1 as [E H1]. split; [apply str_eqb_iff; exact E|]. destruct (str_eqb (fst x) (chars "case")).
    - apply if_true in H1. destruct H1 as [P Q]. split; apply strings_eqb; auto.
    - apply strings_eqb. exact H1.
  Qed.
  Lemma latn_case l : In l latn_letters -> exists a b, table_rows st ("latn." +++ l) = Some a /\ table_rows st ("latn." +++ l +++ "_upper") = Some b /\ same_but_case (chars "case") a b.
  Proof. intros I'. destruct (checks_parts W st (proj2 both_checked)) as (_ & _ & _ & _ & _ & _ & _ & _ & _ & _ & _ & C & _). unfold part11 in C. rewrite forallb_forall in C. apply case_spec. exact (C _ I'). Qed.
  Lemma en_case l : In l latn_letters -> exists a b, table_rows st ("en." +++ l) = Some a /\ table_rows st ("en." +++ l +++ "_upper") = Some b /\ same_but_case (chars "case") a b.
  Proof. intros I'. destruct (checks_parts W st (proj2 both_checked)) as (_ & _ & _ & _ & _ & _ & _ & _ & _ & _ & _ & _ & C & _). unfold part12 in C. rewrite forallb_forall in C. apply case_spec. exact (C _ I'). Qed.
  Lemma latin_english l : In l latn_letters -> (sound_distance W st ("latn." +++ l) ("en." +++ l) = Some 0%Z <-> l <> "r").
  Proof.
    intros I'. destruct (checks_parts W st (proj2 both_checked)) as (_ & _ & _ & _ & _ & _ & _ & _ & _ & _ & _ & _ & _ & C & _). unfold part13 in C. rewrite forallb_forall in C. specialize (C _ I'). cbv beta in C. destruct (String.eqb_spec l "r") as [E|E].
    - apply far_spec in C. destruct C as (d & D & P). rewrite D. split; [intros X; injection X; lia|contradiction].
    - apply dist_spec in C. tauto.
  Qed.
  Lemma latin_phoneme l : In l latn_letters -> (sound_distance W st ("latn." +++ l) ("x_uni." +++ l) = Some 0%Z <-> ~ In l unlike_phoneme).
  Proof.
    intros I'. destruct (checks_parts W st (proj2 both_checked)) as (_ & _ & _ & _ & _ & _ & _ & _ & _ & _ & _ & _ & _ & _ & C & _). unfold part14 in C. rewrite forallb_forall in C. specialize (C _ I'). cbv beta in C. rewrite <- listed_spec. destruct (listed unlike_phoneme l).
    - apply far_spec in C. destruct C as (d & D & P). rewrite D. split; [intros X; injection X; lia|intros X; contradiction X; auto].
    - apply dist_spec in C. split; [discriminate|auto].
  Qed.
  Lemma latin_r s name : In (s, name) phonemes -> exists d, sound_distance W st "latn.r" ("x_uni." +++ s) = Some d /\ (0 < d)%Z.
  Proof. intros I'. destruct (checks_parts W st (proj2 both_checked)) as (_ & _ & _ & _ & _ & _ & _ & _ & _ & _ & _ & _ & _ & _ & _ & C & _). unfold part15 in C. rewrite forallb_forall in C. specialize (C _ I'). apply far_spec. exact C. Qed.
  Lemma sampled s t d : In (s, t, d) samples -> sound_distance W st s t = Some d.
  Proof. intros I'. destruct (checks_parts W st (proj2 both_checked)) as (_ & _ & _ & _ & _ & _ & _ & _ & _ & _ & _ & _ & _ & _ & _ & _ & C). unfold part16 in C. rewrite forallb_forall in C. specialize (C _ I'). apply dist_spec. exact C. Qed.
End Sounds.
Lemma oi_refuted W st : sounds = Some (W, st) -> exists s name, In (s, name) phonemes /\
  table_rows st ("x_uni." +++ s) <> Some (name_rows name).
Proof. intros So. assert (In ("oi", "close_mid front rounded vowel") phonemes) as I'.
  { unfold phonemes. apply in_or_app. left. unfold x_uni_vowels. repeat (first [left; reflexivity|right]). }
  exists "oi", "close_mid front rounded vowel". split; [exact I'|exact (oi_wrong W st So _ I')].
Qed.
Lemma triangle_refuted W st : sounds = Some (W, st) -> exists s t u d e f,
  sound_distance W st s t = Some d /\ sound_distance W st t u = Some e /\ sound_distance W st s u = Some f /\ (d + e < f)%Z.
Proof.
  intros So. exists "x_uni.t", "x_uni.tt", "x_uni.k", 0%Z, 4%Z, 6%Z.
  split; [apply (sampled W st So); cbn; auto 10|]. split; [apply (sampled W st So); cbn; auto 10|]. split; [apply (sampled W st So); cbn; auto 10|]. lia.
Qed.
Lemma other_sound_refuted W st : sounds = Some (W, st) -> exists l ss s,
  In (l, ss) en_sounds /\ ~ In ("x_uni." +++ s) ss /\ In s (map fst phonemes) /\ sound_distance W st ("en." +++ l) ("x_uni." +++ s) = Some 0%Z.
Proof.
  intros So. exists "c", ["x_uni.s"; "x_uni.k"], "t". split; [unfold en_sounds; cbn; auto 10|]. split; [cbn; intuition discriminate|]. split.
  - apply (proj1 (listed_spec _ _)). vm_compute. reflexivity.
  - apply (sampled W st So); cbn; auto 10.
Qed.

