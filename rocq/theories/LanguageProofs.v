(** Proofs about languages. *)
From Coq Require Import String Ascii.
From Verif Require Import Base FeatureModel FeatureSpec FeatureProofs FeatureExamples ContainModel ContainSpec ContainProofs SoundTables SoundModel
  LanguageModel LanguageSpec.
Local Open Scope string_scope.
Local Open Scope list_scope.

Lemma equidistant_item s l t s' items v : all_equidistant s (VList l t s' items) -> In v items -> all_equidistant s v.
Proof.
  intros [_ [_ H]]. revert H. induction items as [|x items IH]; intros H K; [contradiction|].
  destruct H as [Hx H]. destruct K as [<-|K]; [exact Hx|apply IH; assumption].
Qed.
Lemma equidistant_apart s v f g d : all_equidistant s v -> apart v f g d -> d = s.
Proof.
  intros H A. induction A as [l t step items i j v w f g _ _ _ _ _|l t step items v f g d K A IH].
  - destruct H as [-> [-> _]]. unfold steps. lia.
  - apply IH, (equidistant_item s l t step items v H K).
Qed.
Lemma equidistant_distance alias list_alias attributes v s : distinct v -> good_aliases alias list_alias attributes v ->
  all_equidistant s v ->
  exists a, populated alias list_alias attributes v = Some a /\
    forall any n_a f g, In f (leaves v) -> In g (leaves v) -> f <> g -> ~ In f [any; n_a] -> ~ In g [any; n_a] ->
      feature_distance a any n_a f g = Some s.
Proof.
  intros D G E. destruct (FeatureExamples.feature_tree alias list_alias attributes v D G) as [a [P [_ [_ [_ K]]]]].
  exists a. split; [exact P|]. intros any n_a f g Hf Hg N Nf Ng.
  destruct (feature_pairs v f g D Hf Hg N) as [d [A _]]. rewrite <- (equidistant_apart s v f g d E A).
  apply (K any n_a f g d A Nf Ng).
Qed.

(** The inventory *)
Lemma nodup_dec {A} (eqb : A -> A -> bool) (ok : forall x y, eqb x y = true <-> x = y) (l : list A) :
  (fix nd (l : list A) : bool := match l with [] => true | x :: l' => if existsb (eqb x) l' then false else nd l' end) l = true -> NoDup l.
Proof.
  induction l as [|x l IH]; intros H; constructor.
  - intros K. destruct (existsb (eqb x) l) eqn:E; [discriminate|].
    assert (existsb (eqb x) l = true) as T by (apply existsb_exists; exists x; split; [exact K|apply ok; reflexivity]). congruence.
  - apply IH. destruct (existsb (eqb x) l); [discriminate|exact H].
Qed.
Lemma notin_dec (x : str) l : existsb (str_eqb x) l = false -> ~ In x l.
Proof.
  intros H K. assert (existsb (str_eqb x) l = true) as T by (apply existsb_exists; exists x; split; [exact K|apply str_eqb_eq; reflexivity]).
  congruence.
Qed.
Lemma language_distinct : distinct language_value.
Proof. split; apply (nodup_dec Nat.eqb Nat.eqb_eq); vm_compute; reflexivity. Qed.
Lemma language_good : good_aliases (fun f => chars (language_alias f)) (fun l => chars (family_alias l)) aspect_attributes language_value.
Proof.
  split.
  - apply (nodup_dec str_eqb str_eqb_eq). vm_compute. reflexivity.
  - intros f H.
    assert (C : forallb (fun f => if existsb (str_eqb (chars (language_alias f))) aspect_attributes then false
      else negb (existsb (str_eqb (chars (language_alias f))) (map (fun l => chars (family_alias l)) (lists language_value))))
      (leaves language_value) = true) by (vm_compute; reflexivity).
    pose proof (proj1 (forallb_forall _ _) C f H) as K. cbn beta in K.
    destruct (existsb (str_eqb (chars (language_alias f))) aspect_attributes) eqn:E; [discriminate|].
    apply Bool.negb_true_iff in K. split; apply notin_dec; assumption.
Qed.
Lemma language_equidistant : all_equidistant 1 language_value.
Proof. vm_compute. repeat split. Qed.
Lemma language_leaves : map language_alias (leaves language_value) =
  iso_codes ++ map l_alias custom_languages.
Proof. vm_compute. reflexivity. Qed.
Lemma language_max : option_map max_dist language_aspect = Some 1%Z.
Proof. vm_cast_no_check (eq_refl (Some 1%Z)). Qed.
Lemma max_of (o : option aspect) a m : option_map max_dist o = Some m -> o = Some a -> max_dist a = m.
Proof. intros Q ->. injection Q as Q. exact Q. Qed.
Lemma language_apart : exists a, language_aspect = Some a /\
  forall any n_a f g, In f (leaves language_value) -> In g (leaves language_value) -> f <> g -> ~ In f [any; n_a] -> ~ In g [any; n_a] ->
      feature_distance a any n_a f g = Some 1%Z.
Proof.
  exact (equidistant_distance (fun f => chars (language_alias f)) (fun l => chars (family_alias l)) aspect_attributes
    language_value 1%Z language_distinct language_good language_equidistant).
Qed.
Lemma distance_zero a any n_a g : feature_distance a any n_a g g = Some 0%Z.
Proof. unfold feature_distance. rewrite Nat.eqb_refl. reflexivity. Qed.
Lemma distances_of (o : option aspect) (fs : list nat) : option_map max_dist o = Some 1%Z ->
  (exists a, o = Some a /\ forall any n_a f g, In f fs -> In g fs -> f <> g -> ~ In f [any; n_a] -> ~ In g [any; n_a] ->
      feature_distance a any n_a f g = Some 1%Z) ->
  exists a, o = Some a /\ max_dist a = 1%Z /\ forall any n_a f g, In f fs -> In g fs -> ~ In f [any; n_a] -> ~ In g [any; n_a] ->
    feature_distance a any n_a f g = Some (if Nat.eqb f g then 0%Z else 1%Z).
Proof.
  intros M [a [P K]]. exists a. split; [exact P|]. split; [exact (max_of o a 1%Z M P)|].
  intros any n_a f g Hf Hg Nf Ng. destruct (Nat.eqb_spec f g) as [->|N]; [apply distance_zero|apply K; assumption].
Qed.
Lemma language_distances : exists a, language_aspect = Some a /\ max_dist a = 1%Z /\
  forall any n_a f g, In f (leaves language_value) -> In g (leaves language_value) ->
    ~ In f [any; n_a] -> ~ In g [any; n_a] ->
    feature_distance a any n_a f g = Some (if Nat.eqb f g then 0%Z else 1%Z).
Proof. exact (distances_of language_aspect (leaves language_value) language_max language_apart). Qed.
(** The families *)
Lemma family_members l : In l (lists language_value) ->
  exists members, In (family_alias l, members) families /\
    forall f, In f (leaves language_value) ->
      (set_has_feature language_value [f] (L l) = true <-> In (language_alias f) members).
Proof.
  intros H.
  assert (C : forallb (fun l => existsb (fun p => if String.eqb (fst p) (family_alias l) then
      forallb (fun f => Bool.eqb (set_has_feature language_value [f] (L l)) (existsb (String.eqb (language_alias f)) (snd p)))
        (leaves language_value) else false) families) (lists language_value) = true) by (vm_compute; reflexivity).
  pose proof (proj1 (forallb_forall _ _) C l H) as K. apply existsb_exists in K. destruct K as [[n ms] [I K]]. cbn [fst snd] in K.
  destruct (String.eqb_spec n (family_alias l)) as [->|]; [|discriminate]. exists ms. split; [exact I|].
  intros f Hf. pose proof (proj1 (forallb_forall _ _) K f Hf) as E. apply Bool.eqb_prop in E. rewrite E.
  split; intros X.
  - apply existsb_exists in X. destruct X as [y [Hy Y]]. apply String.eqb_eq in Y. rewrite Y. exact Hy.
  - apply existsb_exists. exists (language_alias f). split; [exact X|apply String.eqb_refl].
Qed.

(** ** Codes *)
Lemma lower_char_value c : nat_of_ascii (lower_char c) =
  if (65 <=? nat_of_ascii c)%nat && (nat_of_ascii c <=? 90)%nat then nat_of_ascii c + 32 else nat_of_ascii c.
Proof.
  unfold lower_char. destruct ((65 <=? nat_of_ascii c)%nat && (nat_of_ascii c <=? 90)%nat) eqn:E; [|reflexivity].
  apply andb_prop in E. destruct E as [_ E]. apply Nat.leb_le in E. apply nat_ascii_embedding. lia.
Qed.
Lemma ascii_eq c d : nat_of_ascii c = nat_of_ascii d -> c = d.
Proof. intros H. rewrite <- (ascii_nat_embedding c), <- (ascii_nat_embedding d), H. reflexivity. Qed.
Lemma lower_char_same c d : lower_char c = lower_char d <-> same_letter c d.
Proof.
  pose proof (lower_char_value c) as C. pose proof (lower_char_value d) as D. unfold same_letter. split.
  - intros H. rewrite H, D in C.
    destruct (Nat.leb_spec 65 (nat_of_ascii c)), (Nat.leb_spec (nat_of_ascii c) 90),
             (Nat.leb_spec 65 (nat_of_ascii d)), (Nat.leb_spec (nat_of_ascii d) 90); cbn in C; try lia; left; apply ascii_eq; lia.
  - assert (U : forall n, 65 <= n <= 90 -> (65 <=? n)%nat && (n <=? 90)%nat = true).
    { intros n [A B]. rewrite (proj2 (Nat.leb_le 65 n) A), (proj2 (Nat.leb_le n 90) B). reflexivity. }
    assert (V : forall n, 90 < n -> (65 <=? n)%nat && (n <=? 90)%nat = false).
    { intros n A. rewrite (proj2 (Nat.leb_gt n 90) A). apply andb_false_r. }
    intros [->|[[B E]|[B E]]]; [reflexivity| |]; apply ascii_eq; rewrite C, D, E.
    + rewrite (U _ B), V by lia. reflexivity.
    + rewrite (U _ B), V by lia. reflexivity.
Qed.
Lemma lower_same a b : lower a = lower b <-> caseless a b.
Proof.
  revert b. induction a as [|c a IH]; intros [|d b]; cbn; try (split; [discriminate|contradiction]); [tauto|].
  rewrite <- IH, <- lower_char_same. split; [intros H; injection H; auto|intros [-> ->]; reflexivity].
Qed.
Lemma lower_spec a : caseless a (lower a) /\ without_capitals (lower a).
Proof.
  assert (I : forall c, lower_char (lower_char c) = lower_char c /\ ~ (65 <= nat_of_ascii (lower_char c) <= 90)).
  { intros c. assert (N : ~ (65 <= nat_of_ascii (lower_char c) <= 90)).
    { rewrite lower_char_value. destruct (Nat.leb_spec 65 (nat_of_ascii c)), (Nat.leb_spec (nat_of_ascii c) 90); cbn; lia. }
    split; [|exact N]. apply ascii_eq. rewrite (lower_char_value (lower_char c)).
    destruct (Nat.leb_spec 65 (nat_of_ascii (lower_char c))), (Nat.leb_spec (nat_of_ascii (lower_char c)) 90); cbn; lia. }
  split.
  - apply lower_same. induction a as [|c a IH]; [reflexivity|]. cbn. rewrite <- IH. f_equal. symmetry. apply I.
  - induction a as [|c a IH]; cbn; [exact Logic.I|]. split; [apply I|exact IH].
Qed.
Lemma get_spec key code l i : match get_language key code l i with
  | Some (j, e) => i <= j /\ nth_error l (j - i) = Some e /\ has_code key code e
  | None => forall e, In e l -> ~ has_code key code e
  end.
Proof.
  revert i. induction l as [|e l IH]; intros i; cbn [get_language]; [intros e []|].
  assert (Skip : ~ has_code key code e -> match get_language key code l (S i) with
    | Some (j, e0) => i <= j /\ nth_error (e :: l) (j - i) = Some e0 /\ has_code key code e0
    | None => forall e0, In e0 (e :: l) -> ~ has_code key code e0 end).
  { intros N. specialize (IH (S i)). destruct (get_language key code l (S i)) as [[j e0]|].
    - destruct IH as [A [B C]]. split; [lia|]. split; [|exact C]. replace (j - i) with (S (j - S i)) by lia. exact B.
    - intros e0 [<-|K]; [exact N|apply IH, K]. }
  destruct (key e) as [k|] eqn:Ek.
  - destruct (String.eqb_spec (lower k) (lower code)) as [Q|Q].
    + split; [lia|]. rewrite Nat.sub_diag. split; [reflexivity|]. exists k. split; [exact Ek|apply lower_same, Q].
    + apply Skip. intros [k' [A B]]. apply lower_same in B. congruence.
  - apply Skip. intros [k' [A B]]. congruence.
Qed.
Lemma from_iso_spec languages code :
  match from_iso languages code with
  | Made l => caseless code (l_alias l) /\ without_capitals (l_alias l) /\ exists e, nth_error languages (N.to_nat (l_index l)) = Some e /\ l_text l = lang_name e /\
      (String.length code = 2 /\ has_code alpha_2 code e \/ String.length code = 3 /\ has_code (fun e => Some (alpha_3 e)) code e)
  | InvalidCode => String.length code <> 2 /\ String.length code <> 3
  | NoLanguage => (String.length code = 2 /\ forall e, In e languages -> ~ has_code alpha_2 code e) \/
      (String.length code = 3 /\ forall e, In e languages -> ~ has_code (fun e => Some (alpha_3 e)) code e)
  end.
Proof.
  unfold from_iso. pose proof (get_spec alpha_2 code languages 0) as A.
  pose proof (get_spec (fun e => Some (alpha_3 e)) code languages 0) as B.
  destruct (String.length code) as [|[|[|[|n]]]]; try (split; discriminate).
  - destruct (get_language alpha_2 code languages 0) as [[j e]|].
    + cbn [l_alias l_index l_text]. destruct A as [_ [A C]]. rewrite Nat.sub_0_r in A. split; [apply lower_spec|]. split; [apply lower_spec|]. exists e. rewrite Nat2N.id.
      split; [exact A|]. split; [reflexivity|]. left. split; [reflexivity|exact C].
    + left. split; [reflexivity|exact A].
  - destruct (get_language (fun e => Some (alpha_3 e)) code languages 0) as [[j e]|].
    + cbn [l_alias l_index l_text]. destruct B as [_ [B C]]. rewrite Nat.sub_0_r in B. split; [apply lower_spec|]. split; [apply lower_spec|]. exists e. rewrite Nat2N.id.
      split; [exact B|]. split; [reflexivity|]. right. split; [reflexivity|exact C].
    + right. split; [reflexivity|exact B].
Qed.
(** Languages with different codes of the same length have different numbers. *)
Lemma from_iso_different languages c c' l l' : from_iso languages c = Made l -> from_iso languages c' = Made l' ->
  String.length c = String.length c' -> ~ caseless c c' -> l_index l <> l_index l'.
Proof.
  intros H H' N D E. pose proof (from_iso_spec languages c) as A. pose proof (from_iso_spec languages c') as B.
  rewrite H in A. rewrite H' in B. destruct A as [_ [_ [e [A [_ A']]]]]. destruct B as [_ [_ [e' [B [_ B']]]]].
  rewrite E in A. rewrite A in B. injection B as <-. apply D. apply lower_same.
  destruct A' as [[L1 [k [K1 K2]]]|[L1 [k [K1 K2]]]]; destruct B' as [[L2 [k' [K3 K4]]]|[L2 [k' [K3 K4]]]]; try congruence;
  apply lower_same in K2; apply lower_same in K4; congruence.
Qed.
Lemma from_iso_below languages c l : from_iso languages c = Made l -> (l_index l < N.of_nat (List.length languages))%N.
Proof.
  intros H. pose proof (from_iso_spec languages c) as A. rewrite H in A. destruct A as [_ [_ [e [A _]]]].
  assert (K : N.to_nat (l_index l) < List.length languages) by (apply nth_error_Some; congruence). lia.
Qed.
(** Two and three letters may be one language. *)
Lemma same_number : exists languages l l', from_iso languages "hi" = Made l /\ from_iso languages "hin" = Made l' /\
  l_index l = l_index l' /\ l_alias l <> l_alias l'.
Proof.
  exists [CountryLanguage (Some "hi") "hin" "Hindi"]. do 2 eexists. split; [reflexivity|]. split; [reflexivity|].
  split; [reflexivity|discriminate].
Qed.
