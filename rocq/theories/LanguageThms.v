(** C79: the language feature of phonemes. *)
From Coq Require Import String.
From Verif Require Import Base FeatureModel FeatureSpec ContainModel SoundTables SoundModel LanguageModel LanguageSpec LanguageProofs.
Local Open Scope string_scope.
Local Open Scope list_scope.

(** However equidistant lists of one step are nested, all features are one step apart. *)
Theorem C79_equidistant : forall alias list_alias attributes v s, distinct v -> good_aliases alias list_alias attributes v ->
  all_equidistant s v ->
  exists a, populated alias list_alias attributes v = Some a /\
    forall any n_a f g, In f (leaves v) -> In g (leaves v) -> f <> g -> ~ In f [any; n_a] -> ~ In g [any; n_a] ->
      feature_distance a any n_a f g = Some s.
Proof. exact equidistant_distance. Qed.
Print Assumptions C79_equidistant.

(** All languages of the inventory have distance 1 from each other. *)
Theorem C79_distances : exists a, language_aspect = Some a /\ max_dist a = 1%Z /\
  forall any n_a f g, In f (leaves language_value) -> In g (leaves language_value) ->
    ~ In f [any; n_a] -> ~ In g [any; n_a] ->
    feature_distance a any n_a f g = Some (if Nat.eqb f g then 0%Z else 1%Z).
Proof. exact language_distances. Qed.
Print Assumptions C79_distances.

(** A language is found in its families and in no other. *)
Theorem C79_families : forall l, In l (lists language_value) ->
  exists members, In (family_alias l, members) families /\
    forall f, In f (leaves language_value) ->
      (set_has_feature language_value [f] (L l) = true <-> In (language_alias f) members).
Proof. exact family_members. Qed.
Print Assumptions C79_families.
Theorem C79_languages : map language_alias (leaves language_value) = iso_codes ++ map l_alias custom_languages.
Proof. exact language_leaves. Qed.
Print Assumptions C79_languages.

(** The language of a code, its number being the place in the list of pycountry *)
Theorem C79_from_iso : forall languages code,
  match from_iso languages code with
  | Made l => caseless code (l_alias l) /\ without_capitals (l_alias l) /\ exists e, nth_error languages (N.to_nat (l_index l)) = Some e /\ l_text l = lang_name e /\
      (String.length code = 2 /\ has_code alpha_2 code e \/ String.length code = 3 /\ has_code (fun e => Some (alpha_3 e)) code e)
  | InvalidCode => String.length code <> 2 /\ String.length code <> 3
  | NoLanguage => (String.length code = 2 /\ forall e, In e languages -> ~ has_code alpha_2 code e) \/
      (String.length code = 3 /\ forall e, In e languages -> ~ has_code (fun e => Some (alpha_3 e)) code e)
  end.
Proof. exact from_iso_spec. Qed.
Print Assumptions C79_from_iso.
(** Different codes of one length have different numbers, below the length of the list ... *)
Theorem C79_numbers : forall languages c c' l l', from_iso languages c = Made l -> from_iso languages c' = Made l' ->
  String.length c = String.length c' -> ~ caseless c c' -> l_index l <> l_index l'.
Proof. exact from_iso_different. Qed.
Print Assumptions C79_numbers.
Theorem C79_below : forall languages c l, from_iso languages c = Made l -> (l_index l < N.of_nat (List.length languages))%N.
Proof. exact from_iso_below. Qed.
Print Assumptions C79_below.
(** ... but codes of two and three letters may have the same. *)
Theorem C79_numbers_refuted : exists languages l l', from_iso languages "hi" = Made l /\ from_iso languages "hin" = Made l' /\
  l_index l = l_index l' /\ l_alias l <> l_alias l'.
Proof. exact same_number. Qed.
Print Assumptions C79_numbers_refuted.

(** Kannada and Malayalam (one family), Hindi and x_psa; Telugu is Dravidian but not in
    Tamil-Kota *)
Example C79_example : map language_alias [0; 2; 6; 13; 1] = ["kn"; "ml"; "hi"; "x_psa"; "te"] /\
  option_map (fun a => (feature_distance a 20 21 0 2, feature_distance a 20 21 6 13, feature_distance a 20 21 6 6)) language_aspect =
    Some (Some 1%Z, Some 1%Z, Some 0%Z) /\
  map family_alias [1; 2] = ["dravidian"; "tamil_kota"] /\
  set_has_feature language_value [1] (L 1) = true /\ set_has_feature language_value [1] (L 2) = false.
Proof. repeat split; vm_compute; reflexivity. Qed.
Example C79_example_iso :
  from_iso [CountryLanguage None "aaa" "Ghotuo"; CountryLanguage (Some "bn") "ben" "Bengali"] "BN" = Made (Language "bn" "Bengali" 1%N) /\
  from_iso [CountryLanguage None "aaa" "Ghotuo"] "aaa" = Made (Language "aaa" "Ghotuo" 0%N) /\
  from_iso [CountryLanguage None "aaa" "Ghotuo"] "xx" = NoLanguage /\ from_iso [] "x_uni" = InvalidCode.
Proof. repeat split. Qed.
