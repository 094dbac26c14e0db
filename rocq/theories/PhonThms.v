(** C93: phons and the multilingual phoneme inventory. *)
From Coq Require Import String Ascii List NArith.
From Verif Require Import PhonTables PhonModel PhonSpec PhonProofs PhonTableProofs PhonCaseProofs.
Import ListNotations.
Local Open Scope string_scope.
Local Open Scope list_scope.

(** A composite is made of the components of its phons: names joined by "_", texts, fsts and IPA
    joined by the combiner, features one after another behind the new one.  Its base
    transliteration is that of the components in turn; under the feature there is the given one
    or else the base, and given alternatives win. *)
Theorem C93_compose : forall ps f new alt q, compose ps f new alt = Some q ->
  cmp q = flat_map cmp ps /\ alias (body q) = String.concat "_" (map alias (cmp q)) /\ txn (body q) = String.concat "+" (map txn (cmp q)) /\
  ftr (body q) = f :: flat_map ftr (cmp q) /\ ph (body q) = between ["+"] (map ph (cmp q)) /\ ipa (body q) = between [865%N] (map ipa (cmp q)) /\
  exists ms b, Forall2 (fun c m => get "base" (tr_dict c) = Some m) (cmp q) ms /\
    (forall r, texts ms r -> b = Text r) /\ ((~ exists r, texts ms r) -> b = Empty) /\
    forall e, alt = Some e \/ alt = None /\ e = [] -> NoDup (map fst e) -> forall k,
      get k (tr_dict (body q)) = match get k e with Some m => Some m | None =>
        if String.eqb k f then Some (match new with Some m => m | None => b end) else if String.eqb k "base" then Some b else None end.
Proof. exact compose_spec. Qed.
Print Assumptions C93_compose.
(** Composing fails exactly without components or with one that has no base transliteration. *)
Theorem C93_compose_fails : forall ps f new alt,
  compose ps f new alt = None <-> flat_map cmp ps = [] \/ exists c, In c (flat_map cmp ps) /\ ~ has_base c.
Proof. exact compose_fails. Qed.
Print Assumptions C93_compose_fails.
(** Composing composites is composing their phons at once. *)
Theorem C93_nested : forall pss qs f new alt, Forall2 (fun ps q => exists f' new' alt', compose ps f' new' alt' = Some q) pss qs ->
  compose qs f new alt = compose (concat pss) f new alt.
Proof. exact compose_nested. Qed.
Print Assumptions C93_nested.
(** Importing adds features and transliterations and changes nothing else. *)
Theorem C93_import : forall p a d,
  cmp (import_phon p (Some a) (Some d)) = cmp p /\ alias (body (import_phon p (Some a) (Some d))) = alias (body p) /\
  ph (body (import_phon p (Some a) (Some d))) = ph (body p) /\ ftr (body (import_phon p (Some a) (Some d))) = ftr (body p) ++ a /\
  (NoDup (map fst d) -> forall k, get k (tr_dict (body (import_phon p (Some a) (Some d)))) = match get k d with Some m => Some m | None => get k (tr_dict (body p)) end).
Proof. exact import_fields. Qed.
Print Assumptions C93_import.
(** But composites are made as if from the phon before the import: what was added is lost. *)
Theorem C93_import_composed : forall p a d ps f new alt, compose (import_phon p a d :: ps) f new alt = compose (p :: ps) f new alt.
Proof. exact import_compose. Qed.
Print Assumptions C93_import_composed.
Theorem C93_import_refuted : exists p q ftrs new r, In new ftrs /\
  compose [import_phon p (Some ftrs) None; q] "diphthong" None None = Some r /\ ~ In new (ftr (body r)).
Proof. exact import_lost. Qed.
Print Assumptions C93_import_refuted.
(** A suffix is put behind text and IPA, and its features behind the features.  The new
    transliteration is found under its first feature, all others as before. *)
Theorem C93_suffix : forall p m new q, derive_with_suffix p m new = Some q -> exists f fs, ftr (body m) = f :: fs /\
  txn (body q) = (txn (body p) ++ txn (body m))%string /\ ftr (body q) = ftr (body p) ++ ftr (body m) /\ ph (body q) = [txn (body q)] /\
  ipa (body q) = ipa (body p) ++ ipa (body m) /\ cmp q = [body q] /\
  forall k, get k (tr_dict (body q)) = if String.eqb k f then Some new else get k (tr_dict (body p)).
Proof. exact derive_fields. Qed.
Print Assumptions C93_suffix.
Theorem C93_suffix_fails : forall p m new, derive_with_suffix p m new = None <-> ~ has_base (body p) \/ ftr (body m) = [].
Proof. exact derive_spec. Qed.
Print Assumptions C93_suffix_fails.
(** Only voiced phons can be devoiced; the feature is replaced. *)
Theorem C93_devoiced : forall p, (devoiced p = None <-> ~ In "voiced" (ftr (body p)) \/ ~ has_base (body p)) /\
  forall q, devoiced p = Some q -> exists a b, ftr (body p) = a ++ "voiced" :: b /\ ~ In "voiced" a /\ ftr (body q) = a ++ b ++ ["devoiced"] /\
    txn (body q) = (txn (body p) ++ "o")%string /\ ipa (body q) = ipa (body p) ++ [805%N] /\ cmp q = [body q] /\
    translit_of q "devoiced" = Some Empty /\ translit_of q "" = translit_of p "".
Proof. exact devoiced_spec. Qed.
Print Assumptions C93_devoiced.
(** The documentation says that without a new transliteration the base is copied.  It is not. *)
Theorem C93_suffix_refuted : exists p q, devoiced p = Some q /\ translit_of q "devoiced" <> translit_of q "base".
Proof. exact suffix_translit. Qed.
Print Assumptions C93_suffix_refuted.
(** All devoiced phons of the inventory have no transliteration under their feature. *)
Theorem C93_devoiced_inventory : exists l, simple_cons = Some l /\ (exists p, In p l /\ In "devoiced" (ftr (body p))) /\
  forall p, In p l -> In "devoiced" (ftr (body p)) -> translit_of p "devoiced" = Some Empty.
Proof. exact devoiced_empty. Qed.
Print Assumptions C93_devoiced_inventory.
(** The inventory can be built.  Names and fsts are unique, and all features are known. *)
Theorem C93_inventory : exists l, inventory = Some l /\ List.length l = 354 /\ NoDup (map (fun p => alias (body p)) l) /\
  (forall p q, In p l -> In q l -> ph (body p) = ph (body q) -> p = q) /\ (forall p f, In p l -> In f (ftr (body p)) -> exists c, In (f, c) feature_table).
Proof. exact inventory_ok. Qed.
Print Assumptions C93_inventory.
(** Each phon has a base transliteration with at least one symbol. *)
Theorem C93_base : exists l, inventory = Some l /\ forall p, In p l -> exists s r, translit_of p "" = Some (Text (s :: r)).
Proof. exact all_base. Qed.
Print Assumptions C93_base.
(** Clicks are transliterated as their two parts, affricates as S_CH or J, diphthongs as S_AI or S_AU. *)
Theorem C93_composites : exists l, phonemes = Some l /\ forall p, In p l -> cmp p = [body p] \/ exists a b x y,
  cmp p = [a; b] /\ get "base" (tr_dict a) = Some (Text x) /\ get "base" (tr_dict b) = Some (Text y) /\ translit_of p "" = Some (Text (x ++ y)) /\
  (hd_error (ftr (body p)) = Some "coarticulated" /\ translit_of p "coarticulated" = Some (Text (x ++ y)) \/
   hd_error (ftr (body p)) = Some "affricate" /\ (alias a = "T" /\ translit_of p "affricate" = Some (Text ["S_CH"]) \/ alias a = "D" /\ translit_of p "affricate" = Some (Text ["J"])) \/
   hd_error (ftr (body p)) = Some "diphthong" /\ (alias b = "I" /\ translit_of p "diphthong" = Some (Text ["S_AI"]) \/ alias b = "U" /\ translit_of p "diphthong" = Some (Text ["S_AU"]))).
Proof. exact composites_ok. Qed.
Print Assumptions C93_composites.
(** The table in the documentation has exactly the phonemes, in order, and then four rows on duration, *)
Theorem C93_table : exists l, phonemes = Some l /\ phon_table = map row_of l ++
  [("DURB", ":b", [":b"], [774%N], ["long"; "bottom"]); ("DURM", ":m", [":m"], [721%N], ["long"; "middle"]);
   ("DURH", ":h", [":h"], [720%N], ["long"; "high"]); ("DURT", ":t", [":t"], [720%N; 720%N], ["long"; "top"])].
Proof. exact table_ok. Qed.
Print Assumptions C93_table.
(** which are not those of the code. *)
Theorem C93_table_refuted : exists a t p i f l x, In (a, t, p, i, f) phon_table /\ inventory = Some l /\ In x l /\ alias (body x) = a /\ ftr (body x) <> f /\
  ~ exists c, In ("long", c) feature_table.
Proof. exact long_refuted. Qed.
Print Assumptions C93_table_refuted.
(** Features tell the phons apart but for two pairs, *)
Theorem C93_features : forall l, inventory = Some l -> forall p q, In p l -> In q l -> ftr (body p) = ftr (body q) -> alias (body p) <> alias (body q) ->
  In (alias (body p), alias (body q)) [("V_TNT", "V_PRN"); ("V_PRN", "V_TNT"); ("Y", "GU"); ("GU", "Y")].
Proof. exact features_ok. Qed.
Print Assumptions C93_features.
(** one of them palatal and velar approximants. *)
Theorem C93_features_refuted : exists l p q, inventory = Some l /\ In p l /\ In q l /\ alias (body p) = "Y" /\ alias (body q) = "GU" /\ ftr (body p) = ftr (body q).
Proof. exact features_refuted. Qed.
Print Assumptions C93_features_refuted.
(** IPA tells phons with IPA apart but for four pairs. *)
Theorem C93_ipa : forall l, inventory = Some l -> forall p q, In p l -> In q l -> ipa (body p) = ipa (body q) -> ipa (body p) <> [] -> alias (body p) <> alias (body q) ->
  In (alias (body p), alias (body q)) [("OU", "OWN"); ("SL", "SHL"); ("ZL", "ZHL"); ("SLE", "SHLE")] \/
  In (alias (body q), alias (body p)) [("OU", "OWN"); ("SL", "SHL"); ("ZL", "ZHL"); ("SLE", "SHLE")].
Proof. exact ipa_ok. Qed.
Print Assumptions C93_ipa.
Theorem C93_ipa_refuted : exists l p q, inventory = Some l /\ In p l /\ In q l /\ alias (body p) = "SL" /\ alias (body q) = "SHL" /\ ipa (body p) = ipa (body q).
Proof. exact ipa_refuted. Qed.
Print Assumptions C93_ipa_refuted.
(** A text of phonemes in braces can be read in one way only, *)
Theorem C93_decode : forall l, phonemes = Some l -> forall ps qs, (forall p, In p ps -> In p l) -> (forall p, In p qs -> In p l) ->
  written (flat_map (fun p => ph (body p)) ps) = written (flat_map (fun p => ph (body p)) qs) -> ps = qs.
Proof. exact decode_ok. Qed.
Print Assumptions C93_decode.
(** but not if the combiner is a phon too, as in the inventory. *)
Theorem C93_decode_refuted : exists l ps qs, inventory = Some l /\ (forall p, In p ps -> In p l) /\ (forall p, In p qs -> In p l) /\ ps <> qs /\
  written (flat_map (fun p => ph (body p)) ps) = written (flat_map (fun p => ph (body p)) qs).
Proof. exact decode_refuted. Qed.
Print Assumptions C93_decode_refuted.
(** There is one base vowel for each height, backness and rounding. *)
Theorem C93_vowels : List.length (base_phons base_vowel) = 70 /\ forall h b r, in_category "height" h -> in_category "backness" b -> r = "labial" \/ r = "nonlabial" ->
  exactly_one (fun p => ftr (body p) = ["vowel"; h; b; r]) (base_phons base_vowel).
Proof. exact vowels_ok. Qed.
Print Assumptions C93_vowels.
(** Simple consonants other than clicks have one voicing, one manner and a place. *)
Theorem C93_consonants : exists l, simple_cons = Some l /\ forall p, In p l -> ~ In "click" (ftr (body p)) ->
  exactly_one (in_category "voicing") (ftr (body p)) /\ exactly_one (in_category "manner") (ftr (body p)) /\ exists f, In f (ftr (body p)) /\ in_category "place" f.
Proof. exact cons_ok. Qed.
Print Assumptions C93_consonants.

Example C93_example : compose [base "a" ["vowel"] [97%N] (Some (Text ["A"])) ""; base "u" ["vowel"] [117%N] (Some (Text ["U"])) ""] "diphthong" (Some (Text ["S_AU"])) None =
  Some (Phon (Part "A_U" "a+u" ["diphthong"; "vowel"; "vowel"] ["a"; "+"; "u"] [97; 865; 117]%N [("base", Text ["A"; "U"]); ("diphthong", Text ["S_AU"])])
    (Some [Part "A" "a" ["vowel"] ["a"] [97%N] [("base", Text ["A"])]; Part "U" "u" ["vowel"] ["u"] [117%N] [("base", Text ["U"])]])).
Proof. reflexivity. Qed.
Example C93_example_devoiced : option_map (fun q => row_of q) (devoiced (base "b" ["stop"; "voiced"] [98%N] (Some (Text ["B"])) "")) =
  Some ("BO", "bo", ["bo"], [98; 805]%N, ["stop"; "devoiced"]).
Proof. reflexivity. Qed.
Example C93_example_modifiers : In dvc (map mod_phon modifier_feature) /\ In npl (map mod_phon modifier_feature) /\ map mod_phon combiner = [cmb].
Proof. repeat split; vm_compute; auto. Qed.
