(** C72: the phonemes of x_uni.  C73: the Latin letters and English. *)
From Verif Require Import Base FeatureModel ProfileModel ProfileSpec SoundTables SoundModel SoundDocs SoundSpec SoundProofs SoundChecks.
From Coq Require Import String.
Local Open Scope list_scope.
Local Open Scope string_scope.

(** ** C72 *)
(** The inventories can be built, and the laws of C18 and C19 apply to them. *)
Theorem C72_builds : (exists W st, sounds = Some (W, st)) /\
  forall W st, sounds = Some (W, st) -> built W /\ well_named W sound_attributes.
Proof. exact (conj sounds_some (fun W st So => conj (world_built W st So) (world_named W st So))). Qed.
Print Assumptions C72_builds.
(** There are just the documented symbols, and the phonemes have the documented values. *)
Theorem C72_documented W st : sounds = Some (W, st) ->
  (forall s, In s (map fst st) <-> In s (page_names pages)) /\
  (forall s rows, In (s, rows) x_uni_documented -> table_rows st ("x_uni." ++ s) = Some (combine (map chars x_uni_aspects_documented) rows)).
Proof. exact (fun So => conj (known W st So) (x_uni_page W st So)). Qed.
Print Assumptions C72_documented.
(** The distances of features are the documented ones. *)
Theorem C72_distances W st asp m texts rows : sounds = Some (W, st) -> In (asp, m, texts, rows) distances_documented -> exists a fs,
  In a (aspects W DESCRIPTIVE) /\ aspect_alias W a = chars asp /\ max_dist (data W a) = m /\
  (forall f, In f fs -> aspect_of W f = Some a) /\ (forall f, aspect_of W f = Some a -> In f fs \/ f = any_of W a \/ f = na_of W a) /\
  map feature_text fs = texts /\ map (fun f => map (distance W f) fs) fs = map (map Some) rows.
Proof. exact (fun So => distance_tables W st So asp m texts rows). Qed.
Print Assumptions C72_distances.
(** The distance of symbols is symmetric, between 0 and 94 quarters, and 0 to themselves. *)
Theorem C72_metric W st s t : sounds = Some (W, st) -> In s (map fst st) -> In t (map fst st) ->
  exists d, sound_distance W st s t = Some d /\ sound_distance W st t s = Some d /\ (0 <= d <= 94)%Z /\ (s = t -> d = 0%Z).
Proof. exact (fun So => metric W st So s t). Qed.
Print Assumptions C72_metric.
Example C72_example W st : sounds = Some (W, st) -> sound_distance W st "x_uni.p" "x_uni.f" = Some 6%Z.
Proof. intros So. apply (sampled W st So). cbn. auto 10. Qed.
(** The triangle inequality does not hold. *)
Theorem C72_triangle_refuted W st : sounds = Some (W, st) -> exists s t u d e f,
  sound_distance W st s t = Some d /\ sound_distance W st t u = Some e /\ sound_distance W st s u = Some f /\ (d + e < f)%Z.
Proof. exact (triangle_refuted W st). Qed.
Print Assumptions C72_triangle_refuted.
(** The values of a phoneme are those its name says, for all but one. *)
Theorem C72_names W st s name : sounds = Some (W, st) -> In (s, name) phonemes -> s <> "oi" ->
  table_rows st ("x_uni." ++ s) = Some ((chars "type", ["abstract"]) :: map (fun r => (chars (fst r), snd r)) (described name))%list.
Proof. exact (fun So => names W st So s name). Qed.
Print Assumptions C72_names.
Theorem C72_oi_refuted W st : sounds = Some (W, st) -> exists s name, In (s, name) phonemes /\
  table_rows st ("x_uni." ++ s) <> Some ((chars "type", ["abstract"]) :: map (fun r => (chars (fst r), snd r)) (described name))%list.
Proof. exact (oi_refuted W st). Qed.
Print Assumptions C72_oi_refuted.
Example C72_names_example : In ("n", "voiced alveolar nasal") phonemes /\
  (firstn 5 (described "voiced alveolar nasal"), nth_error (described "voiced alveolar nasal") 11) =
  ([("ph_class", ["consonant"]); ("airstream", ["pulmonic"]); ("manner", ["stop"]); ("place", ["alveolar"; "dental"; "postalveolar"]); ("articulator", ["apical"; "laminal"])],
   Some ("nasalization", ["nasalized"])).
Proof. split; [unfold phonemes; apply in_or_app; right; repeat (first [left; reflexivity|right])|vm_compute; reflexivity]. Qed.
(** Phonemes with distance 0 *)
Theorem C72_alike W st s t m n : sounds = Some (W, st) -> In (s, m) phonemes -> In (t, n) phonemes -> s <> t ->
  sound_distance W st ("x_uni." ++ s) ("x_uni." ++ t) = Some 0%Z <-> In (s, t) look_alikes \/ In (t, s) look_alikes.
Proof. exact (fun So => alike W st So s t m n). Qed.
Print Assumptions C72_alike.
Example C72_alike_example : In ("d", "dd") look_alikes /\ ~ In ("p", "f") look_alikes.
Proof. split; [cbn; auto 10|cbn; intuition discriminate]. Qed.

(** ** C73 *)
Theorem C73_documented W st s rows : sounds = Some (W, st) ->
  (In (s, rows) latn_documented -> table_rows st ("latn." ++ s) = Some (combine (map chars latn_aspects_documented) rows)) /\
  (In (s, rows) en_latn_documented -> table_rows st ("en." ++ s) = Some (combine (map chars en_latn_aspects_documented) rows)).
Proof. exact (fun So => conj (latn_page W st So s rows) (en_page W st So s rows)). Qed.
Print Assumptions C73_documented.
(** Upper and lower case letters differ in case only. *)
Theorem C73_case W st prefix l : sounds = Some (W, st) -> In l latn_letters -> prefix = "latn." \/ prefix = "en." ->
  exists a b, table_rows st (prefix ++ l) = Some a /\ table_rows st (prefix ++ l ++ "_upper") = Some b /\ same_but_case (chars "case") a b.
Proof. exact (fun So I' P => match P with or_introl E => eq_ind_r (fun p => exists a b, table_rows st (p ++ l) = Some a /\ table_rows st (p ++ l ++ "_upper") = Some b /\ same_but_case (chars "case") a b) (latn_case W st So l I') E | or_intror E => eq_ind_r (fun p => exists a b, table_rows st (p ++ l) = Some a /\ table_rows st (p ++ l ++ "_upper") = Some b /\ same_but_case (chars "case") a b) (en_case W st So l I') E end). Qed.
Print Assumptions C73_case.
(** An English letter has the values of all its sounds, and no others; its distance from each is 0. *)
Theorem C73_english W st l ss : sounds = Some (W, st) -> In (l, ss) en_sounds ->
  (forall asp v, In asp sound_aspects ->
    (exists rows, table_rows st ("en." ++ l) = Some rows /\ has_value rows (chars asp) v) <->
    (exists s rows, In s ss /\ table_rows st s = Some rows /\ has_value rows (chars asp) v)) /\
  (forall s, In s ss -> sound_distance W st ("en." ++ l) s = Some 0%Z).
Proof. exact (fun So I' => conj (fun asp v => english W st So l ss asp v I') (fun s => english_near W st So l ss s I')). Qed.
Print Assumptions C73_english.
Example C73_english_example : In ("c", ["x_uni.s"; "x_uni.k"]) en_sounds /\ In "place" sound_aspects.
Proof. split; [cbn; auto 10|cbn; auto 10]. Qed.
(** ... but it may be at distance 0 from a sound it does not have. *)
Theorem C73_other_sound_refuted W st : sounds = Some (W, st) -> exists l ss s,
  In (l, ss) en_sounds /\ ~ In ("x_uni." ++ s) ss /\ In s (map fst phonemes) /\ sound_distance W st ("en." ++ l) ("x_uni." ++ s) = Some 0%Z.
Proof. exact (other_sound_refuted W st). Qed.
Print Assumptions C73_other_sound_refuted.
(** Letters of the Latin script sound like the English ones, except r, *)
Theorem C73_latin_english W st l : sounds = Some (W, st) -> In l latn_letters -> (sound_distance W st ("latn." ++ l) ("en." ++ l) = Some 0%Z <-> l <> "r").
Proof. exact (fun So => latin_english W st So l). Qed.
Print Assumptions C73_latin_english.
(** and like the phoneme with the same name, except six of them; *)
Theorem C73_latin_phoneme W st l : sounds = Some (W, st) -> In l latn_letters -> (sound_distance W st ("latn." ++ l) ("x_uni." ++ l) = Some 0%Z <-> ~ In l unlike_phoneme).
Proof. exact (fun So => latin_phoneme W st So l). Qed.
Print Assumptions C73_latin_phoneme.
(** r is not like any phoneme. *)
Theorem C73_latin_r W st s name : sounds = Some (W, st) -> In (s, name) phonemes -> exists d, sound_distance W st "latn.r" ("x_uni." ++ s) = Some d /\ (0 < d)%Z.
Proof. exact (fun So => latin_r W st So s name). Qed.
Print Assumptions C73_latin_r.
Example C73_example W st : sounds = Some (W, st) ->
  sound_distance W st "latn.o" "x_uni.o" = Some 6%Z /\ sound_distance W st "latn.r" "x_uni.r" = Some 4%Z /\ sound_distance W st "en.c" "x_uni.d" = Some 4%Z.
Proof. intros So. split; [|split]; apply (sampled W st So); cbn; auto 10. Qed.
