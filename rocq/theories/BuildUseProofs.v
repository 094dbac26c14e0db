From Coq Require Import String.
From Verif Require Import Base GrammarModel GrammarSpec GrammarProofs FarModel FarSpec FarProofs BuildModel BuildSpec BuildProofs.
Local Open Scope list_scope.

Lemma last_exists (es : archive) k : In k (map fst es) <-> exists f, last_entry es k f.
Proof.
  split.
  - intro H. induction es as [|[n f] es IH]; [destruct H|]. destruct (in_dec (list_eq_dec N.eq_dec) k (map fst es)) as [I|I].
    + destruct (IH I) as [g [a [b [-> G]]]]. exists g, ((n, f) :: a), b. auto.
    + destruct H as [E|H]; [|now destruct I]. cbn in E. subst n. exists f, [], es. auto.
  - intros [f [a [b [-> _]]]]. rewrite map_app. apply in_or_app. right. now left.
Qed.
Lemma present_keys es k : present (snd (read_archive es)) k <-> In k (map fst es).
Proof.
  rewrite last_exists. unfold present. split; intros [f F]; exists f; now apply read_get.
Qed.
Lemma small_capital_small s : small (capital s) = small s.
Proof.
  induction s as [|x s IH]; [reflexivity|]. cbn [small capital map]. unfold small, capital in IH. rewrite IH. f_equal.
  destruct (N.leb_spec 97 x), (N.leb_spec x 122); cbn [andb];
  repeat match goal with |- context [N.leb ?a ?b] => destruct (N.leb_spec a b); cbn [andb] end; lia.
Qed.
Lemma capital_small_eq a b : capital a = capital b <-> small a = small b.
Proof.
  split; [|apply small_capital]. intro H. rewrite <- (small_capital_small a), H. apply small_capital_small.
Qed.
(** Names that work with an archive of given tags *)
Definition knownb (tags : list str) (s : str) : bool := existsb (fun t => str_eqb (small t) (small s)) tags.
Definition names_for (tags : list str) : list str :=
  map small tags ++ map (fun p => letters_of (fst p)) (filter (fun p => knownb tags (letters_of (snd p))) scripts_of_languages).
Lemma known_spec tags s : knownb tags s = true <-> In (capital s) (map capital tags).
Proof.
  unfold knownb. rewrite existsb_exists, in_map_iff. split; intros [t [A B]]; exists t.
  - apply str_eqb_eq in B. split; [now apply capital_small_eq|exact A].
  - split; [exact B|]. apply str_eqb_eq. now apply capital_small_eq.
Qed.
Lemma small_in tags name : In (small name) (map small tags) <-> In (capital name) (map capital tags).
Proof. rewrite !in_map_iff. split; intros [t [A B]]; exists t; (split; [now apply capital_small_eq|exact B]). Qed.
Lemma resolves_names es tags name : Permutation (map fst es) (map capital tags) ->
  (exists n', resolves (snd (read_archive es)) (capital name) n') <-> In (small name) (names_for tags).
Proof.
  intro P. assert (K : forall k, present (snd (read_archive es)) k <-> In k (map capital tags)).
  { intro k. rewrite present_keys. split; apply Permutation_in; [exact P|now apply Permutation_sym]. }
  unfold names_for. rewrite in_app_iff, small_in. split.
  - intros [n' [[H _]|[_ [la [sc [H1 [H2 [-> H3]]]]]]]].
    + left. now apply K.
    + right. apply in_map_iff. exists (la, sc). rewrite small_capital_small in H2. split; [now rewrite H2|]. apply filter_In. split; [exact H1|].
      apply known_spec. now apply K.
  - intro H. destruct (in_dec (list_eq_dec N.eq_dec) (capital name) (map capital tags)) as [I|I].
    + exists (capital name). left. split; [now apply K|reflexivity].
    + destruct H as [H|H]; [contradiction|]. apply in_map_iff in H as [[la sc] [H1 H2]]. apply filter_In in H2 as [H2 H3]. cbn [fst snd] in *.
      apply known_spec in H3. exists (capital (letters_of sc)). right. split; [now rewrite K|]. exists la, sc. rewrite small_capital_small. repeat split; auto. now apply K.
Qed.
Lemma perm_keys (tags : list str) (es : archive) (l : list (str * str)) (fst_of : str * str -> wfst) :
  Permutation es (map (fun p => (capital (tag p), fst_of p)) l) -> tags = map tag l -> Permutation (map fst es) (map capital tags).
Proof. intros P ->. apply (Permutation_map fst) in P. rewrite map_map in P. cbn [fst] in P. now rewrite map_map. Qed.
Lemma keys_not_empty (es : archive) (tags : list str) : Permutation (map fst es) (map capital tags) -> tags <> [] -> es <> [].
Proof. intros P N ->. apply Permutation_nil in P. destruct tags; [now destruct N|discriminate]. Qed.
Lemma load_names locate files far_path far name p es tags : locate (far_file_path far_path far) = Some p -> files p = Some es ->
  Permutation (map fst es) (map capital tags) -> tags <> [] ->
  (exists g, load locate files (make_grammar far_path far name) = (Ok, g)) <-> In (small name) (names_for tags).
Proof.
  intros L F P N. rewrite <- (resolves_names es tags name P). split.
  - intros [g H]. apply load_ok in H as [p' [es' [H1 [H2 [H3 [H4 [H5 H6]]]]]]]. cbn [g_path g_name make_grammar] in *.
    rewrite L in H1. injection H1 as <-. rewrite F in H2. injection H2 as <-. now exists (g_name g).
  - intros [n' R]. exists (Grammar (far_file_path far_path far) n' (snd (read_archive es))). apply load_ok. exists p, es. cbn [g_path g_name g_archive make_grammar].
    repeat split; auto. now apply (keys_not_empty es tags).
Qed.
Lemma load_both_names locate files far_path a b name : 
  fst (load_both locate files (make_grammar far_path a name, make_grammar far_path b name)) = Ok <->
  (exists g, load locate files (make_grammar far_path a name) = (Ok, g)) /\ exists g, load locate files (make_grammar far_path b name) = (Ok, g).
Proof.
  unfold load_both. destruct (load locate files (make_grammar far_path a name)) as [r g]. 
  destruct (load locate files (make_grammar far_path b name)) as [r' g'].
  destruct r; cbn [fst]; (split; [intro H; try discriminate|intros [[x X] [y Y]]; try discriminate]).
  - subst. split; eauto.
  - now injection Y as ->.
Qed.
(** Lists of names *)
Definition inb (x : str) (l : list str) : bool := existsb (str_eqb x) l.
Lemma inb_spec x l : inb x l = true <-> In x l.
Proof.
  unfold inb. rewrite existsb_exists. split.
  - intros [y [A B]]. apply str_eqb_eq in B. now subst.
  - intro H. exists x. split; [exact H|apply str_eqb_refl].
Qed.
Lemma both_names a b c : forallb (fun x => if inb x b then inb x c else true) a = true -> forallb (fun x => if inb x a then inb x b else false) c = true ->
  forall x, In x a /\ In x b <-> In x c.
Proof.
  intros H G x. rewrite forallb_forall in H, G. split.
  - intros [A B]. specialize (H x A). apply inb_spec in B. rewrite B in H. now apply inb_spec.
  - intro C. specialize (G x C). destruct (inb x a) eqn:E; [|discriminate]. split; now apply inb_spec.
Qed.
Definition visual_tags : list str := map tag visual_script_langs.
Definition reading_tags : list str := map tag READING_NORM_LANGS.
Definition supported : list str := map small SCRIPTS ++ map (fun p => letters_of (fst p)) scripts_of_languages.
Definition readable : list str := map letters_of ["beng"; "lepc"; "mlym"; "bn"; "hi"; "ml"]%string.
Lemma supported_names x : In x (names_for visual_tags) /\ In x (names_for SCRIPTS) <-> In x supported.
Proof. apply both_names; vm_compute; reflexivity. Qed.
Lemma readable_names x : In x (names_for visual_tags) /\ In x (names_for reading_tags) <-> In x readable.
Proof. apply both_names; vm_compute; reflexivity. Qed.
Lemma shipped_keys fst_of l v : In l [visual_script_langs; READING_NORM_LANGS] -> aggregated brahmic_export fst_of l = Some v ->
  Permutation (map fst v) (map capital (map tag l)).
Proof.
  intros I A. destruct (shipped_built fst_of) as [S _]. destruct (S l I) as [v' [E [P _]]]. rewrite A in E. injection E as <-.
  exact (perm_keys (map tag l) v l fst_of P eq_refl).
Qed.
Lemma wellformed_keys acc : Permutation (map fst (wellformed_archive acc)) (map capital SCRIPTS).
Proof. unfold wellformed_archive. rewrite map_map. cbn [fst]. apply Permutation_refl. Qed.
Lemma supports_names fst_of acc v locate files far_path name pv pw :
  aggregated brahmic_export fst_of visual_script_langs = Some v ->
  locate (far_file_path far_path visual_norm_name) = Some pv -> files pv = Some v ->
  locate (far_file_path far_path wellformed_name) = Some pw -> files pw = Some (wellformed_archive acc) ->
  supports locate files far_path name = true <->
    (exists s, In s SCRIPTS /\ small name = small s) \/ exists lang script, In (lang, script) scripts_of_languages /\ small name = letters_of lang.
Proof.
  intros A L1 F1 L2 F2.
  assert (X : supports locate files far_path name = true <-> fst (load_both locate files (make_normalizer far_path name)) = Ok).
  { unfold supports. destruct (fst (load_both locate files (make_normalizer far_path name))); split; congruence. }
  rewrite X. unfold make_normalizer. rewrite load_both_names.
  rewrite (load_names locate files far_path visual_norm_name name pv v visual_tags L1 F1 (shipped_keys fst_of _ v (or_introl eq_refl) A)) by discriminate.
  rewrite (load_names locate files far_path wellformed_name name pw _ SCRIPTS L2 F2 (wellformed_keys acc)) by discriminate.
  rewrite supported_names. unfold supported. rewrite in_app_iff, !in_map_iff. split; (intros [[s H]|H]; [left; exists s; intuition|right]).
  - destruct H as [[la sc] [H1 H2]]. exists la, sc. auto.
  - destruct H as [la [sc [H1 H2]]]. exists (la, sc). auto.
Qed.
Lemma reading_names fst_of fst_of' v r locate files far_path name pv pr :
  aggregated brahmic_export fst_of visual_script_langs = Some v -> aggregated brahmic_export fst_of' READING_NORM_LANGS = Some r ->
  locate (far_file_path far_path visual_norm_name) = Some pv -> files pv = Some v ->
  locate (far_file_path far_path reading_norm_name) = Some pr -> files pr = Some r ->
  fst (load_both locate files (make_reading_norm far_path name)) = Ok <-> In (small name) (map letters_of ["beng"; "lepc"; "mlym"; "bn"; "hi"; "ml"]%string).
Proof.
  intros A B L1 F1 L2 F2. unfold make_reading_norm. rewrite load_both_names.
  rewrite (load_names locate files far_path visual_norm_name name pv v visual_tags L1 F1 (shipped_keys fst_of _ v (or_introl eq_refl) A)) by discriminate.
  rewrite (load_names locate files far_path reading_norm_name name pr r reading_tags L2 F2 (shipped_keys fst_of' _ r (or_intror (or_introl eq_refl)) B)) by discriminate.
  apply readable_names.
Qed.
Lemma in_get (a : archive) k : In k (map fst a) <-> exists f, get_item a k = Val f.
Proof.
  destruct (get_answer a k) as [[x [y [f [E [_ R]]]]]|[N R]]; rewrite R.
  - split; [now exists f|]. intros _. rewrite E, map_app. apply in_or_app. right. now left.
  - split; [contradiction|]. intros [f F]. discriminate.
Qed.
Lemma item_cases (a : archive) k : (exists f, get_item a k = Val f) \/ get_item a k = KeyError.
Proof. destruct (get_answer a k) as [[x [y [f [_ [_ R]]]]]|[_ R]]; rewrite R; eauto. Qed.
Lemma scripts_in_visual : forallb (fun s => inb (small s) (map small visual_tags)) SCRIPTS = true.
Proof. vm_compute. reflexivity. Qed.
Lemma acceptor_names fst_of acc v w pv pw script :
  aggregated brahmic_export fst_of visual_script_langs = Some v -> has_archive w pv v -> has_archive w pw (wellformed_archive acc) ->
  ((exists s, In s SCRIPTS /\ small script = small s) -> normalizing_acceptor w pv pw script = Some true) /\
  (~ (exists s, In s SCRIPTS /\ small script = small s) -> normalizing_acceptor w pv pw script = Some false).
Proof.
  intros A HV HW. pose proof (shipped_keys fst_of _ v (or_introl eq_refl) A) as KV. pose proof (wellformed_keys acc) as KW.
  pose proof scripts_in_visual as SV. rewrite forallb_forall in SV.
  destruct (fresh_loads w pv (to_upper script) v HV) as [E1 _]. destruct (fresh_loads w pw (to_upper script) _ HW) as [E2 _].
  unfold normalizing_acceptor. rewrite E1, E2. clear E1 E2 HV HW A.
  set (ww := wellformed_archive acc) in *. clearbody ww.
  assert (GV : In (capital script) (map capital visual_tags) <-> exists f, get_item v (to_upper script) = Val f).
  { rewrite <- in_get. split; apply Permutation_in; [apply Permutation_sym|]; exact KV. }
  assert (GW : In (capital script) (map capital SCRIPTS) <-> exists f, get_item ww (to_upper script) = Val f).
  { rewrite <- in_get. split; apply Permutation_in; [apply Permutation_sym|]; exact KW. }
  rewrite <- small_in in GV, GW. clear KV KW. split.
  - intros [s [S E]]. assert (I : In (small script) (map small SCRIPTS)) by (apply in_map_iff; exists s; auto).
    assert (J : In (small script) (map small visual_tags)) by (rewrite E; apply inb_spec; auto).
    apply GV in J as [f ->]. apply GW in I as [g ->]. reflexivity.
  - intro N. destruct (item_cases v (to_upper script)) as [[f ->]| ->]; [|reflexivity].
    destruct (item_cases ww (to_upper script)) as [[g G]| ->]; [|reflexivity]. exfalso. apply N.
    assert (I : In (small script) (map small SCRIPTS)) by (apply GW; eauto). apply in_map_iff in I as [s [E S]]. exists s. auto.
Qed.
Lemma normalized_not_supported : exists name, forall fst_of acc v locate files far_path pv pw,
  aggregated brahmic_export fst_of visual_script_langs = Some v ->
  locate (far_file_path far_path visual_norm_name) = Some pv -> files pv = Some v ->
  locate (far_file_path far_path wellformed_name) = Some pw -> files pw = Some (wellformed_archive acc) ->
  In (capital name) (map fst v) /\ supports locate files far_path name = false.
Proof.
  exists (letters_of "as"%string). intros fst_of acc v locate files far_path pv pw A L1 F1 L2 F2. split.
  - apply (Permutation_in _ (Permutation_sym (shipped_keys fst_of _ v (or_introl eq_refl) A))).
    assert (I : inb (capital (letters_of "as"%string)) (map capital (map tag visual_script_langs)) = true) by (vm_compute; reflexivity).
    apply inb_spec. exact I.
  - destruct (supports locate files far_path (letters_of "as"%string)) eqn:E; [|reflexivity]. exfalso.
    apply (supports_names fst_of acc v locate files far_path _ pv pw A L1 F1 L2 F2) in E.
    assert (X : inb (small (letters_of "as"%string)) supported = false) by (vm_compute; reflexivity).
    assert (Y : In (small (letters_of "as"%string)) supported).
    { unfold supported. rewrite in_app_iff, !in_map_iff. destruct E as [[s [S H]]|[la [sc [S H]]]]; [left; exists s; auto|right; exists (la, sc); auto]. }
    apply inb_spec in Y. congruence.
Qed.
Lemma language_not_accepted : exists script, forall fst_of acc v w pv pw,
  aggregated brahmic_export fst_of visual_script_langs = Some v -> has_archive w pv v -> has_archive w pw (wellformed_archive acc) ->
  In (capital script) (map fst v) /\ normalizing_acceptor w pv pw script = Some false.
Proof.
  exists (letters_of "bn"%string). intros fst_of acc v w pv pw A HV HW. split.
  - apply (Permutation_in _ (Permutation_sym (shipped_keys fst_of _ v (or_introl eq_refl) A))).
    assert (I : inb (capital (letters_of "bn"%string)) (map capital (map tag visual_script_langs)) = true) by (vm_compute; reflexivity).
    apply inb_spec. exact I.
  - apply (acceptor_names fst_of acc v w pv pw _ A HV HW). intros [s [S H]].
    assert (X : inb (small (letters_of "bn"%string)) (map small SCRIPTS) = false) by (vm_compute; reflexivity).
    assert (Y : In (small (letters_of "bn"%string)) (map small SCRIPTS)) by (apply in_map_iff; exists s; auto).
    apply inb_spec in Y. congruence.
Qed.
