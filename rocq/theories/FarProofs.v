From Coq Require Import String.
From Verif Require Import Base GrammarModel GrammarSpec GrammarProofs FarModel FarSpec.
Local Open Scope list_scope.

Lemma lower_small s : to_lower s = small s. Proof. reflexivity. Qed.
Lemma upper_capital s : to_upper s = capital s. Proof. reflexivity. Qed.
Lemma first_slash s : match s with 47%N :: _ => true | _ => false end = true <-> is_prefix [47%N] s.
Proof.
  destruct s as [|c s].
  - split; [discriminate|]. intros [t H]. discriminate.
  - destruct (N.eq_dec c 47) as [->|H].
    + split; [|reflexivity]. intros _. now exists s.
    + split.
      * intro E. exfalso. destruct c as [|p]; [discriminate|]. do 6 (destruct p as [p|p|]; try discriminate). now destruct H.
      * intros [t E]. injection E as E. now destruct H.
Qed.
Lemma last_slash s : match rev s with 47%N :: _ => true | _ => false end = true <-> is_suffix [47%N] s.
Proof.
  rewrite first_slash. split.
  - intros [t H]. exists (rev t). rewrite <- (rev_involutive s), H. now rewrite rev_app_distr.
  - intros [t H]. exists (rev t). rewrite H. now rewrite rev_app_distr.
Qed.
Lemma join_in dir base path : join_path dir base = path <-> file_in dir base path.
Proof.
  unfold join_path, file_in.
  pose proof (first_slash base) as F. pose proof (last_slash dir) as L.
  destruct (match base with 47%N :: _ => true | _ => false end) eqn:E.
  - cbn [orb]. assert (is_prefix [47%N] base) by now apply F.
    split; [intros <-; left; auto|]. intros [[_ ->]|[[N _]|[N _]]]; [reflexivity|now destruct N|now destruct N].
  - assert (NP : ~ is_prefix [47%N] base) by (intro Q; apply F in Q; discriminate).
    cbn [orb]. destruct dir as [|c dir].
    + split; [intros <-; left; auto|]. intros [[_ ->]|[[_ [[t S] _]]|[_ [S _]]]]; [reflexivity| |now destruct S].
      destruct t; discriminate.
    + destruct (match rev (c :: dir) with 47%N :: _ => true | _ => false end) eqn:G.
      * assert (is_suffix [47%N] (c :: dir)) by now apply L.
        split; [intros <-; right; left; auto|]. intros [[[Q|Q] _]|[[_ [_ ->]]|[_ [_ [Q _]]]]]; try reflexivity; try contradiction; discriminate.
      * assert (NS : ~ is_suffix [47%N] (c :: dir)) by (intro Q; apply L in Q; discriminate).
        split; [intros <-; right; right; repeat split; auto; discriminate|].
        intros [[[Q|Q] _]|[[_ [Q _]]|[_ [_ [_ ->]]]]]; try reflexivity; try contradiction; discriminate.
Qed.
Lemma join_file dir base : file_in dir base (join_path dir base).
Proof. now apply join_in. Qed.

Section World.
Variables (locate : str -> option str) (files : str -> option archive).

Lemma load_ok_far far_path b b' : Load locate files far_path b = (Ok, b') <->
  exists dir path es, locate far_path = Some dir /\ file_in dir (far_file (far_name b)) path /\ files path = Some es /\ es <> [] /\
    b' = FarBase (far_name b) (snd (read_archive es)).
Proof.
  unfold Load. destruct (locate far_path) as [dir|].
  2:{ split; [discriminate|]. intros [d [p [es [H _]]]]. discriminate. }
  change (to_lower (far_name b) ++ kFarExtn) with (far_file (far_name b)).
  unfold load_file. destruct (files (join_path dir (far_file (far_name b)))) as [es|] eqn:E.
  - pose proof (read_ok es) as R. destruct (read_archive es) as [ok m] eqn:G. cbn [fst] in R.
    destruct ok.
    + split.
      * intro H. injection H as <-. exists dir, (join_path dir (far_file (far_name b))), es.
        rewrite G. repeat split; auto using join_file. now apply R.
      * intros [d [p [es' [H1 [H2 [H3 [H4 H5]]]]]]]. injection H1 as <-. apply join_in in H2. rewrite <- H2, E in H3.
        injection H3 as <-. rewrite G in H5. now subst.
    + split; [discriminate|]. intros [d [p [es' [H1 [H2 [H3 [H4 H5]]]]]]]. injection H1 as <-. apply join_in in H2. rewrite <- H2, E in H3.
      injection H3 as <-. apply R in H4. discriminate.
  - split; [discriminate|]. intros [d [p [es' [H1 [H2 [H3 _]]]]]]. injection H1 as <-. apply join_in in H2. rewrite <- H2, E in H3. discriminate.
Qed.
Lemma load_finds far_path b b' : Load locate files far_path b = (Ok, b') ->
  exists dir path es, locate far_path = Some dir /\ file_in dir (far_file (far_name b)) path /\ files path = Some es /\ es <> [] /\
    far_name b' = far_name b /\ forall name f, Fst b' name = Some f <-> last_entry es (capital name) f.
Proof.
  intro H. apply load_ok_far in H as [dir [path [es [H1 [H2 [H3 [H4 ->]]]]]]]. exists dir, path, es. repeat split; auto.
  - intro H. apply (read_get es (capital name) f). exact H.
  - intro H. apply (read_get es (capital name) f) in H. exact H.
Qed.
Lemma load_works far_path b dir path es : locate far_path = Some dir -> file_in dir (far_file (far_name b)) path ->
  files path = Some es -> es <> [] -> exists b', Load locate files far_path b = (Ok, b').
Proof. intros. eexists. apply load_ok_far. exists dir, path, es. repeat split; eauto. Qed.
Lemma load_fails far_path b r b' : Load locate files far_path b = (r, b') -> r <> Ok ->
  (locate far_path = None /\ r = No_runfiles /\ b' = b) \/
  exists dir path, locate far_path = Some dir /\ file_in dir (far_file (far_name b)) path /\ r = Load_failed path /\
    (files path = None /\ b' = b \/ files path = Some [] /\ far_name b' = far_name b /\ forall name, Fst b' name = None).
Proof.
  unfold Load. destruct (locate far_path) as [dir|].
  2:{ intros H _. injection H as <- <-. now left. }
  change (to_lower (far_name b) ++ kFarExtn) with (far_file (far_name b)).
  unfold load_file. destruct (files (join_path dir (far_file (far_name b)))) as [es|] eqn:E.
  - pose proof (read_ok es) as R. destruct (read_archive es) as [ok m] eqn:G. cbn [fst] in R.
    intros H N. injection H as <- <-. destruct ok; [now destruct N|]. right.
    exists dir, (join_path dir (far_file (far_name b))). repeat split; auto using join_file.
    right. destruct es as [|e es].
    + cbn in G. injection G as <-. repeat split; auto.
    + assert (false = true) as Q by (apply R; discriminate). discriminate.
  - intros H N. injection H as <- <-. right. exists dir, (join_path dir (far_file (far_name b))).
    repeat split; auto using join_file. left. split; auto. now destruct b.
Qed.
Lemma brahmic_path : kFarPath = letters_of "com_google_nisaba/nisaba/scripts/brahmic"%string.
Proof. reflexivity. Qed.
Lemma brahmic_load b : BrahmicLoad locate files b = Load locate files (letters_of "com_google_nisaba/nisaba/scripts/brahmic"%string) b.
Proof. reflexivity. Qed.

Lemma small_eq_capital c d : (if N.leb 65 c && N.leb c 90 then c + 32 else c)%N = (if N.leb 65 d && N.leb d 90 then d + 32 else d)%N ->
  (if N.leb 97 c && N.leb c 122 then c - 32 else c)%N = (if N.leb 97 d && N.leb d 122 then d - 32 else d)%N.
Proof.
  destruct (N.leb_spec 65 c), (N.leb_spec c 90), (N.leb_spec 65 d), (N.leb_spec d 90); cbn [andb];
  destruct (N.leb_spec 97 c), (N.leb_spec c 122), (N.leb_spec 97 d), (N.leb_spec d 122); cbn [andb]; lia.
Qed.
Lemma small_capital a : forall b, small a = small b -> capital a = capital b.
Proof.
  induction a as [|c a IH]; intros [|d b] H; try discriminate; [reflexivity|].
  cbn [small capital map] in *. injection H as H1 H2. f_equal; [now apply small_eq_capital|now apply IH].
Qed.
Lemma names_any_case b n n' : small n = small n' -> Fst b n = Fst b n'.
Proof. intro H. unfold Fst. rewrite !upper_capital. now rewrite (small_capital _ _ H). Qed.
Lemma load_any_case far_path n n' m : small n = small n' ->
  fst (Load locate files far_path (FarBase n m)) = fst (Load locate files far_path (FarBase n' m)) /\
  forall name, Fst (snd (Load locate files far_path (FarBase n m))) name = Fst (snd (Load locate files far_path (FarBase n' m))) name.
Proof.
  intro H. unfold Load. cbn [far_name grm_mgr]. assert (L : to_lower n = to_lower n') by exact H. rewrite L. destruct (locate far_path) as [dir|]; [|split; reflexivity].
  destruct (load_file files (join_path dir (to_lower n' ++ kFarExtn)) m) as [ok m']. split; reflexivity.
Qed.
Lemma capital_no_small s : no_small (capital s).
Proof.
  intros c H R. apply in_map_iff in H as [d [<- _]]. revert R.
  destruct (N.leb_spec 97 d), (N.leb_spec d 122); cbn [andb]; lia.
Qed.
Lemma get_in m n f : get_fst m n = Some f -> In (n, f) m.
Proof.
  induction m as [|[k g] m IH]; [discriminate|]. cbn. destruct (str_eqb k n) eqn:E.
  - intro H. injection H as <-. apply str_eqb_eq in E as ->. now left.
  - intro H. right. auto.
Qed.
Lemma only_capitals b n f : Fst b n = Some f -> exists k, In (k, f) (grm_mgr b) /\ no_small k.
Proof. intro H. exists (capital n). split; [now apply get_in|apply capital_no_small]. Qed.
Lemma capital_id s : no_small s -> capital s = s.
Proof.
  induction s as [|c s IH]; intro H; [reflexivity|]. cbn [capital map]. f_equal.
  - specialize (H c (or_introl eq_refl)). destruct (N.leb_spec 97 c), (N.leb_spec c 122); cbn [andb]; auto; lia.
  - apply IH. intros d D. apply H. now right.
Qed.
Lemma small_id s : no_capital s -> small s = s.
Proof.
  induction s as [|c s IH]; intro H; [reflexivity|]. cbn [small map]. f_equal.
  - specialize (H c (or_introl eq_refl)). destruct (N.leb_spec 65 c), (N.leb_spec c 90); cbn [andb]; auto; lia.
  - apply IH. intros d D. apply H. now right.
Qed.
Lemma loaded_reachable far_path b b' k f : Load locate files far_path b = (Ok, b') -> no_small k ->
  (Fst b' k = Some f <-> exists dir path es, locate far_path = Some dir /\ file_in dir (far_file (far_name b)) path /\ files path = Some es /\
    last_entry es k f).
Proof.
  intros H K. apply load_finds in H as [dir [path [es [H1 [H2 [H3 [H4 [H5 H6]]]]]]]].
  specialize (H6 k f). rewrite (capital_id _ K) in H6. rewrite H6. split.
  - intro L. exists dir, path, es. auto.
  - intros [d [p [es' [G1 [G2 [G3 G4]]]]]]. rewrite H1 in G1. injection G1 as <-.
    apply join_in in H2. apply join_in in G2. rewrite H2 in G2. subst p. rewrite H3 in G3. injection G3 as <-. exact G4.
Qed.

(** Grammars of grammar.cc *)
Lemma grammar_same far_path name fst_name dir : locate far_path = Some dir ->
  locate (join_path far_path (far_file name)) = Some (join_path dir (far_file name)) ->
  let g := snd (load locate files (make_grammar far_path name fst_name)) in
  let r := Load locate files far_path (new_far name) in
  (fst (load locate files (make_grammar far_path name fst_name)) = Ok -> fst r = Ok) /\
  (forall n, Fst (snd r) n = get_fst (g_archive g) (capital n)).
Proof.
  intros H1 H2. unfold load, make_grammar, Load, new_far. cbn [g_path g_name g_archive far_name grm_mgr].
  change (far_file_path far_path name) with (join_path far_path (far_file name)).
  change (to_lower name ++ kFarExtn) with (far_file name). rewrite H1, H2.
  destruct (load_file files (join_path dir (far_file name)) []) as [ok m]. destruct ok.
  - cbv zeta. cbn [fst snd]. split; [auto|]. intro n.
    destruct (verify_load locate _) as [st g'] eqn:V. apply verify_keeps in V as [_ V]. cbn [g_archive] in V. cbn [snd]. rewrite V.
    reflexivity.
  - cbn [fst snd]. split; [discriminate|]. reflexivity.
Qed.
Lemma test_path dir file : (forall path, file_in dir file path -> locate path = None -> TestFilePath locate dir file = []) /\
  forall path p, file_in dir file path -> locate path = Some p -> TestFilePath locate dir file = p.
Proof.
  unfold TestFilePath. split.
  - intros path H L. apply join_in in H as ->. now rewrite L.
  - intros path p H L. apply join_in in H as ->. now rewrite L.
Qed.
End World.

Lemma directory_unknown : exists locate files far_path name es,
  locate (join_path far_path (far_file name)) = Some (join_path far_path (far_file name)) /\
  files (join_path far_path (far_file name)) = Some es /\ es <> [] /\
  locate far_path = Some [] /\
  fst (Load locate files far_path (new_far name)) = Load_failed (far_file name).
Proof.
  exists (fun p => if str_eqb p [100%N] then Some [] else Some p),
    (fun p => if prefixb [100%N] p then Some [([65%N], fun s => [(s, 0%N)])] else None), [100%N], [120%N], [([65%N], fun s => [(s, 0%N)])].
  repeat split. discriminate.
Qed.
Lemma working_directory locate files far_path b es : locate far_path = Some [] -> files (far_file (far_name b)) = Some es -> es <> [] ->
  exists b', Load locate files far_path b = (Ok, b').
Proof.
  intros H1 H2 H3. eapply load_works; eauto. left. auto.
Qed.

(** Python *)
Lemma get_answer a k : answer a k (get_item a k).
Proof.
  unfold get_item. induction a as [|[j g] a IH]; cbn [get_fst].
  - right. auto.
  - destruct (str_eqb j k) eqn:E.
    + apply str_eqb_eq in E as ->. left. exists [], a, g. repeat split; auto.
    + apply str_eqb_neq in E. destruct IH as [[x [y [f [H1 [H2 H3]]]]]|[H1 H2]].
      * left. exists ((j, g) :: x), y, f. rewrite H3, H1. repeat split; auto. cbn. intros [Q|Q]; auto.
      * right. cbn. split; [intros [Q|Q]; auto|exact H2].
Qed.
Lemma answer_fun a k r r' : answer a k r -> answer a k r' -> r = r'.
Proof.
  intros [[x [y [f [H1 [H2 ->]]]]]|[H1 ->]] [[x' [y' [f' [G1 [G2 ->]]]]]|[G1 ->]]; auto.
  - subst a. f_equal. revert x' G1 G2. induction x as [|[j g] x IH]; intros [|[j' g'] x'] G1 G2; cbn in *.
    + now injection G1.
    + injection G1 as -> -> _. exfalso. apply G2. now left.
    + injection G1 as <- <- _. exfalso. apply H2. now left.
    + injection G1 as <- <- G1. apply IH with x'; auto.
  - subst a. exfalso. apply G1. rewrite map_app. apply in_or_app. right. now left.
  - subst a. exfalso. apply H1. rewrite map_app. apply in_or_app. right. now left.
Qed.
Lemma slash_path dir base path : slash dir base = path <-> py_path dir base path.
Proof.
  unfold slash, py_path. pose proof (first_slash base) as F.
  assert (E : (match base with 47%N :: _ => base | _ => match dir with [] => base | _ :: _ => dir ++ [47%N] ++ base end end) =
    if match base with 47%N :: _ => true | _ => false end then base else match dir with [] => base | _ => dir ++ [47%N] ++ base end).
  { destruct base as [|c base]; [reflexivity|]. destruct c as [|p]; [reflexivity|]. do 6 (destruct p as [p|p|]; try reflexivity). }
  rewrite E. destruct (match base with 47%N :: _ => true | _ => false end).
  - assert (is_prefix [47%N] base) by now apply F. split; [intros <-; left; auto|]. intros [[_ ->]|[N _]]; [reflexivity|contradiction].
  - assert (N : ~ is_prefix [47%N] base) by (intro Q; apply F in Q; discriminate). destruct dir.
    + split; [intros <-; left; auto|]. intros [[_ ->]|[_ [Q _]]]; [reflexivity|contradiction].
    + split; [intros <-; right; repeat split; auto; discriminate|]. intros [[[Q|Q] _]|[_ [_ ->]]]; [contradiction|discriminate|reflexivity].
Qed.
Lemma suffix_spec t s : tt_suffix t = Val s <-> suffix_of t s.
Proof.
  unfold tt_suffix, suffix_of. change (letters_of "byte"%string) with s_byte. change (letters_of "utf8"%string) with s_utf8.
  change (letters_of "_utf8"%string) with (95%N :: s_utf8).
  destruct (str_eqb t s_byte) eqn:B.
  - apply str_eqb_eq in B as ->. split; [intro H; injection H as <-; left; auto|]. intros [[_ ->]|[Q _]]; [reflexivity|discriminate].
  - apply str_eqb_neq in B. destruct (str_eqb t s_utf8) eqn:U.
    + apply str_eqb_eq in U as ->. split; [intro H; injection H as <-; right; auto|]. intros [[Q _]|[_ ->]]; [discriminate|reflexivity].
    + apply str_eqb_neq in U. split; [discriminate|]. intros [[Q _]|[Q _]]; contradiction.
Qed.
Lemma suffix_none t : tt_suffix t = KeyError \/ exists s, tt_suffix t = Val s.
Proof. unfold tt_suffix. destruct (str_eqb t s_byte); eauto. destruct (str_eqb t s_utf8); eauto. Qed.
Lemma bad_token w dir name t n d : (forall s, ~ suffix_of t s) ->
  OpenFar w dir name t = KeyError /\ OpenFstFromFar w dir name t n = KeyError /\ OpenFstFromFarSafe w dir name t n d = KeyError.
Proof.
  intro H. unfold OpenFstFromFar, OpenFar, OpenFstFromFarSafe. destruct (suffix_none t) as [->|[s E]]; [auto|].
  apply suffix_spec in E. now apply H in E.
Qed.
Lemma open_spec w dir name t s path n : suffix_of t s -> py_path dir (py_file name s) path ->
  (forall a, has_archive w path a -> OpenFar w dir name t = Val a /\ answer a (capital n) (OpenFstFromFar w dir name t n)) /\
  (no_archive w path -> raised (OpenFar w dir name t) /\ raised (OpenFstFromFar w dir name t n)).
Proof.
  intros T P. apply suffix_spec in T. apply slash_path in P.
  unfold OpenFstFromFar, OpenFar. rewrite T. cbn [py_bind].
  change (name ++ s ++ kFarExtn) with (py_file name s). rewrite P. unfold AsResourcePath, pynini_far. split.
  - intros a [p [H1 H2]]. rewrite H1. cbn [py_bind]. rewrite H2. cbn [py_bind]. split; [reflexivity|]. apply get_answer.
  - intro N. destruct (rlocation w path) as [p|] eqn:E; [|split; left; reflexivity].
    cbn [py_bind]. destruct (archives w p) as [a|] eqn:A; [|split; right; reflexivity].
    exfalso. apply (N a). now exists p.
Qed.
Lemma safe_spec w dir name t s path n d p : suffix_of t s -> py_path dir (py_file name s) path -> rlocation w path = Some p ->
  (isfile w p = false -> OpenFstFromFarSafe w dir name t n d = Val d) /\
  (isfile w p = true -> archives w p = None -> OpenFstFromFarSafe w dir name t n d = FstIOError) /\
  (forall a r, isfile w p = true -> archives w p = Some a -> answer a (capital n) r ->
     OpenFstFromFarSafe w dir name t n d = match r with KeyError => Val d | _ => r end).
Proof.
  intros T P L. apply suffix_spec in T. apply slash_path in P. unfold OpenFstFromFarSafe, IsFileExist, AsResourcePath, pynini_far. rewrite T. cbn [py_bind].
  change (name ++ s ++ kFarExtn) with (py_file name s). rewrite P, L. cbn [py_bind]. repeat split.
  - intros ->. reflexivity.
  - intros -> ->. reflexivity.
  - intros a r -> -> A. cbn [negb py_bind]. rewrite <- (answer_fun _ _ _ _ (get_answer a (capital n)) A). change (to_upper n) with (capital n). now destruct (get_item a (capital n)).
Qed.
Lemma safe_raises w dir name t s path n d : suffix_of t s -> py_path dir (py_file name s) path -> rlocation w path = None ->
  OpenFstFromFarSafe w dir name t n d = TypeError.
Proof.
  intros T P L. apply suffix_spec in T. apply slash_path in P. unfold OpenFstFromFarSafe, IsFileExist, AsResourcePath. rewrite T. cbn [py_bind].
  change (name ++ s ++ kFarExtn) with (py_file name s). now rewrite P, L.
Qed.
Lemma exist_spec w f : (forall p, rlocation w f = Some p -> IsFileExist w f = Val (isfile w p)) /\
  (rlocation w f = None -> IsFileExist w f = TypeError).
Proof. unfold IsFileExist, AsResourcePath. split; [intros p ->|intros ->]; reflexivity. Qed.

(** The object *)
Definition keeps (a : archive) (s : far) : Prop :=
  loaded s = Some a /\ forall k f, get_fst (cached s) k = Some f -> get_fst a k = Some f.
Lemma kept_call a w s rule : keeps a s -> fst (PyFst w s rule) = get_item a rule /\ keeps a (snd (PyFst w s rule)).
Proof.
  intros [K1 K2]. unfold PyFst. destruct (get_fst (cached s) rule) as [f|] eqn:C.
  - cbn [fst snd]. split; [|now split]. unfold get_item. now rewrite (K2 _ _ C).
  - unfold LoadFar. rewrite K1. cbn [py_bind fst snd]. split; [reflexivity|].
    unfold get_item. destruct (get_fst a rule) as [f|] eqn:G; [|now split].
    split; [exact K1|]. cbn [cached get_fst]. intros k f' H. destruct (str_eqb rule k) eqn:E.
    + apply str_eqb_eq in E as <-. congruence.
    + now apply K2.
Qed.
Lemma kept_calls a l : forall s, keeps a s -> PyCalls s l = map (fun c => get_item a (snd c)) l.
Proof.
  induction l as [|[w r] l IH]; intros s K; [reflexivity|]. cbn [PyCalls map snd].
  destruct (kept_call a w s r K) as [H1 H2]. destruct (PyFst w s r) as [x s1]. cbn [fst snd] in *. now rewrite H1, (IH _ H2).
Qed.
Lemma fresh_fails w path r : no_archive w path -> raised (fst (PyFst w (make_far path) r)) /\ snd (PyFst w (make_far path) r) = make_far path.
Proof.
  intro N. unfold PyFst, LoadFar, make_far, AsResourcePath, pynini_far. cbn [cached get_fst loaded path_to_far].
  destruct (rlocation w path) as [p|] eqn:E; [|split; [left|]; reflexivity].
  cbn [py_bind]. destruct (archives w p) as [a|] eqn:A; [|split; [right|]; reflexivity].
  exfalso. apply (N a). now exists p.
Qed.
Lemma fresh_loads w path r a : has_archive w path a -> fst (PyFst w (make_far path) r) = get_item a r /\ keeps a (snd (PyFst w (make_far path) r)).
Proof.
  intros [p [H1 H2]]. unfold PyFst, LoadFar, make_far, AsResourcePath, pynini_far. cbn [cached get_fst loaded path_to_far].
  rewrite H1. cbn [py_bind]. rewrite H2. cbn [py_bind fst snd loaded cached path_to_far]. split; [reflexivity|].
  unfold get_item. destruct (get_fst a r) as [f|] eqn:G.
  - split; [reflexivity|]. cbn [cached get_fst]. intros k f'. destruct (str_eqb r k) eqn:E; [|discriminate].
    apply str_eqb_eq in E as <-. congruence.
  - split; [reflexivity|]. intros k f'. discriminate.
Qed.
Lemma forall_answers a l : Forall2 (fun c => answer a (snd c)) l (map (fun c : world * str => get_item a (snd c)) l).
Proof. induction l; cbn [map]; constructor; auto using get_answer. Qed.
Lemma history path before w rule after a :
  Forall (fun c => no_archive (fst c) path) before -> has_archive w path a ->
  exists errors answers, PyCalls (make_far path) (before ++ (w, rule) :: after) = errors ++ answers /\
    List.length errors = List.length before /\ Forall raised errors /\ Forall2 (fun c => answer a (snd c)) ((w, rule) :: after) answers.
Proof.
  intros N H. induction N as [|[w0 r0] before N0 N IH].
  - exists [], (get_item a rule :: map (fun c => get_item a (snd c)) after). repeat split; auto.
    + cbn [PyCalls app]. destruct (fresh_loads w path rule a H) as [H1 H2]. destruct (PyFst w (make_far path) rule) as [x s1].
      cbn [fst snd] in *. now rewrite H1, (kept_calls _ _ _ H2).
    + constructor; [apply get_answer|apply forall_answers].
  - destruct IH as [errors [answers [I1 [I2 [I3 I4]]]]]. cbn [fst] in N0. destruct (fresh_fails w0 path r0 N0) as [F1 F2].
    exists (fst (PyFst w0 (make_far path) r0) :: errors), answers. repeat split; auto.
    + cbn [PyCalls app]. destruct (PyFst w0 (make_far path) r0) as [x s1]. cbn [fst snd] in *. subst s1. now rewrite I1.
    + cbn. now rewrite I2.
Qed.
Lemma history_none path l : Forall (fun c => no_archive (fst c) path) l -> Forall raised (PyCalls (make_far path) l) /\ List.length (PyCalls (make_far path) l) = List.length l.
Proof.
  induction 1 as [|[w r] l N0 N [I1 I2]]; [split; [constructor|reflexivity]|]. cbn [fst] in N0. destruct (fresh_fails w path r N0) as [F1 F2].
  cbn [PyCalls]. destruct (PyFst w (make_far path) r) as [x s1]. cbn [fst snd] in *. subst s1. split; [now constructor|]. cbn. now rewrite I2.
Qed.

(** Both *)
Lemma unique_entry a k f : NoDup (map fst a) -> (last_entry a k f <-> answer a k (Val f)).
Proof.
  intro D. split.
  - intros [x [y [-> H]]]. left. exists x, y, f. repeat split. rewrite map_app in D. cbn in D. apply NoDup_remove_2 in D.
    intro Q. apply D. apply in_or_app. now left.
  - intros [[x [y [g [-> [H E]]]]]|[_ E]]; [|discriminate]. injection E as <-. exists x, y. split; [reflexivity|].
    rewrite map_app in D. cbn in D. apply NoDup_remove_2 in D. intro Q. apply D. apply in_or_app. now right.
Qed.
Lemma agree locate w far_path name t s dir path p a b' n f : suffix_of t s -> no_capital name ->
  py_path far_path (py_file name s) path -> locate far_path = Some dir -> file_in dir (py_file name s) p ->
  rlocation w path = Some p -> archives w p = Some a -> NoDup (map fst a) ->
  Load locate (archives w) far_path (new_far (name ++ s)) = (Ok, b') ->
  (Fst b' n = Some f <-> OpenFstFromFar w far_path name t n = Val f).
Proof.
  intros T C P L FI R A D H. apply join_in in FI. subst p.
  assert (B : far_file (name ++ s) = py_file name s).
  { unfold far_file, py_file. rewrite app_assoc. f_equal. apply small_id. intros c I. apply in_app_or in I as [I|I]; [now apply C|].
    destruct T as [[_ ->]|[_ ->]]; [now destruct I|]. cbn in I.
    repeat (destruct I as [<-|I]; [lia|]). now destruct I. }
  apply load_finds in H as [d [p [es [H1 [H2 [H3 [H4 [_ H6]]]]]]]]. rewrite L in H1. injection H1 as <-.
  cbn [new_far far_name] in H2. rewrite B in H2. apply join_in in H2. subst p. rewrite A in H3. injection H3 as <-.
  rewrite (H6 n f), (unique_entry _ _ _ D).
  destruct (open_spec w far_path name t s path n T P) as [O _].
  destruct (O a (ex_intro _ _ (conj R A))) as [_ O2]. split.
  - intro Q. now rewrite (answer_fun _ _ _ _ O2 Q).
  - intros <-. exact O2.
Qed.
Lemma exact_names : exists w path n f b, has_archive w path (grm_mgr b) /\ Fst b n = Some f /\ PyCalls (make_far path) [(w, n)] = [KeyError].
Proof.
  pose (a := [([68; 69]%N, fun s : str => [(s, 0%N)])]).
  exists (World (fun p => Some p) (fun _ => true) (fun _ => Some a)), [120%N], [68; 101]%N, (fun s : str => [(s, 0%N)]), (FarBase [120%N] a).
  repeat split. now exists [120%N].
Qed.
