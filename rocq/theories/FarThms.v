(** C89: opening archives. *)
From Coq Require Import String.
From Verif Require Import Base GrammarModel GrammarSpec FarModel FarSpec FarProofs.
Local Open Scope list_scope.

(** ** C++ *)
(** An archive is loaded exactly if its file is there and not empty; names are then
    looked up in capitals, and the last entry of a name counts. *)
Theorem C89_load : forall locate files far_path b b', Load locate files far_path b = (Ok, b') ->
  exists dir path es, locate far_path = Some dir /\ file_in dir (far_file (far_name b)) path /\ files path = Some es /\ es <> [] /\
    far_name b' = far_name b /\ forall name f, Fst b' name = Some f <-> last_entry es (capital name) f.
Proof. exact load_finds. Qed.
Print Assumptions C89_load.
Theorem C89_load_works : forall locate files far_path b dir path es, locate far_path = Some dir ->
  file_in dir (far_file (far_name b)) path -> files path = Some es -> es <> [] -> exists b', Load locate files far_path b = (Ok, b').
Proof. exact load_works. Qed.
Print Assumptions C89_load_works.
(** A failure says why, and leaves the object as it was, except for an empty archive. *)
Theorem C89_load_fails : forall locate files far_path b r b', Load locate files far_path b = (r, b') -> r <> Ok ->
  (locate far_path = None /\ r = No_runfiles /\ b' = b) \/
  exists dir path, locate far_path = Some dir /\ file_in dir (far_file (far_name b)) path /\ r = Load_failed path /\
    (files path = None /\ b' = b \/ files path = Some [] /\ far_name b' = far_name b /\ forall name, Fst b' name = None).
Proof. exact load_fails. Qed.
Print Assumptions C89_load_fails.
Theorem C89_brahmic : forall locate files b,
  BrahmicLoad locate files b = Load locate files (letters_of "com_google_nisaba/nisaba/scripts/brahmic"%string) b.
Proof. exact brahmic_load. Qed.
Print Assumptions C89_brahmic.
(** Neither names of archives nor names of transducers depend on the case of letters. *)
Theorem C89_any_case : forall b n n', small n = small n' -> Fst b n = Fst b n'.
Proof. exact names_any_case. Qed.
Print Assumptions C89_any_case.
Theorem C89_load_any_case : forall locate files far_path n n' m, small n = small n' ->
  fst (Load locate files far_path (FarBase n m)) = fst (Load locate files far_path (FarBase n' m)) /\
  forall name, Fst (snd (Load locate files far_path (FarBase n m))) name = Fst (snd (Load locate files far_path (FarBase n' m))) name.
Proof. exact load_any_case. Qed.
Print Assumptions C89_load_any_case.
(** So entries whose names have small letters are out of reach; all others are found. *)
Theorem C89_only_capitals : forall b n f, Fst b n = Some f -> exists k, In (k, f) (grm_mgr b) /\ no_small k.
Proof. exact only_capitals. Qed.
Print Assumptions C89_only_capitals.
Theorem C89_capitals_found : forall locate files far_path b b' k f, Load locate files far_path b = (Ok, b') -> no_small k ->
  (Fst b' k = Some f <-> exists dir path es, locate far_path = Some dir /\ file_in dir (far_file (far_name b)) path /\ files path = Some es /\
    last_entry es k f).
Proof. exact loaded_reachable. Qed.
Print Assumptions C89_capitals_found.
(** Where directories of runfiles are known, a grammar (C36) has the same transducers. *)
Theorem C89_grammar : forall locate files far_path name fst_name dir, locate far_path = Some dir ->
  locate (join_path far_path (far_file name)) = Some (join_path dir (far_file name)) ->
  let g := snd (load locate files (make_grammar far_path name fst_name)) in
  let r := Load locate files far_path (new_far name) in
  (fst (load locate files (make_grammar far_path name fst_name)) = Ok -> fst r = Ok) /\
  (forall n, Fst (snd r) n = get_fst (g_archive g) (capital n)).
Proof. exact grammar_same. Qed.
Print Assumptions C89_grammar.
(** Where only files are known, the archive is looked for in the working directory. *)
Theorem C89_directory_refuted : exists locate files far_path name es,
  locate (join_path far_path (far_file name)) = Some (join_path far_path (far_file name)) /\
  files (join_path far_path (far_file name)) = Some es /\ es <> [] /\
  locate far_path = Some [] /\
  fst (Load locate files far_path (new_far name)) = Load_failed (far_file name).
Proof. exact directory_unknown. Qed.
Print Assumptions C89_directory_refuted.
Theorem C89_working_directory : forall locate files far_path b es, locate far_path = Some [] ->
  files (far_file (far_name b)) = Some es -> es <> [] -> exists b', Load locate files far_path b = (Ok, b').
Proof. exact working_directory. Qed.
Print Assumptions C89_working_directory.
Theorem C89_test_path : forall locate dir file,
  (forall path, file_in dir file path -> locate path = None -> TestFilePath locate dir file = []) /\
  forall path p, file_in dir file path -> locate path = Some p -> TestFilePath locate dir file = p.
Proof. exact test_path. Qed.
Print Assumptions C89_test_path.

(** ** Python *)
(** Whatever happens to the files: calls fail until the archive can be opened, and from
    then on all answers come from what was opened first. *)
Theorem C89_history : forall path before w rule after a,
  Forall (fun c => no_archive (fst c) path) before -> has_archive w path a ->
  exists errors answers, PyCalls (make_far path) (before ++ (w, rule) :: after) = errors ++ answers /\
    List.length errors = List.length before /\ Forall raised errors /\ Forall2 (fun c => answer a (snd c)) ((w, rule) :: after) answers.
Proof. exact history. Qed.
Print Assumptions C89_history.
Theorem C89_history_none : forall path l, Forall (fun c => no_archive (fst c) path) l ->
  Forall raised (PyCalls (make_far path) l) /\ List.length (PyCalls (make_far path) l) = List.length l.
Proof. exact history_none. Qed.
Print Assumptions C89_history_none.
Theorem C89_answer : forall a k r r', answer a k r -> answer a k r' -> r = r'.
Proof. exact answer_fun. Qed.
Print Assumptions C89_answer.
Theorem C89_open : forall w dir name t s path n, suffix_of t s -> py_path dir (py_file name s) path ->
  (forall a, has_archive w path a -> OpenFar w dir name t = Val a /\ answer a (capital n) (OpenFstFromFar w dir name t n)) /\
  (no_archive w path -> raised (OpenFar w dir name t) /\ raised (OpenFstFromFar w dir name t n)).
Proof. exact open_spec. Qed.
Print Assumptions C89_open.
Theorem C89_bad_token : forall w dir name t n d, (forall s, ~ suffix_of t s) ->
  OpenFar w dir name t = KeyError /\ OpenFstFromFar w dir name t n = KeyError /\ OpenFstFromFarSafe w dir name t n d = KeyError.
Proof. exact bad_token. Qed.
Print Assumptions C89_bad_token.
(** The safe variant gives the default if the file or the name is missing, but not if
    the file is no archive ... *)
Theorem C89_safe : forall w dir name t s path n d p, suffix_of t s -> py_path dir (py_file name s) path -> rlocation w path = Some p ->
  (isfile w p = false -> OpenFstFromFarSafe w dir name t n d = Val d) /\
  (isfile w p = true -> archives w p = None -> OpenFstFromFarSafe w dir name t n d = FstIOError) /\
  (forall a r, isfile w p = true -> archives w p = Some a -> answer a (capital n) r ->
     OpenFstFromFarSafe w dir name t n d = match r with KeyError => Val d | _ => r end).
Proof. exact safe_spec. Qed.
Print Assumptions C89_safe.
(** ... and it raises an error for files that runfiles do not know, as IsFileExist does. *)
Theorem C89_safe_refuted : forall w dir name t s path n d, suffix_of t s -> py_path dir (py_file name s) path -> rlocation w path = None ->
  OpenFstFromFarSafe w dir name t n d = TypeError.
Proof. exact safe_raises. Qed.
Print Assumptions C89_safe_refuted.
Theorem C89_is_file : forall w f, (forall p, rlocation w f = Some p -> IsFileExist w f = Val (isfile w p)) /\
  (rlocation w f = None -> IsFileExist w f = TypeError).
Proof. exact exist_spec. Qed.
Print Assumptions C89_is_file.

(** ** Both *)
Theorem C89_agree : forall locate w far_path name t s dir path p a b' n f, suffix_of t s -> no_capital name ->
  py_path far_path (py_file name s) path -> locate far_path = Some dir -> file_in dir (py_file name s) p ->
  rlocation w path = Some p -> archives w p = Some a -> NoDup (map fst a) ->
  Load locate (archives w) far_path (new_far (name ++ s)) = (Ok, b') ->
  (Fst b' n = Some f <-> OpenFstFromFar w far_path name t n = Val f).
Proof. exact agree. Qed.
Print Assumptions C89_agree.
(** But the class Far of Python takes names as they are. *)
Theorem C89_exact_names_refuted : exists w path n f b, has_archive w path (grm_mgr b) /\ Fst b n = Some f /\ PyCalls (make_far path) [(w, n)] = [KeyError].
Proof. exact exact_names. Qed.
Print Assumptions C89_exact_names_refuted.

(** Far("ISO") in /r/b with one entry DEVA; Fst("Deva") *)
Example C89_example_load :
  let files p := if str_eqb p (letters_of "/r/b/iso.far"%string) then Some [(letters_of "DEVA"%string, fun s : str => [(s, 7%N)])] else None in
  let r := Load (fun p => Some (letters_of "/r/"%string ++ p)) files (letters_of "b"%string) (new_far (letters_of "ISO"%string)) in
  fst r = Ok /\ option_map (fun f => f [1%N]) (Fst (snd r) (letters_of "Deva"%string)) = Some [([1%N], 7%N)] /\ Fst (snd r) (letters_of "Beng"%string) = None.
Proof. repeat split. Qed.
(** The file is missing, then there, then changed *)
Example C89_example_history :
  let w n := World (fun p => Some p) (fun _ => true) (fun _ => match n with 0 => None | S m => Some [([65%N], fun _ : str => [([], N.of_nat m)])] end) in
  map (fun r => match r with Val f => Some (f []) | _ => None end)
    (PyCalls (make_far [120%N]) [(w 0, [65%N]); (w 1, [66%N]); (w 2, [65%N]); (w 0, [65%N])]) =
  [None; None; Some [([], 0%N)]; Some [([], 0%N)]].
Proof. reflexivity. Qed.
Example C89_example_safe :
  OpenFstFromFarSafe (World (fun _ => None) (fun _ => false) (fun _ => None)) [100%N] [120%N] (letters_of "utf8"%string) [65%N] (fun _ => []) = TypeError.
Proof. reflexivity. Qed.
Example C89_example_path : py_path [100%N] (py_file [120%N] (letters_of "_utf8"%string)) (letters_of "d/x_utf8.far"%string).
Proof. right. repeat split; [intros [t H]; discriminate|discriminate]. Qed.
