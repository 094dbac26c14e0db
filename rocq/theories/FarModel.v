(** Model of nisaba/scripts/utils/far_base.{h,cc}, nisaba/scripts/brahmic/far.{h,cc},
    nisaba/port/test_utils.cc, and of what opens archives in
    nisaba/scripts/utils/{far,file}.py.  Where runfiles are and what the files hold are
    parameters.  Names are ASCII.  Texts of errors are not modelled. *)
From Verif Require Import Base GrammarModel.

(** ** C++ *)
(** far_base.h, lines 48-49 *)
Record far_base := FarBase { far_name : str; grm_mgr : archive }.
(** far_base.h, line 40 *)
Definition new_far (name : str) : far_base := FarBase name [].
(** far_base.h, line 28 *)
Definition kFarExtn : str := [46; 102; 97; 114]%N.
(** far.cc, line 20: com_google_nisaba/nisaba/scripts/brahmic *)
Definition kFarPath : str :=
  [99; 111; 109; 95; 103; 111; 111; 103; 108; 101; 95; 110; 105; 115; 97; 98; 97; 47; 110; 105; 115; 97; 98; 97; 47; 115; 99; 114; 105; 112; 116; 115; 47; 98; 114; 97; 104; 109; 105; 99]%N.

Section World.
  (** file::GetRunfilesResourcePath; the archive in a file that can be opened as one *)
  Variable locate : str -> option str.
  Variable files : str -> option archive.

  (** far_base.cc, lines 23-34 *)
  Definition Load (far_path : str) (b : far_base) : status * far_base :=
    match locate far_path with
    | None => (No_runfiles, b)
    | Some far_dir =>
      let far_file := join_path far_dir (to_lower (far_name b) ++ kFarExtn) in
      let (ok, m) := load_file files far_file (grm_mgr b) in
      (if ok then Ok else Load_failed far_file, FarBase (far_name b) m)
    end.
  (** far.cc, lines 23-25 *)
  Definition BrahmicLoad (b : far_base) : status * far_base := Load kFarPath b.
  (** test_utils.cc, lines 31-41; make_preferred changes nothing where the separator is
      a slash *)
  Definition TestFilePath (dir_name file_name : str) : str :=
    match locate (join_path dir_name file_name) with Some path => path | None => [] end.
End World.
(** far_base.cc, lines 36-38 *)
Definition Fst (b : far_base) (fst_name : str) : option wfst := get_fst (grm_mgr b) (to_upper fst_name).

(** ** Python *)
Inductive py (A : Type) :=
| Val (a : A)
| TypeError (** no runfiles, or Path(None) *)
| FstIOError
| KeyError.
Arguments Val {A}. Arguments TypeError {A}. Arguments FstIOError {A}. Arguments KeyError {A}.
Definition py_bind {A B} (r : py A) (f : A -> py B) : py B :=
  match r with Val a => f a | TypeError => TypeError | FstIOError => FstIOError | KeyError => KeyError end.

(** Rlocation, None if it does not know the file; os.path.isfile; the archive in a file *)
Record world := World { rlocation : str -> option str; isfile : str -> bool; archives : str -> option archive }.

(** pynini.Far(path, "r") and far[key]; the keys of an archive are distinct *)
Definition pynini_far (w : world) (path : str) : py archive :=
  match archives w path with Some a => Val a | None => FstIOError end.
Definition get_item (a : archive) (key : str) : py wfst :=
  match get_fst a key with Some f => Val f | None => KeyError end.

(** file.py, lines 29-31; Path leaves the path as it is *)
Definition AsResourcePath (w : world) (filename : str) : py str :=
  match rlocation w filename with Some p => Val p | None => TypeError end.
(** file.py, lines 34-42; TypeError is not an IOError *)
Definition IsFileExist (w : world) (filename : str) : py bool :=
  py_bind (AsResourcePath w filename) (fun p => Val (isfile w p)).
(** The operator / of pathlib *)
Definition slash (dir name : str) : str :=
  match name with
  | 47%N :: _ => name
  | _ => match dir with [] => name | _ => dir ++ [47%N] ++ name end
  end.
Definition s_byte : str := [98; 121; 116; 101]%N.
Definition s_utf8 : str := [117; 116; 102; 56]%N.
(** file.py, lines 69 and 85 *)
Definition tt_suffix (token_type : str) : py str :=
  if str_eqb token_type s_byte then Val []
  else if str_eqb token_type s_utf8 then Val (95%N :: s_utf8)
  else KeyError.
(** file.py, lines 66-71 *)
Definition OpenFar (w : world) (far_dir far_name token_type : str) : py archive :=
  py_bind (tt_suffix token_type) (fun suffix =>
  let far_path := slash far_dir (far_name ++ suffix ++ kFarExtn) in
  py_bind (AsResourcePath w far_path) (fun p => pynini_far w p)).
(** file.py, lines 74-78 *)
Definition OpenFstFromFar (w : world) (far_dir far_name token_type fst_name : str) : py wfst :=
  py_bind (OpenFar w far_dir far_name token_type) (fun far => get_item far (to_upper fst_name)).
(** file.py, lines 81-93 *)
Definition OpenFstFromFarSafe (w : world) (far_dir far_name token_type fst_name : str) (default : wfst) : py wfst :=
  py_bind (tt_suffix token_type) (fun suffix =>
  let far_path := slash far_dir (far_name ++ suffix ++ kFarExtn) in
  py_bind (IsFileExist w far_path) (fun exists_ =>
  if negb exists_ then Val default
  else py_bind (AsResourcePath w far_path) (fun p =>
       py_bind (pynini_far w p) (fun far =>
       match get_item far (to_upper fst_name) with
       | KeyError => Val default
       | r => r
       end)))).

(** far.py, lines 85-99: an object with what its two caches hold; exceptions are not kept *)
Record far := PyFar { path_to_far : str; loaded : option archive; cached : archive }.
Definition make_far (path : str) : far := PyFar path None [].
(** far.py, lines 92-94 *)
Definition LoadFar (w : world) (s : far) : py archive * far :=
  match loaded s with
  | Some a => (Val a, s)
  | None =>
    let r := py_bind (AsResourcePath w (path_to_far s)) (fun p => pynini_far w p) in
    (r, match r with Val a => PyFar (path_to_far s) (Some a) (cached s) | _ => s end)
  end.
(** far.py, lines 96-99 *)
Definition PyFst (w : world) (s : far) (rule_name : str) : py wfst * far :=
  match get_fst (cached s) rule_name with
  | Some f => (Val f, s)
  | None =>
    let (a, s1) := LoadFar w s in
    let r := py_bind a (fun far => get_item far rule_name) in
    (r, match r with
        | Val f => PyFar (path_to_far s1) (loaded s1) ((rule_name, f) :: cached s1)
        | _ => s1
        end)
  end.
(** Calls of Fst, each in the world as it is then *)
Fixpoint PyCalls (s : far) (l : list (world * str)) : list (py wfst) :=
  match l with
  | [] => []
  | (w, rule) :: l' => let (r, s1) := PyFst w s rule in r :: PyCalls s1 l'
  end.
