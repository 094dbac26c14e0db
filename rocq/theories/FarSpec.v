(** What opening archives is meant to give. *)
From Coq Require Import Ascii String.
From Verif Require Import Base GrammarModel GrammarSpec FarModel.
Local Open Scope list_scope.

(** A file of a directory *)
Definition file_in (dir base path : str) : Prop :=
  (is_prefix [47%N] base \/ dir = []) /\ path = base \/
  ~ is_prefix [47%N] base /\ is_suffix [47%N] dir /\ path = dir ++ base \/
  ~ is_prefix [47%N] base /\ dir <> [] /\ ~ is_suffix [47%N] dir /\ path = dir ++ [47%N] ++ base.
(** The file name of an archive *)
Definition far_file (name : str) : str := small name ++ letters_of ".far"%string.
(** No letters a to z *)
Definition no_small (s : str) : Prop := forall c, In c s -> ~ (97 <= c <= 122)%N.
Definition no_capital (s : str) : Prop := forall c, In c s -> ~ (65 <= c <= 90)%N.

(** The file of an archive for Python, and its token types *)
Definition suffix_of (token_type suffix : str) : Prop :=
  token_type = letters_of "byte"%string /\ suffix = [] \/ token_type = letters_of "utf8"%string /\ suffix = letters_of "_utf8"%string.
Definition py_file (name suffix : str) : str := name ++ suffix ++ letters_of ".far"%string.
Definition py_path (dir base path : str) : Prop :=
  (is_prefix [47%N] base \/ dir = []) /\ path = base \/
  ~ is_prefix [47%N] base /\ dir <> [] /\ path = dir ++ [47%N] ++ base.

(** The archive that the world has for a path *)
Definition has_archive (w : world) (path : str) (a : archive) : Prop :=
  exists p, rlocation w path = Some p /\ archives w p = Some a.
Definition no_archive (w : world) (path : str) : Prop := forall a, ~ has_archive w path a.
(** The answer of an archive to a name *)
Definition answer (a : archive) (name : str) (r : py wfst) : Prop :=
  (exists before after f, a = before ++ (name, f) :: after /\ ~ In name (map fst before) /\ r = Val f) \/
  ~ In name (map fst a) /\ r = KeyError.
Definition raised {A} (r : py A) : Prop := r = TypeError \/ r = FstIOError.
