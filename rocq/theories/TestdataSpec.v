(** What writing and reading test data is meant to give. *)
From Coq Require Import String Ascii.
From Verif Require Import Base FileModel FileSpec.
Local Open Scope list_scope.

Definition ascii_text (s : string) : str := map N_of_ascii (list_ascii_of_string s).
(** The two comments at the head of a file *)
Definition heading : list string :=
  ["# proto-file: third_party/nisaba/interim/testing/testdata.proto"; "# proto-message: Rewrites"]%string.
Definition headed (body : str) : str := text_of (map ascii_text heading) body.
(** A parser that takes no notice of a line that is a comment *)
Definition ignores_comments {message} (parse : str -> bool * message) : Prop :=
  forall comment rest, one_line comment -> parse (35%N :: comment ++ 10%N :: rest) = parse rest.
