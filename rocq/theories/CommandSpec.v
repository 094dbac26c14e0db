(** What a command line says. *)
From Coq Require Import String Ascii.
From Verif Require Import Base CommandModel.
Local Open Scope list_scope.

Definition text (s : string) : str := map N_of_ascii (list_ascii_of_string s).

(** The last value given for a flag *)
Definition given (l : list (str * str)) (name v : str) : Prop :=
  exists a b, l = a ++ (name, v) :: b /\ ~ In name (map fst b).
(** The value of a flag: what is read from that, or else the default *)
Definition says {A} (read : str -> option A) (l : list (str * str)) (name : str) (default x : A) : Prop :=
  (exists v, given l name v /\ read v = Some x) \/ (~ In name (map fst l) /\ x = default).
Definition as_it_is (v : str) : option str := Some v.

(** All flags are known and all their values can be read. *)
Definition sound_args {K} (defined : list (str * K)) (can_read : K -> str -> Prop) (l : list (str * str)) : Prop :=
  forall name v, In (name, v) l -> exists k, In (name, k) defined /\ can_read k v.

(** The flags that a usage text names: after two hyphens, up to the equals sign *)
Definition usage_names (usage name : str) : Prop :=
  exists a b, usage = a ++ [45; 45]%N ++ name ++ [61]%N ++ b /\ ~ In 61%N name /\ ~ In 45%N name.
(** A name of a program, as long as it has no two hyphens in a row *)
Definition simple_name (program : str) : Prop := ~ exists a b, program = a ++ [45; 45]%N ++ b.

(** Which values can be read: all texts, and the numbers and truth values that the library reads *)
Definition can_read (read_number : str -> option Z) (read_truth : str -> option bool) (k : kind) (v : str) : Prop :=
  match k with Text => True | Number => read_number v <> None | Truth => read_truth v <> None end.

(** The text of the decoder's configuration: as given, or else from the file, or else empty *)
Definition config_source (read_file : str -> option str) (l : list (str * str)) (t : str) : Prop :=
  exists inline file, says as_it_is l (text "pairlm_config") [] inline /\
    says as_it_is l (text "pairlm_config_file") [] file /\
    ((inline <> [] /\ t = inline) \/ (inline = [] /\ file <> [] /\ read_file file = Some t) \/
     (inline = [] /\ file = [] /\ t = [])).

(** The file that is used as the pair model, from the flag for it, the flag for the language model
    and the configuration *)
Definition model_used (pair lm configured used : str) : Prop :=
  (lm <> [] /\ used = lm) \/ (lm = [] /\ pair <> [] /\ used = pair) \/ (lm = [] /\ pair = [] /\ used = configured).

(** The flags of the programs *)
Definition rejoin_options : list (str * kind) :=
  [(text "ifile", Text); (text "ofile", Text); (text "split_file", Text); (text "kbest", Number)].
Definition ensemble_options : list (str * kind) :=
  [(text "ifiles", Text); (text "ofile", Text); (text "input_length_file", Text); (text "kbest", Number)].
Definition extract_options : list (str * kind) :=
  [(text "ifile", Text); (text "ofile", Text); (text "kbest", Number); (text "show_score", Truth);
   (text "show_full_input_string", Truth)].
Definition error_rate_options : list (str * kind) :=
  [(text "reference", Text); (text "testfile", Text); (text "ofile", Text); (text "split_chars", Truth);
   (text "pairwise_edits", Truth)].
Definition decoder_options : list (str * kind) :=
  [(text "ifile", Text); (text "ofile", Text); (text "kbest", Number); (text "pairlm_config", Text);
   (text "pairlm_config_file", Text); (text "num_workers", Number);
   (text "input_pairlm_fst_file", Text); (text "input_lm_fst_file", Text)].
