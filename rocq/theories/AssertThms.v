(** C83: what the checks of the grammar tests establish when they pass, and
    which error they end with when they do not. *)
From Verif Require Import Base AssertModel AssertSpec AssertProofs.
Local Open Scope N_scope.

(** Weights are read as whole numbers; nothing else is read. *)
Theorem C83_int : forall s z, py_int s = Some z <-> integer s z.
Proof. exact py_int_spec. Qed.
Print Assumptions C83_int.

Example C83_int_example :
  py_int [45; 49; 50] = Some (-12)%Z /\ py_int [49; 46; 53] = None.
Proof. split; reflexivity. Qed.

(** The single-path check passes for exactly one path. *)
Theorem C83_single_path : forall input s f,
  fst_string input = Some s ->
  (assert_single_path input f = Passes <-> length f = 1%nat) /\
  (assert_single_path input f = AssertionError <-> length f <> 1%nat).
Proof. exact single_path_spec. Qed.
Print Assumptions C83_single_path.

(** If the input is not a single string either, the error is another one. *)
Theorem C83_single_path_input : forall input f, length input <> 1%nat ->
  (assert_single_path input f = Passes <-> length f = 1%nat) /\
  (assert_single_path input f = FstOpError <-> length f <> 1%nat).
Proof. exact single_path_input. Qed.
Print Assumptions C83_single_path_input.

(** Its message speaks of several outputs, and so does its documentation, but
    it also fails when there is no output. *)
Theorem C83_single_path_refuted :
  exists input f, assert_single_path input f = AssertionError /\ ~ (length f > 1)%nat.
Proof.
  exists [([97], [48])], []. split; [reflexivity|]. simpl. intro H. inversion H.
Qed.
Print Assumptions C83_single_path_refuted.

Example C83_single_path_example :
  assert_single_path [([97], [48])] [([98], [48]); ([99], [49])] = AssertionError.
Proof. reflexivity. Qed.

(** The shortest-path check passes when exactly one output has the least
    weight, and raises AssertionError when two have it. *)
Theorem C83_single_shortest : forall input s f,
  fst_string input = Some s -> whole_weights f -> f <> [] ->
  (verify_single_shortest input f = Passes <->
   exists o, forall o', best f o' <-> o' = o) /\
  (verify_single_shortest input f = AssertionError <->
   exists a b, best f a /\ best f b /\ a <> b).
Proof. exact single_shortest_spec. Qed.
Print Assumptions C83_single_shortest.

Example C83_single_shortest_example :
  verify_single_shortest [([97], [48])]
    [([98], [49; 48]); ([99], [57]); ([99], [57]); ([100], [49; 49])] = Passes.
Proof. reflexivity. Qed.

(** It ends with ValueError when there is no output at all, or when a weight is
    not a whole number. *)
Theorem C83_single_shortest_error : forall input s f,
  fst_string input = Some s ->
  (verify_single_shortest input f = ValueError <-> f = [] \/ ~ whole_weights f).
Proof. exact single_shortest_error. Qed.
Print Assumptions C83_single_shortest_error.

Example C83_single_shortest_error_example :
  verify_single_shortest [([97], [48])] [([98], [48; 46; 53])] = ValueError.
Proof. reflexivity. Qed.

(** The identity check passes when the best outputs are the input and nothing
    else; it fails for no output and for another best output. *)
Theorem C83_identity : forall input s f,
  fst_string input = Some s -> whole_weights f ->
  (assert_identity input f = Passes <-> forall o, best f o <-> o = s) /\
  (assert_identity input f = AssertionError <->
   f = [] \/ exists o, best f o /\ o <> s).
Proof. exact identity_spec. Qed.
Print Assumptions C83_identity.

Example C83_identity_example :
  assert_identity [([97], [48])] [([98], [49; 48]); ([97], [57])] = Passes /\
  assert_identity [([97], [48])] [([98], [57]); ([97], [57])] = AssertionError.
Proof. split; reflexivity. Qed.

Theorem C83_identity_error : forall input s f,
  fst_string input = Some s ->
  (assert_identity input f = ValueError <-> ~ whole_weights f).
Proof. exact identity_error. Qed.
Print Assumptions C83_identity_error.

(** A sampled check passes when it passes for every sample; otherwise it ends
    with the error of the first sample that fails. *)
Theorem C83_sampled : forall run norm check samples,
  sampled run norm check samples = Passes <->
  forall l, In l samples -> check_sample run norm check l = Passes.
Proof. exact sampled_passes. Qed.
Print Assumptions C83_sampled.

Theorem C83_sampled_fails : forall run norm check samples e,
  e <> Passes ->
  (sampled run norm check samples = e <->
   exists a l b, samples = a ++ l :: b /\
     (forall x, In x a -> check_sample run norm check x = Passes) /\
     check_sample run norm check l = e).
Proof. exact sampled_fails. Qed.
Print Assumptions C83_sampled_fails.

(** What passing says about the machine on the samples. *)
Theorem C83_functional : forall run samples,
  (forall l c, In l samples -> In c l -> c <> 0) ->
  (probably_functional run samples = Passes <->
   forall l, In l samples -> length (run l) = 1%nat) /\
  (probably_functional run samples <> Passes ->
   probably_functional run samples = AssertionError).
Proof. exact functional_spec. Qed.
Print Assumptions C83_functional.

Example C83_functional_example :
  probably_functional (fun s => [(s, [48])]) [[97]; [97; 98]] = Passes /\
  probably_functional (fun s => map (fun c => ([c], [48])) s) [[97]; [97; 98]] = AssertionError.
Proof. split; reflexivity. Qed.

Theorem C83_shortest_samples : forall run samples,
  (forall l c, In l samples -> In c l -> c <> 0) ->
  (probably_single_shortest run samples = Passes <->
   forall l, In l samples ->
     whole_weights (run l) /\ exists o, forall o', best (run l) o' <-> o' = o).
Proof. exact shortest_samples. Qed.
Print Assumptions C83_shortest_samples.

Example C83_shortest_samples_example :
  probably_single_shortest (fun s => [(s, [49]); ([], [50])]) [[97]; [98]] = Passes.
Proof. reflexivity. Qed.

Theorem C83_identity_samples : forall run norm samples,
  (forall l c, In l samples -> In c l -> c <> 0) ->
  (probably_identity run norm samples = Passes <->
   forall l, In l samples ->
     whole_weights (run l) /\
     exists s w, norm l = [(s, w)] /\ forall o, best (run l) o <-> o = s).
Proof. exact identity_samples. Qed.
Print Assumptions C83_identity_samples.

(** A normaliser that is not functional on a sample is reported as an error of
    another kind. *)
Theorem C83_identity_norm : forall run norm l rest,
  (forall c, In c l -> c <> 0) -> length (norm l) <> 1%nat ->
  probably_identity run norm (l :: rest) = FstOpError.
Proof. exact norm_not_a_string. Qed.
Print Assumptions C83_identity_norm.

Example C83_identity_samples_example :
  probably_identity (fun s => [(rev s, [48])]) (fun s => [(rev s, [48])]) [[97; 98]] = Passes /\
  probably_identity (fun s => [(s, [48])]) (fun s => []) [[97; 98]] = FstOpError.
Proof. split; reflexivity. Qed.

(** Samples have at most five labels, not a hundred as documented: a machine
    that is ambiguous on longer strings only passes with every choice of
    samples. *)
Theorem C83_length_refuted :
  exists run : str -> list path,
    (exists s, (length (run s) > 1)%nat) /\
    forall samples,
      (forall l, In l samples -> (length l <= max_sample_length)%nat) ->
      probably_functional run samples = Passes.
Proof. exact length_refuted. Qed.
Print Assumptions C83_length_refuted.

(** Pairs of input and output: one path with the expected output. *)
Theorem C83_str_io : forall run i e,
  (assert_str_io run i e = Passes <-> exists w, run i = [(e, w)]) /\
  (assert_str_io run i e = AssertionError <-> exists o w, run i = [(o, w)] /\ o <> e) /\
  (assert_str_io run i e = FstOpError <-> length (run i) <> 1%nat).
Proof. exact str_io_spec. Qed.
Print Assumptions C83_str_io.

(** A table of cases passes when every pair holds for the machine of characters
    and for that of bytes. *)
Theorem C83_cases : forall builder (build : bool -> builder -> str -> list path) cases,
  all_cases builder build cases = Passes <->
  forall b pairs i e (utf8 : bool),
    In (b, pairs) cases -> In (i, e) pairs -> exists w, build utf8 b i = [(e, w)].
Proof. exact all_cases_spec. Qed.
Print Assumptions C83_cases.

Example C83_cases_example :
  all_cases N (fun utf8 b s => [(b :: s, [48])])
    [(1, [([97], [1; 97]); ([], [1])]); (2, [([98], [2; 98])])] = Passes /\
  all_cases N (fun utf8 b s => if utf8 then [(b :: s, [48])] else [])
    [(1, [([97], [1; 97])])] = FstOpError.
Proof. split; reflexivity. Qed.
