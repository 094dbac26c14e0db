(** C90: writing and reading files of test data. *)
From Coq Require Import String.
From Verif Require Import Base KbestModel FileModel FileSpec TestdataModel TestdataSpec TestdataProofs.
Local Open Scope list_scope.

(** After success the file has the two comments and the printed message; no other file
    has changed. *)
Theorem C90_set_ok : forall message print takes closes block_size d f (r : message) d',
  SetRewritesTextProto message print takes closes block_size d f r = Fine (SetOk, d') ->
  file_at d' f = Some (headed (print r)) /\ closes (headed (print r)) = true /\ forall g, g <> f -> file_at d' g = file_at d g.
Proof. exact @set_ok. Qed.
Print Assumptions C90_set_ok.
(** What was written with success reads back, if comments are ignored and printed
    messages can be parsed. *)
Theorem C90_round_trip : forall message default (text_parse binary_parse : str -> bool * message) print takes closes block_size d f r d',
  ignores_comments text_parse -> text_parse (print r) = (true, r) ->
  SetRewritesTextProto message print takes closes block_size d f r = Fine (SetOk, d') ->
  GetRewritesTextProto message default text_parse binary_parse d' f = Ok r.
Proof. exact @set_get. Qed.
Print Assumptions C90_round_trip.
(** Whatever the system does, the function returns, and the file has a beginning of the
    text; but if the file cannot be opened the program ends. *)
Theorem C90_set_any : forall message print takes closes block_size d f (r : message), may_write d f = true ->
  exists st d' contents, SetRewritesTextProto message print takes closes block_size d f r = Fine (st, d') /\
    file_at d' f = Some contents /\ is_prefix contents (headed (print r)) /\ forall g, g <> f -> file_at d' g = file_at d g.
Proof. exact @set_any. Qed.
Print Assumptions C90_set_any.
Theorem C90_set_dies : forall message print takes closes block_size d f (r : message), may_write d f = false ->
  SetRewritesTextProto message print takes closes block_size d f r = Check.
Proof. exact @set_dies. Qed.
Print Assumptions C90_set_dies.
(** If all bytes are taken, only closing can fail, and the text is there. *)
Theorem C90_set_works : forall message print takes closes block_size d f (r : message), may_write d f = true -> takes_all takes ->
  exists d', SetRewritesTextProto message print takes closes block_size d f r =
      Fine (if closes (headed (print r)) then SetOk else ClosingFailed, d') /\ file_at d' f = Some (headed (print r)).
Proof. exact @set_works. Qed.
Print Assumptions C90_set_works.
(** Errors are found when a block is full: with the heading in one block its error is
    never reported, and for short messages every error is one of closing. *)
Theorem C90_set_errors : forall message print takes closes block_size d f (r : message) st d',
  SetRewritesTextProto message print takes closes block_size d f r = Fine (st, d') ->
  (List.length (headed []) <= block_size -> st <> HeaderFailed) /\
  (List.length (headed (print r)) <= block_size -> st = SetOk \/ st = ClosingFailed).
Proof. exact @set_errors. Qed.
Print Assumptions C90_set_errors.
(** An error loses what the file had before. *)
Theorem C90_keep_refuted : exists takes closes d d',
  SetRewritesTextProto str (fun m => m) takes closes 200 d [102%N] [97%N] = Fine (ClosingFailed, d') /\
  file_at d [102%N] = Some [98%N] /\ file_at d' [102%N] = Some [].
Proof. exact old_lost. Qed.
Print Assumptions C90_keep_refuted.
(** Reading succeeds exactly for files that are not empty and that one of the parsers
    takes, the one for texts first; there is one kind of error. *)
Theorem C90_get : forall message default (text_parse binary_parse : str -> bool * message) d f m,
  GetRewritesTextProto message default text_parse binary_parse d f = Ok m <->
  exists c, file_at d f = Some c /\ c <> [] /\ (text_parse c = (true, m) \/ fst (text_parse c) = false /\ binary_parse c = (true, m)).
Proof. exact @get_spec. Qed.
Print Assumptions C90_get.
Theorem C90_get_error : forall message default (text_parse binary_parse : str -> bool * message) d f,
  (exists m, GetRewritesTextProto message default text_parse binary_parse d f = Ok m) \/
  GetRewritesTextProto message default text_parse binary_parse d f = InvalidArgument.
Proof. exact @get_error. Qed.
Print Assumptions C90_get_error.
Theorem C90_heading : forall message (parse : str -> bool * message) body, ignores_comments parse -> parse (headed body) = parse body.
Proof. exact @headed_parse. Qed.
Print Assumptions C90_heading.

(** A system that takes everything, blocks of 10 bytes, a message printed as "x" *)
Example C90_example_set : exists d',
  SetRewritesTextProto str (fun m => m) (fun _ b => List.length b) (fun _ => true) 10 (Disk (fun _ => None) (fun _ => true) 0) [102%N] [120%N] = Fine (SetOk, d') /\
  file_at d' [102%N] = Some (ascii_text "# proto-file: third_party/nisaba/interim/testing/testdata.proto"%string ++ [10%N] ++
    ascii_text "# proto-message: Rewrites"%string ++ [10%N] ++ [120%N]).
Proof. eexists. split; [vm_compute; reflexivity|reflexivity]. Qed.
(** Nothing is taken after 20 bytes: the heading fails; in large blocks, closing fails *)
Example C90_example_full :
  let run_ b := match SetRewritesTextProto str (fun m => m) (fun old _ => 20 - List.length old) (fun _ => true) b
                  (Disk (fun _ => None) (fun _ => true) 0) [102%N] [120%N] with Fine (st, d') => Some (st, option_map (@List.length N) (file_at d' [102%N])) | _ => None end in
  run_ 10 = Some (HeaderFailed, Some 20) /\ run_ 200 = Some (ClosingFailed, Some 20).
Proof. split; vm_compute; reflexivity. Qed.
Example C90_example_get : GetRewritesTextProto str [] (fun c => (prefixb [97%N] c, c)) (fun c => (true, [1%N])) (Disk (fun f => if str_eqb f [102%N] then Some [97%N] else Some []) (fun _ => true) 0) [102%N] = Ok [97%N].
Proof. reflexivity. Qed.
