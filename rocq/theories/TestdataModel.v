(** Model of nisaba/interim/testing/testdata.cc and of RETURN_IF_ERROR of
    nisaba/port/status_macros.h, on top of the files and streams of FileModel.  The
    parsers and the printer of protobuf are parameters. *)
From Verif Require Import Base KbestModel FileModel.

(** status_macros.h, lines 44-54 *)
Definition return_if_error {A} (st : status unit) (k : status A) : status A :=
  match st with
  | Ok _ => k
  | PermissionDenied => PermissionDenied
  | NotFound => NotFound
  | Internal => Internal
  | InvalidArgument => InvalidArgument
  end.

(** OkStatus, and the three texts of UnknownError *)
Inductive set_status := SetOk | HeaderFailed | ProtoFailed | ClosingFailed.

(** Lines 45-48 *)
Definition kOutputFileHeader : str :=
  [35; 32; 112; 114; 111; 116; 111; 45; 102; 105; 108; 101; 58; 32; 116; 104; 105; 114; 100; 95; 112;
   97; 114; 116; 121; 47; 110; 105; 115; 97; 98; 97; 47; 105; 110; 116; 101; 114; 105; 109; 47; 116;
   101; 115; 116; 105; 110; 103; 47; 116; 101; 115; 116; 100; 97; 116; 97; 46; 112; 114; 111; 116; 111;
   10; 35; 32; 112; 114; 111; 116; 111; 45; 109; 101; 115; 115; 97; 103; 101; 58; 32; 82; 101; 119;
   114; 105; 116; 101; 115; 10]%N.

Section Messages.
  Variable message : Type.
  (** Rewrites() *)
  Variable default : message.
  Variables text_parse binary_parse : str -> bool * message.
  (** Lines 54-58: the text that the printer makes *)
  Variable print : message -> str.
  (** The operating system and the block size of the stream, as in FileModel *)
  Variable takes : str -> str -> nat.
  Variable closes : str -> bool.
  Variable block_size : nat.

  (** Lines 31-36 *)
  Definition GetRewritesTextProto (d : disk) (filename : str) : status message :=
    let (st, rewrites) := GetTextProto message text_parse binary_parse d filename default Defaults in
    return_if_error st (Ok rewrites).

  (** WriteCord and Print: bytes are put until this fails *)
  Fixpoint write_bytes (s : stream) (bytes : str) : run (bool * stream) :=
    match bytes with
    | [] => Fine (true, s)
    | c :: bytes' => bind (put takes block_size s c) (fun r =>
        let (ok, s1) := r in if ok then write_bytes s1 bytes' else Fine (false, s1))
    end.
  Definition close (s : stream) : run (bool * stream) := apply_call takes closes block_size s Close.
  (** The end of the function, where the stream is destroyed *)
  Definition finish (d : disk) (filename : str) (st : set_status) (s : stream) : run (set_status * disk) :=
    bind (delete_stream takes closes s) (fun s1 => Fine (st, set_file d filename (data s1))).
  (** Lines 39-65; OpenOrDie with "w" makes the file empty or ends the program *)
  Definition SetRewritesTextProto (d : disk) (filename : str) (rewrites : message) : run (set_status * disk) :=
    if may_write d filename then
      bind (write_bytes (new_stream []) kOutputFileHeader) (fun r =>
      let (header_written, s1) := r in
      if negb header_written then bind (close s1) (fun q => finish d filename HeaderFailed (snd q))
      else bind (write_bytes s1 (print rewrites)) (fun r2 =>
           let (proto_written, s2) := r2 in
           if negb proto_written then bind (close s2) (fun q => finish d filename ProtoFailed (snd q))
           else bind (close s2) (fun q =>
                if negb (fst q) then finish d filename ClosingFailed (snd q)
                else finish d filename SetOk (snd q))))
    else Check.
End Messages.
