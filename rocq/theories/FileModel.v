(** Model of nisaba/port/file_util.cc, nisaba/port/file.cc and
    nisaba/port/proto_file_stream.cc.  Line numbers of a part refer to the file named
    at its head.  The operating system is a parameter: which paths may be written, how
    many bytes a file may hold and how many bytes a call reads or writes.  Messages of
    errors and logs are not modelled, nor files changed by others. *)
From Verif Require Import Base KbestModel.

(** ** nisaba/port/file_util.cc *)
Record disk := Disk { file_at : str -> option str; may_write : str -> bool; room : nat }.
Definition set_file (d : disk) (path contents : str) : disk :=
  Disk (fun p => if str_eqb p path then Some contents else file_at d p) (may_write d) (room d).

Inductive status (A : Type) := Ok (a : A) | PermissionDenied | NotFound | Internal | InvalidArgument.
Arguments Ok {A}. Arguments PermissionDenied {A}. Arguments NotFound {A}. Arguments Internal {A}.
Arguments InvalidArgument {A}.
Definition is_ok {A} (s : status A) : bool := match s with Ok _ => true | _ => false end.

(** std::filesystem::path, operator/ *)
Definition path_append (dir filename : str) : str :=
  match filename with
  | 47%N :: _ => filename
  | _ => match rev dir with
         | [] => filename
         | 47%N :: _ => dir ++ filename
         | _ => dir ++ [47%N] ++ filename
         end
  end.
(** lines 83-91 *)
Definition TempFilePath (tmp_dir filename : str) : str := path_append tmp_dir filename.

Section Output.
  (** Contents that stay in the buffer of the stream until it is destroyed, so that
      errors are found after the last test only *)
  Variable buffered : str -> bool.
  Definition stream_fails (d : disk) (contents : str) : bool :=
    if buffered contents then false else negb (length contents <=? room d).
  Definition written (d : disk) (path contents : str) : disk := set_file d path (firstn (room d) contents).

  (** lines 93-105 *)
  Definition WriteTempTextFile (tmp_dir : str) (d : disk) (filename contents : str) : status str * disk :=
    let path := TempFilePath tmp_dir filename in
    if may_write d path then
      (if stream_fails d contents then Internal else Ok path, written d path contents)
    else (PermissionDenied, d).
  (** lines 107-121 *)
  Definition WriteTextFile (d : disk) (file_path contents : str) : status unit * disk :=
    if may_write d file_path then
      (if stream_fails d contents then PermissionDenied else Ok tt, written d file_path contents)
    else (PermissionDenied, d).
End Output.

(** ReadFile, lines 125-146; ReadBinaryFile and ReadTextFile, lines 150-156, are the
    same function *)
Definition ReadTextFile (d : disk) (file_path : str) : status str :=
  match file_at d file_path with
  | None => NotFound
  | Some [] => Internal
  | Some contents => Ok contents
  end.

(** std::getline until it fails; [line] is what has been read of the line *)
Fixpoint getlines (input line : str) : list str :=
  match input with
  | [] => match line with [] => [] | _ => [line] end
  | c :: input' => if N.eqb c 10 then line :: getlines input' [] else getlines input' (line ++ [c])
  end.
Fixpoint set_at (l : str) (i : nat) (c : N) : run str :=
  match l, i with
  | [], _ => OutOfRange
  | _ :: l', 0 => Fine (c :: l')
  | x :: l', S i' => bind (set_at l' i' c) (fun r => Fine (x :: r))
  end.
Definition kDefaultMaxLineLength : Z := 32768.
(** lines 160-161 *)
Definition max_length_of (max_line_length : Z) : Z :=
  if (max_line_length <? 0)%Z then kDefaultMaxLineLength else max_line_length.
(** lines 170-174; the index -1 as size_t is beyond every end *)
Fixpoint keep_lines (max_length : Z) (lines : list str) : run (list str) :=
  match lines with
  | [] => Fine []
  | line :: lines' =>
    match line with
    | [] => keep_lines max_length lines'
    | _ => bind (if (max_length <=? Z.of_nat (length line))%Z
                 then if (max_length =? 0)%Z then OutOfRange else set_at line (Z.to_nat (max_length - 1)) 0%N
                 else Fine line) (fun l =>
           bind (keep_lines max_length lines') (fun r => Fine (l :: r)))
    end
  end.
(** lines 158-176 *)
Definition ReadLines (d : disk) (input_file : str) (max_line_length : Z) : status (run (list str)) :=
  match file_at d input_file with
  | None => PermissionDenied
  | Some contents => Ok (keep_lines (max_length_of max_line_length) (getlines contents []))
  end.

(** ** nisaba/port/file.cc *)
(** Conversions of 64-bit numbers to int64_t and int *)
Definition to_int64 (n : N) : Z :=
  let z := Z.of_N n in if (z <? 2 ^ 63)%Z then z else (z - 2 ^ 64)%Z.
Definition to_int (z : Z) : Z := ((z + 2 ^ 31) mod 2 ^ 32 - 2 ^ 31)%Z.

(** fgets for an open file with the rest [input]: the line and the new rest *)
Fixpoint fgets_loop (n : nat) (input : str) : str * str :=
  match n, input with
  | S n', c :: input' =>
    if N.eqb c 10 then ([c], input')
    else let (l, r) := fgets_loop n' input' in (c :: l, r)
  | _, _ => ([], input)
  end.
Definition fgets (n : Z) (input : str) : option (str * str) :=
  if (n <=? 0)%Z then None
  else match input with
       | [] => None
       | _ => Some (fgets_loop (Z.to_nat (Z.min (n - 1) (Z.of_nat (length input)))) input)
       end.
(** lines 101-103; the second argument of fgets is an int *)
Definition ReadLine (input : str) (max_length : N) : option (str * str) := fgets (to_int (Z.of_N max_length)) input.

Section Reading.
  (** How many bytes Read gives of the rest if n are asked for *)
  Variable gives : str -> Z -> nat.

  (** lines 116-125; None: no end in sight *)
  Fixpoint read_loop (fuel : nat) (bufsize needed : Z) (input output : str) : option (str * str) :=
    if (0 <? needed)%Z then
      match fuel with
      | 0 => None
      | S fuel' =>
        let nread := gives input (if (bufsize <? needed)%Z then bufsize else needed) in
        match nread with
        | 0 => Some (output, input)
        | _ => read_loop fuel' bufsize (needed - Z.of_nat nread) (skipn nread input) (output ++ firstn nread input)
        end
      end
    else Some (output, input).
  (** lines 105-127: the text (the result is its length) and the rest; new char[] of a
      negative length is an exception *)
  Definition ReadToString (input : str) (max_length : N) : run (option (str * str)) :=
    if N.eqb max_length 0 then Fine (Some ([], input))
    else
      let needed := to_int64 max_length in
      let bufsize := to_int (if (needed <? 2 ^ 21)%Z then needed else 2 ^ 21)%Z in
      if (bufsize <? 0)%Z then Exn
      else Fine (read_loop (S (length input)) bufsize needed input []).
End Reading.

(** file.h line 113 *)
Definition Defaults : Z := 47802.

Section Writing.
  (** How many of the new bytes fwrite takes after those it has taken already *)
  Variable takes : str -> str -> nat.
  (** lines 79-81: the number, and what has been taken *)
  Definition Write (data buf : str) : nat * str :=
    let n := Nat.min (takes data buf) (length buf) in (n, data ++ firstn n buf).
  (** lines 133-136 *)
  Definition WriteLine (data line : str) : bool * str :=
    let (n, data1) := Write data line in
    if Nat.eqb n (length line) then
      let (m, data2) := Write data1 [10%N] in (Nat.eqb m 1, data2)
    else (false, data1).
  (** Calls of WriteLine, as long as they succeed *)
  Fixpoint WriteLines (data : str) (lines : list str) : bool * str :=
    match lines with
    | [] => (true, data)
    | l :: lines' => let (ok, data1) := WriteLine data l in
                     if ok then WriteLines data1 lines' else (false, data1)
    end.
  (** lines 159-168, for an open file *)
  Definition WriteString (data contents : str) (flags : Z) : status unit * str :=
    if (flags =? Defaults)%Z then
      let (n, data1) := Write data contents in
      (if Nat.eqb n (length contents) then Ok tt else InvalidArgument, data1)
    else (InvalidArgument, data).
End Writing.

Section Messages.
  Variable message : Type.
  (** Both parsers clear the message first: success and the message made *)
  Variables text_parse binary_parse : str -> bool * message.
  (** lines 170-196 *)
  Definition ReadFileToProto (d : disk) (file_name : str) (proto : message) : bool * message :=
    match ReadTextFile d file_name with
    | Ok contents =>
      let (ok, m) := text_parse contents in
      if ok then (true, m)
      else let (ok1, m1) := binary_parse contents in
           if ok1 then (true, m1) else (false, snd (text_parse contents))
    | _ => (false, proto)
    end.
  (** lines 198-206 *)
  Definition GetTextProto (d : disk) (filename : str) (proto : message) (flags : Z) : status unit * message :=
    if (flags =? Defaults)%Z then
      let (ok, m) := ReadFileToProto d filename proto in (if ok then Ok tt else InvalidArgument, m)
    else (InvalidArgument, proto).
End Messages.

(** ** nisaba/port/proto_file_stream.cc *)
(** The bytes given to the file; whether it is open (fp_); close_file_on_delete_; the
    fields buffer_, position_ and failed_ of CopyingOutputStreamAdaptor of protobuf *)
Record stream := Stream {
  data : str; open : bool; on_delete : bool; buffer : str; position : nat; failed : bool }.
Inductive call := Put (c : N) | Flush | Close | SetCloseOnDelete (b : bool).

Section Stream.
  Variable takes : str -> str -> nat.
  (** Whether File::Close succeeds for these bytes *)
  Variable closes : str -> bool.
  (** buffer_size_, at least 1 *)
  Variable block_size : nat.

  (** lines 26-27 and 50-52 *)
  Definition new_stream (contents : str) : stream := Stream contents true false [] 0 false.

  (** CopyingOutputStreamAdaptor::WriteBuffer, with Write, lines 73-81 *)
  Definition WriteBuffer (s : stream) : run (bool * stream) :=
    if failed s then Fine (false, s)
    else match buffer s with
         | [] => Fine (true, s)
         | b =>
           if open s then
             let (st, data1) := WriteString takes (data s) b Defaults in
             if is_ok st then
               Fine (true, Stream data1 true (on_delete s) [] (position s + length b) false)
             else Fine (false, Stream data1 true (on_delete s) [] (position s) true)
           else Check
         end.
  (** Next, one byte written to the memory, and BackUp for the rest of it; lines 42-46 *)
  Definition put (s : stream) (c : N) : run (bool * stream) :=
    bind (if Nat.eqb (length (buffer s)) block_size then WriteBuffer s else Fine (true, s)) (fun r =>
    let (ok, s1) := r in
    if ok then
      Fine (true, Stream (data s1) (open s1) (on_delete s1) (buffer s1 ++ [c]) (position s1) (failed s1))
    else Fine (false, s1)).
  (** Close of the inner stream, lines 59-66; LOG(FATAL) *)
  Definition close_file (s : stream) : run (bool * stream) :=
    if open s then
      Fine (closes (data s), Stream (data s) false (on_delete s) (buffer s) (position s) (failed s))
    else Check.
  Definition apply_call (s : stream) (c : call) : run (bool * stream) :=
    match c with
    | Put b => put s b
    | Flush => WriteBuffer s
    | Close => bind (WriteBuffer s) (fun r => let (flush_succeeded, s1) := r in
               bind (close_file s1) (fun q => Fine (fst q && flush_succeeded, snd q)))
    | SetCloseOnDelete b => Fine (true, Stream (data s) (open s) b (buffer s) (position s) (failed s))
    end.
  (** Line 48 *)
  Definition ByteCount (s : stream) : nat := position s + length (buffer s).
  (** The results of the calls *)
  Fixpoint calls (s : stream) (l : list call) : run (list bool * stream) :=
    match l with
    | [] => Fine ([], s)
    | c :: l' => bind (apply_call s c) (fun r => bind (calls (snd r) l') (fun q => Fine (fst r :: fst q, snd q)))
    end.
  (** Line 29, the destructor of the adaptor, and lines 54-57 *)
  Definition delete_stream (s : stream) : run stream :=
    bind (WriteBuffer s) (fun r => bind (WriteBuffer (snd r)) (fun q =>
    let s1 := snd q in
    if on_delete s1 && open s1 then bind (close_file s1) (fun z => Fine (snd z)) else Fine s1)).
End Stream.
