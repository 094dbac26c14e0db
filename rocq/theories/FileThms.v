(** C80: files, lines and streams. *)
From Verif Require Import Base KbestModel FileModel FileSpec FileStreamSpec FileProofs FileStreamProofs.

(** ** Texts *)
(** What is written is read again; other files stay as they are. *)
Theorem C80_write_read : forall buffered d p c, may_write d p = true -> length c <= room d -> c <> [] ->
  exists d', WriteTextFile buffered d p c = (Ok tt, d') /\ ReadTextFile d' p = Ok c /\
    forall q, q <> p -> file_at d' q = file_at d q.
Proof. exact write_read. Qed.
Print Assumptions C80_write_read.
Theorem C80_temp_write_read : forall buffered tmp d f c, may_write d (TempFilePath tmp f) = true -> length c <= room d -> c <> [] ->
  exists d', WriteTempTextFile buffered tmp d f c = (Ok (TempFilePath tmp f), d') /\
    ReadTextFile d' (TempFilePath tmp f) = Ok c.
Proof. exact temp_write_read. Qed.
Print Assumptions C80_temp_write_read.
(** Where temporary files are: an absolute name is taken as it is. *)
Theorem C80_temp_path : forall tmp f,
  (is_prefix [47%N] f /\ TempFilePath tmp f = f) \/
  (~ is_prefix [47%N] f /\ tmp = [] /\ TempFilePath tmp f = f) \/
  (~ is_prefix [47%N] f /\ is_suffix [47%N] tmp /\ TempFilePath tmp f = tmp ++ f) \/
  (~ is_prefix [47%N] f /\ tmp <> [] /\ ~ is_suffix [47%N] tmp /\ TempFilePath tmp f = tmp ++ [47%N] ++ f).
Proof. exact temp_path. Qed.
Print Assumptions C80_temp_path.
(** But the empty text is written and cannot be read, ... *)
Theorem C80_empty_refuted : forall buffered d p, may_write d p = true ->
  exists d', WriteTextFile buffered d p [] = (Ok tt, d') /\ file_at d' p = Some [] /\ ReadTextFile d' p = Internal.
Proof. exact empty_unreadable. Qed.
Print Assumptions C80_empty_refuted.
(** ... and success is reported for contents that do not reach the disk, unless they
    are too long to be held back in the buffer. *)
Theorem C80_reported : forall buffered d p c d', buffered c = false -> WriteTextFile buffered d p c = (Ok tt, d') ->
  file_at d' p = Some c.
Proof. exact write_reported. Qed.
Print Assumptions C80_reported.
Theorem C80_reported_refuted : exists buffered d p c d', WriteTextFile buffered d p c = (Ok tt, d') /\ file_at d' p <> Some c.
Proof. exact write_lost. Qed.
Print Assumptions C80_reported_refuted.

(** ** Lines *)
(** Every text consists of lines ... *)
Theorem C80_any_text : forall s, exists ls last, s = text_of ls last /\ Forall one_line ls /\ one_line last.
Proof. exact any_text. Qed.
Print Assumptions C80_any_text.
(** ... and those not empty are read; a line of at least m bytes gets one zero byte. *)
Theorem C80_lines : forall d p ls last m, file_at d p = Some (text_of ls last) -> Forall one_line ls -> one_line last ->
  m <> 0%Z ->
  exists r, ReadLines d p m = Ok (Fine r) /\
    Forall2 (with_zero (if (m <? 0)%Z then 32768 else m)) (not_empty (ls ++ [last])) r.
Proof. exact read_lines_spec. Qed.
Print Assumptions C80_lines.
Theorem C80_short_lines : forall d p ls last m, file_at d p = Some (text_of ls last) -> Forall one_line ls -> one_line last ->
  Forall (fun l => (Z.of_nat (length l) < m)%Z) (ls ++ [last]) ->
  ReadLines d p m = Ok (Fine (not_empty (ls ++ [last]))).
Proof. exact read_lines_short. Qed.
Print Assumptions C80_short_lines.
(** Lines too long are not cut, and the limit 0 is an access out of bounds. *)
Theorem C80_cut_refuted : exists d p m r, ReadLines d p m = Ok (Fine [r]) /\ (0 < m < Z.of_nat (length r))%Z /\ In 0%N r.
Proof. exact long_line. Qed.
Print Assumptions C80_cut_refuted.
Theorem C80_zero_refuted : forall d p c s, file_at d p = Some (c :: s) -> c <> 10%N -> ReadLines d p 0 = Ok OutOfRange.
Proof. exact zero_length. Qed.
Print Assumptions C80_zero_refuted.
(** Lines written one by one with success are the text; those not empty are read again. *)
Theorem C80_write_lines : forall takes ls data data', WriteLines takes data ls = (true, data') -> data' = data ++ text_of ls [].
Proof. exact write_lines_spec. Qed.
Print Assumptions C80_write_lines.
Theorem C80_write_lines_all : forall takes ls, takes_all takes -> forall data,
  WriteLines takes data ls = (true, data ++ text_of ls []).
Proof. exact write_lines_all. Qed.
Print Assumptions C80_write_lines_all.
Theorem C80_lines_round : forall takes ls contents d p m, WriteLines takes [] ls = (true, contents) -> file_at d p = Some contents ->
  Forall one_line ls -> (0 < m)%Z -> Forall (fun l => (Z.of_nat (length l) < m)%Z) ls ->
  ReadLines d p m = Ok (Fine (not_empty ls)).
Proof. exact write_lines_read. Qed.
Print Assumptions C80_lines_round.

(** ** Bytes *)
(** ReadToString gives as many bytes as there are, up to the limit, however few each
    Read gives; the limit must be less than 2^63. *)
Theorem C80_read_to_string : forall gives input max, good_reader gives -> (max < 2 ^ 63)%N ->
  exists text rest, ReadToString gives input max = Fine (Some (text, rest)) /\ input = text ++ rest /\
    N.of_nat (length text) = N.min max (N.of_nat (length input)).
Proof. exact read_to_string_spec. Qed.
Print Assumptions C80_read_to_string.
Theorem C80_readers : good_reader (fun input n => Nat.min (Z.to_nat n) (length input)) /\
  good_reader (fun input _ => Nat.min 1 (length input)).
Proof. exact fread_good. Qed.
Print Assumptions C80_readers.
Theorem C80_unlimited_refuted : forall gives input, ReadToString gives input (2 ^ 64 - 1) = Exn.
Proof. exact read_everything_fails. Qed.
Print Assumptions C80_unlimited_refuted.
(** ReadLine gives a line with its newline, or as much of it as fits. *)
Theorem C80_read_line : forall input max, input <> [] -> (2 <= max < 2 ^ 31)%N ->
  exists l r, ReadLine input max = Some (l, r) /\ input = l ++ r /\ l <> [] /\ (N.of_nat (length l) < max)%N /\
    (forall a b, l = a ++ 10%N :: b -> b = []) /\
    (N.of_nat (length l) + 1 = max \/ r = [] \/ exists a, l = a ++ [10%N])%N.
Proof. exact read_line_spec. Qed.
Print Assumptions C80_read_line.
Theorem C80_long_limit_refuted : forall input, ReadLine input (2 ^ 31) = None.
Proof. exact read_line_huge. Qed.
Print Assumptions C80_long_limit_refuted.

(** ** Messages *)
Theorem C80_proto : forall message (text_parse binary_parse : str -> bool * message) d p c m0, file_at d p = Some c -> c <> [] ->
  (forall m, text_parse c = (true, m) -> ReadFileToProto message text_parse binary_parse d p m0 = (true, m)) /\
  (forall m m', text_parse c = (false, m') -> binary_parse c = (true, m) ->
    ReadFileToProto message text_parse binary_parse d p m0 = (true, m)) /\
  (fst (text_parse c) = false -> fst (binary_parse c) = false ->
    fst (ReadFileToProto message text_parse binary_parse d p m0) = false).
Proof. exact @read_proto. Qed.
Print Assumptions C80_proto.
(** The empty text is never a message, even if both parsers take it for one. *)
Theorem C80_empty_proto_refuted : forall message (text_parse binary_parse : str -> bool * message) d p m0,
  file_at d p = Some [] \/ file_at d p = None ->
  ReadFileToProto message text_parse binary_parse d p m0 = (false, m0).
Proof. exact @read_proto_empty. Qed.
Print Assumptions C80_empty_proto_refuted.
Theorem C80_text_proto : forall message (text_parse binary_parse : str -> bool * message) d p m0 flags,
  (exists m, GetTextProto message text_parse binary_parse d p m0 flags = (Ok tt, m)) <->
  flags = 0xBABA%Z /\ fst (ReadFileToProto message text_parse binary_parse d p m0) = true.
Proof. exact @text_proto. Qed.
Print Assumptions C80_text_proto.

(** ** Streams *)
(** If all calls succeed, the bytes put are in the file or, at its end, in the buffer. *)
Theorem C80_stream : forall takes closes block_size contents l rs s,
  calls takes closes block_size (new_stream contents) l = Fine (rs, s) -> (forall r, In r rs -> r = true) ->
  data s ++ buffer s = contents ++ bytes_put l /\ ByteCount s = length (bytes_put l).
Proof. exact stream_true. Qed.
Print Assumptions C80_stream.
Theorem C80_stream_flushed : forall takes closes block_size l c rs s contents, c = Flush \/ c = Close ->
  calls takes closes block_size (new_stream contents) (l ++ [c]) = Fine (rs, s) -> (forall r, In r rs -> r = true) ->
  data s = contents ++ bytes_put l /\ buffer s = [].
Proof. exact last_empties. Qed.
Print Assumptions C80_stream_flushed.
(** In any case the file holds a beginning of the bytes put. *)
Theorem C80_stream_prefix : forall takes closes block_size contents l rs s,
  calls takes closes block_size (new_stream contents) l = Fine (rs, s) -> is_prefix (data s) (contents ++ bytes_put l).
Proof. exact stream_prefix. Qed.
Print Assumptions C80_stream_prefix.
(** Without errors of the system all calls succeed and the end of the stream writes
    the rest; the file is closed if this was asked for. *)
Theorem C80_stream_delete : forall takes closes block_size, takes_all takes -> forall contents l, ~ In Close l ->
  exists rs s s', calls takes closes block_size (new_stream contents) l = Fine (rs, s) /\ (forall r, In r rs -> r = true) /\
    delete_stream takes closes s = Fine s' /\ data s' = contents ++ bytes_put l /\ open s' = negb (on_delete s).
Proof. exact delete_writes. Qed.
Print Assumptions C80_stream_delete.
Theorem C80_stream_close : forall takes closes block_size, takes_all takes -> forall contents l, ~ In Close l ->
  exists rs s, calls takes closes block_size (new_stream contents) (l ++ [Close]) =
      Fine (rs ++ [closes (contents ++ bytes_put l)], s) /\
    (forall r, In r rs -> r = true) /\ data s = contents ++ bytes_put l /\ open s = false /\ delete_stream takes closes s = Fine s.
Proof. exact close_then_delete. Qed.
Print Assumptions C80_stream_close.
(** Close twice ends the program; a byte put after Close is accepted, and the end of
    the stream ends the program. *)
Theorem C80_close_twice : forall takes closes block_size s l1 l2,
  calls takes closes block_size s (l1 ++ [Close] ++ l2 ++ [Close]) = Check.
Proof. exact close_twice. Qed.
Print Assumptions C80_close_twice.
Theorem C80_put_after_close : forall takes closes block_size, takes_all takes -> forall contents l c, block_size <> 0 -> ~ In Close l ->
  exists rs s, calls takes closes block_size (new_stream contents) (l ++ [Close; Put c]) = Fine (rs ++ [true], s) /\
    delete_stream takes closes s = Check.
Proof. exact put_after_close. Qed.
Print Assumptions C80_put_after_close.

(** "ab\n\ncde" with the limit 4 and with the limit 2; "ab" and "" written as lines *)
Example C80_example_lines :
  let d := Disk (fun _ => Some [97; 98; 10; 10; 99; 100; 101]%N) (fun _ => true) 99 in
  ReadLines d [] 4 = Ok (Fine [[97; 98]; [99; 100; 101]]%N) /\
  ReadLines d [] 2 = Ok (Fine [[97; 0]; [99; 0; 101]]%N) /\
  ReadLine [97; 98; 10; 10]%N 100 = Some ([97; 98; 10], [10])%N /\ ReadLine [97; 98; 10; 10]%N 2 = Some ([97], [98; 10; 10])%N /\
  WriteLines (fun _ b => length b) [] [[97; 98]; []]%N = (true, [97; 98; 10; 10]%N) /\
  WriteLines (fun old b => 2 - length old) [] [[97; 98]; []]%N = (false, [97; 98]%N).
Proof. vm_compute. repeat split. Qed.
(** A reader of one byte at a time; an absolute temporary name; "/tmp" *)
Example C80_example_bytes :
  ReadToString (fun i n => Nat.min 1 (length i)) [97; 98; 99]%N 2 = Fine (Some ([97; 98], [99]))%N /\
  TempFilePath [47; 116]%N [97]%N = [47; 116; 47; 97]%N /\ TempFilePath [47; 116]%N [47; 97]%N = [47; 97]%N.
Proof. vm_compute. repeat split. Qed.
Example C80_example_proto :
  let d := Disk (fun p => match p with [] => None | _ => Some [8; 1]%N end) (fun _ => true) 99 in
  ReadFileToProto nat (fun _ => (false, 0)) (fun s => (true, length s)) d [97]%N 7 = (true, 2) /\
  ReadFileToProto nat (fun _ => (true, 5)) (fun s => (true, length s)) d [97]%N 7 = (true, 5) /\
  ReadFileToProto nat (fun _ => (true, 5)) (fun s => (true, length s)) d [] 7 = (false, 7).
Proof. vm_compute. repeat split. Qed.
(** A buffer of two bytes; a file that takes four bytes only *)
Example C80_example_stream :
  calls (fun _ b => length b) (fun _ => true) 2 (new_stream []) [Put 1; Put 2; Put 3; Close]%N =
    Fine ([true; true; true; true], Stream [1; 2; 3]%N false false [] 3 false) /\
  calls (fun old _ => 4 - length old) (fun _ => true) 3 (new_stream []) [Put 1; Put 2; Put 3; Put 4; Put 5; Flush; Put 6]%N =
    Fine ([true; true; true; true; true; false; true], Stream [1; 2; 3; 4]%N true false [6]%N 3 true).
Proof. vm_compute. repeat split. Qed.
