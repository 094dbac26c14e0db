(** The command-line programs: nisaba/translit/fst/pairlm_decoder_main.cc and the mains of
    nisaba/translit/tools. *)
From Coq Require Import String Ascii.
From Verif Require Import Base.
Local Open Scope list_scope.

Definition chars (s : string) : str := map N_of_ascii (list_ascii_of_string s).

(** absl::ParseCommandLine for arguments of the form --name=value, in the order given.  Other
    forms of arguments and the flags of the library are not modelled.  An unknown name or a value
    that cannot be read ends the program. *)
Inductive kind := Text | Number | Truth.
Definition args := list (str * str).

(** How a program ends: by the library because of its arguments, by a QCHECK, or after the call of
    its work with an exit code. *)
Inductive outcome (A : Type) := Bad_arguments | Required | Works (a : A).
Arguments Bad_arguments {A}. Arguments Required {A}. Arguments Works {A} a.

Section Flags.
  Variable parse_number : str -> option Z.
  Variable parse_truth : str -> option bool.

  Definition readable (k : kind) (v : str) : bool :=
    match k with
    | Text => true
    | Number => match parse_number v with Some _ => true | None => false end
    | Truth => match parse_truth v with Some _ => true | None => false end
    end.
  Fixpoint kind_of (defined : list (str * kind)) (name : str) : option kind :=
    match defined with
    | [] => None
    | (n, k) :: d => if str_eqb n name then Some k else kind_of d name
    end.
  Fixpoint acceptable (defined : list (str * kind)) (l : args) : bool :=
    match l with
    | [] => true
    | (name, v) :: r =>
      match kind_of defined name with
      | Some k => readable k v && acceptable defined r
      | None => false
      end
    end.
  (** absl::GetFlag: a later argument replaces an earlier one *)
  Fixpoint assigned (l : args) (name : str) (now : option str) : option str :=
    match l with
    | [] => now
    | (n, v) :: r => assigned r name (if str_eqb n name then Some v else now)
    end.
  Definition get_text (l : args) (name : str) (default : str) : str :=
    match assigned l name None with Some v => v | None => default end.
  Definition get_number (l : args) (name : str) (default : Z) : Z :=
    match assigned l name None with
    | Some v => match parse_number v with Some z => z | None => default end
    | None => default
    end.
  Definition get_truth (l : args) (name : str) (default : bool) : bool :=
    match assigned l name None with
    | Some v => match parse_truth v with Some b => b | None => default end
    | None => default
    end.
  Definition empty (s : str) : bool := match s with [] => true | _ => false end.

  (** rejoin-kbest-full-string_main.cc:34-37, 39-58 *)
  Definition rejoin_flags : list (str * kind) :=
    [(chars "ifile", Text); (chars "ofile", Text); (chars "split_file", Text); (chars "kbest", Number)].
  Definition rejoin_usage (program : str) : str :=
    chars "Usage: " ++ program ++ chars " --ifiles=<infile>" ++ chars " --ofile=<outfile>" ++
    chars " --split_file=<splitfile>".
  (** The file, the file of split ids, k, and the output file *)
  Definition rejoin_main (l : args) : outcome (str * str * Z * str) :=
    if acceptable rejoin_flags l then
      let ifile := get_text l (chars "ifile") [] in
      let ofile := get_text l (chars "ofile") [] in
      let split_file := get_text l (chars "split_file") [] in
      if negb (empty ifile) && negb (empty ofile) && negb (empty split_file) then
        Works (ifile, split_file, get_number l (chars "kbest") (-1), ofile)
      else Required
    else Bad_arguments.

  (** ensemble-full-string_main.cc:45-49, 51-69 *)
  Definition ensemble_flags : list (str * kind) :=
    [(chars "ifiles", Text); (chars "ofile", Text); (chars "input_length_file", Text); (chars "kbest", Number)].
  Definition ensemble_usage (program : str) : str :=
    chars "Usage: " ++ program ++ chars " --ifiles=<infiles>" ++ chars " --ofile=<outfile>" ++
    chars " --input_length_file=[lengths]" ++ chars " --kbest=[number_to_output]".
  (** The files, the file of lengths, k, and the output file *)
  Definition ensemble_main (l : args) : outcome (str * str * Z * str) :=
    if acceptable ensemble_flags l then
      let ifiles := get_text l (chars "ifiles") [] in
      let ofile := get_text l (chars "ofile") [] in
      if negb (empty ifiles) && negb (empty ofile) then
        Works (ifiles, get_text l (chars "input_length_file") [], get_number l (chars "kbest") 20, ofile)
      else Required
    else Bad_arguments.

  (** extract-kbest-full-string_main.cc:46-51, 53-73 *)
  Definition extract_flags : list (str * kind) :=
    [(chars "ifile", Text); (chars "ofile", Text); (chars "kbest", Number); (chars "show_score", Truth);
     (chars "show_full_input_string", Truth)].
  Definition extract_usage (program : str) : str :=
    chars "Usage: " ++ program ++ chars " --ifiles=<infile>" ++ chars " --ofile=<outfile>" ++
    chars " --kbest=[number_to_output]" ++ chars " --show_score=[true/false]".
  (** lines 19-24, the comment *)
  Definition extract_sample : str :=
    chars "./extract-kbest-full-string --ifile=lattice.out.tsv --ofile=sys.out.tsv --kbest=20 --show_scores=true".
  (** The file, the output file, k, and what to show *)
  Definition extract_main (l : args) : outcome (str * str * Z * bool * bool) :=
    if acceptable extract_flags l then
      let ifile := get_text l (chars "ifile") [] in
      let ofile := get_text l (chars "ofile") [] in
      if negb (empty ifile) && negb (empty ofile) then
        Works (ifile, ofile, get_number l (chars "kbest") 20, get_truth l (chars "show_score") false,
               get_truth l (chars "show_full_input_string") false)
      else Required
    else Bad_arguments.

  (** calculate_error_rate_main.cc:51-61, 63-85 *)
  Definition error_rate_flags : list (str * kind) :=
    [(chars "reference", Text); (chars "testfile", Text); (chars "ofile", Text); (chars "split_chars", Truth);
     (chars "pairwise_edits", Truth)].
  Definition error_rate_usage (program : str) : str :=
    chars "Usage: " ++ program ++ chars " --reference=<infile>" ++ chars " --testfile=<outfile>" ++
    chars " --ofile=<outfile>".
  (** The reference, the test file, the output file, whether characters are compared, and whether
      all pairs are *)
  Definition error_rate_main (l : args) : outcome (str * str * str * bool * bool) :=
    if acceptable error_rate_flags l then
      let reference := get_text l (chars "reference") [] in
      let testfile := get_text l (chars "testfile") [] in
      let ofile := get_text l (chars "ofile") [] in
      if negb (empty reference) && negb (empty testfile) && negb (empty ofile) then
        Works (reference, testfile, ofile, get_truth l (chars "split_chars") true,
               get_truth l (chars "pairwise_edits") false)
      else Required
    else Bad_arguments.

  (** ** The decoder *)

  (** PairLMDecoderOptions: the two files and all other fields *)
  Variable others : Type.
  Record config := Config { pairlm_file : str; lm_file : str; other_fields : others }.
  (** TextFormat::ParseFromString *)
  Variable parse_config : str -> option config.
  (** file::ReadTextFile, of C80 *)
  Variable read_text : str -> option str.
  (** RunPairLMDecoder, line 91: whether the status is ok *)
  Variable decoder_ok : config -> Z -> Z -> str -> str -> bool.

  (** pairlm_decoder_main.cc:41-59 *)
  Definition decoder_flags : list (str * kind) :=
    [(chars "ifile", Text); (chars "ofile", Text); (chars "kbest", Number); (chars "pairlm_config", Text);
     (chars "pairlm_config_file", Text); (chars "num_workers", Number);
     (chars "input_pairlm_fst_file", Text); (chars "input_lm_fst_file", Text)].
  (** pairlm_decoder_main.cc:64-79; None: a QCHECK *)
  Definition config_text (l : args) : option str :=
    if negb (empty (get_text l (chars "pairlm_config") [])) then Some (get_text l (chars "pairlm_config") [])
    else if negb (empty (get_text l (chars "pairlm_config_file") [])) then
      read_text (get_text l (chars "pairlm_config_file") [])
    else Some [].
  Definition set_pairlm_file (c : config) (f : str) : config := Config f (lm_file c) (other_fields c).
  (** pairlm_decoder_main.cc:81-88; line 87 sets the file of the pair model *)
  Definition override_files (l : args) (c : config) : config :=
    let c1 := if negb (empty (get_text l (chars "input_pairlm_fst_file") []))
              then set_pairlm_file c (get_text l (chars "input_pairlm_fst_file") []) else c in
    if negb (empty (get_text l (chars "input_lm_fst_file") []))
    then set_pairlm_file c1 (get_text l (chars "input_lm_fst_file") []) else c1.
  (** pairlm_decoder_main.cc:63-95, 99-107: the call of the decoder and the exit code *)
  Definition decoder_main (l : args) : outcome (config * Z * Z * str * str * Z) :=
    if acceptable decoder_flags l then
      match config_text l with
      | None => Required
      | Some text =>
        match parse_config text with
        | None => Required
        | Some c =>
          let c := override_files l c in
          let kbest := get_number l (chars "kbest") 1 in
          let num_workers := get_number l (chars "num_workers") 1 in
          let ifile := get_text l (chars "ifile") [] in
          let ofile := get_text l (chars "ofile") [] in
          Works (c, kbest, num_workers, ifile, ofile,
                 if decoder_ok c kbest num_workers ifile ofile then 0%Z else 1%Z)
        end
      end
    else Bad_arguments.
End Flags.
