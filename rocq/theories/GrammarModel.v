(** Model of nisaba/scripts/brahmic/grammar.{h,cc}: loading grammars from archives and
    rewriting with them, and of the archive manager under it,
    nisaba/interim/grm2/thrax/{abstract-,}grm-manager.h.

    A string is a list of bytes.  An FST is a function from an input to its weighted
    outputs; costs are whole numbers.  What the file system holds and where runfiles are
    is a parameter.  Composition with pushdown rules is a parameter. *)
From Verif Require Import Base.

Notation wfst := (str -> list (str * N)).
Notation lattice := (list (str * N)).

(** ** Names and paths *)

(** absl::AsciiStrToUpper, AsciiStrToLower *)
Definition to_upper (s : str) : str := map (fun c => if N.leb 97 c && N.leb c 122 then c - 32 else c)%N s.
Definition to_lower (s : str) : str := map (fun c => if N.leb 65 c && N.leb c 90 then c + 32 else c)%N s.
(** port/file_util.cc:72-81 JoinPath; the separator is a slash *)
Definition join_path (dir base : str) : str :=
  if match base with 47%N :: _ => true | _ => false end || match dir with [] => true | _ => false end then base
  else if match rev dir with 47%N :: _ => true | _ => false end then dir ++ base
  else dir ++ [47%N] ++ base.
Definition far_extension : str := [46; 102; 97; 114]%N.
(** grammar.cc:60-64 MakeFarFilePath *)
Definition far_file_path (path name : str) : str := join_path path (to_lower name ++ far_extension).

(** ** The archive manager *)

Notation archive := (list (str * wfst)).
(** abstract-grm-manager.h:198-204 GetFst: lookup in a map *)
Fixpoint get_fst (m : archive) (name : str) : option wfst :=
  match m with [] => None | (k, f) :: m' => if str_eqb k name then Some f else get_fst m' name end.
(** Assignment to an entry of a map *)
Fixpoint set_entry (m : archive) (name : str) (f : wfst) : archive :=
  match m with
  | [] => [(name, f)]
  | (k, g) :: m' => if str_eqb k name then (k, f) :: m' else (k, g) :: set_entry m' name f
  end.
(** abstract-grm-manager.h:153-174: the map is cleared, then filled entry by entry; an
    archive without entries is an error *)
Definition read_archive (entries : archive) : bool * archive :=
  let m := fold_left (fun m '(k, f) => set_entry m k f) entries [] in
  (match m with [] => false | _ => true end, m).
(** grm-manager.h:58-67: a file that cannot be opened leaves the map as it is *)
Definition load_file (files : str -> option archive) (path : str) (m : archive) : bool * archive :=
  match files path with None => (false, m) | Some entries => read_archive entries end.

(** fst::StringCompiler for bytes: a zero byte becomes label 0, which is epsilon *)
Definition compile_bytes (s : str) : str := filter (fun c => negb (N.eqb c 0)) s.
(** fst::Compose: each output of the input lattice is rewritten, costs are added *)
Definition compose_lattice (l : lattice) (f : wfst) : lattice :=
  flat_map (fun '(s, w) => map (fun '(t, v) => (t, w + v)%N) (f s)) l.
(** fst::ShortestPath: the first path among those of least cost *)
Fixpoint shortest (l : lattice) : option (str * N) :=
  match l with
  | [] => None
  | (s, w) :: l' => match shortest l' with Some (t, v) => if N.ltb v w then Some (t, v) else Some (s, w) | None => Some (s, w) end
  end.

(** Names of the main rule, the parentheses and the assignments of a pushdown rule *)
Record triple := Triple { main_rule : str; parens_rule : str; assign_rule : str }.

(** abstract-grm-manager.h:330-350: RuleTriple, the names in a rule definition *)
Fixpoint find_char (c : N) (s : str) : option nat :=
  match s with [] => None | d :: s' => if N.eqb c d then Some 0 else option_map S (find_char c s') end.
Definition find_sep (s : str) : option nat :=
  match find_char 36 s with Some i => Some i | None => find_char 58 s end.
Definition parse_triple (s : str) : triple :=
  match find_sep s with
  | None => Triple s [] []
  | Some i =>
      let rest := skipn (S i) s in
      match find_sep rest with
      | None => Triple (firstn i s) rest []
      | Some j => Triple (firstn i s) (firstn j rest) (skipn (S j) rest)
      end
  end.

Section Manager.
(** fst::Compose with a pushdown rule: main rule, parentheses, assignments if any *)
Variable pdt_compose : lattice -> wfst -> wfst -> option wfst -> lattice.

(** abstract-grm-manager.h:264-317 Rewrite.  [None]: returns false *)
Definition rewrite_lattice (m : archive) (t : triple) (input : lattice) : option lattice :=
  match get_fst m (main_rule t) with
  | None => None
  | Some f =>
      match parens_rule t, assign_rule t with
      | [], [] => Some (compose_lattice input f)
      | [], a => match get_fst m a with None => None | Some _ => Some (compose_lattice input f) end
      | p, [] => match get_fst m p with None => None | Some g => Some (pdt_compose input f g None) end
      | p, a =>
          match get_fst m p with
          | None => None
          | Some g => match get_fst m a with None => None | Some h => Some (pdt_compose input f g (Some h)) end
          end
      end
  end.
(** abstract-grm-manager.h:223-250, 319-326: RewriteBytes and StringifyFst *)
Definition rewrite_bytes (m : archive) (t : triple) (input : str) : option str :=
  match rewrite_lattice m t [(compile_bytes input, 0%N)] with
  | None => None
  | Some l => option_map fst (shortest l)
  end.

(** ** Cascades: abstract-grm-manager.h:352-456 RuleCascade *)

Definition valid_triple (m : archive) (t : triple) : bool :=
  match get_fst m (main_rule t) with None => false | Some _ => true end &&
  match parens_rule t with [] => true | p => match get_fst m p with None => false | Some _ => true end end &&
  match assign_rule t with [] => true | a => match get_fst m a with None => false | Some _ => true end end.
(** 403-409 Init: the new rules replace the old ones *)
Definition cascade_init (m : archive) (rules : list triple) (old : list triple) : bool * list triple :=
  (forallb (valid_triple m) rules, rules).
(** 411-417 InitFromDefs: the new rules are added to the old ones *)
Definition cascade_init_defs (m : archive) (defs : list str) (old : list triple) : bool * list triple :=
  let rules := old ++ map parse_triple defs in (forallb (valid_triple m) rules, rules).
(** 442-456 Rewrite.  [out] is what the output holds before: without rules it stays *)
Fixpoint cascade_rewrite (m : archive) (rules : list triple) (input out : lattice) : option lattice :=
  match rules with
  | [] => Some out
  | t :: rules' => match rewrite_lattice m t input with None => None | Some l => cascade_rewrite m rules' l l end
  end.
(** 419-431 RewriteBytes: the output starts as an FST without states *)
Definition cascade_bytes (m : archive) (rules : list triple) (input : str) : option str :=
  match cascade_rewrite m rules [(compile_bytes input, 0%N)] [] with
  | None => None
  | Some l => option_map fst (shortest l)
  end.

(** ** Grammars *)

Inductive status :=
| Ok
| No_runfiles (** GetRunfilesResourcePath failed *)
| Load_failed (path : str)
| No_fst (name path : str)
| Rewrite_failed (input : str).

(** grammar.h:47-82; the constructors put the name in upper case *)
Record grammar := Grammar { g_path : str; g_name : str; g_archive : archive }.
Definition make_grammar (far_path far_name fst_name : str) : grammar :=
  Grammar (far_file_path far_path far_name) (to_upper fst_name) [].
Definition preloaded (far_path far_name fst_name : str) (m : archive) : grammar :=
  Grammar (far_file_path far_path far_name) (to_upper fst_name) m.

(** grammar.cc:76-79 *)
Definition language_scripts : list (str * str) :=
  [([98; 110], [66; 101; 110; 103]); ([103; 117], [71; 117; 106; 114]); ([104; 105], [68; 101; 118; 97]);
   ([107; 110], [75; 110; 100; 97]); ([109; 108], [77; 108; 121; 109]); ([109; 114], [68; 101; 118; 97]);
   ([111; 114], [79; 114; 121; 97]); ([112; 97], [71; 117; 114; 117]); ([115; 105], [83; 105; 110; 104]);
   ([116; 97], [84; 97; 109; 108]); ([116; 101], [84; 101; 108; 117])]%N.
Fixpoint lookup (l : list (str * str)) (k : str) : option str :=
  match l with [] => None | (a, b) :: l' => if str_eqb a k then Some b else lookup l' k end.
Definition has_fst (m : archive) (name : str) : bool := match get_fst m name with Some _ => true | None => false end.

(** Where runfiles are and what is in them *)
Variable locate : str -> option str.
Variable files : str -> option archive.

(** grammar.cc:72-96; the name is changed even if the script is not found either *)
Definition verify_load (g : grammar) : status * grammar :=
  match locate (g_path g) with
  | None => (No_runfiles, g)
  | Some path =>
      if has_fst (g_archive g) (g_name g) then (Ok, g)
      else
        match lookup language_scripts (to_lower (g_name g)) with
        | None => (No_fst (g_name g) path, g)
        | Some script =>
            let g' := Grammar (g_path g) (to_upper script) (g_archive g) in
            if has_fst (g_archive g) (to_upper script) then (Ok, g') else (No_fst (to_upper script) path, g')
        end
  end.
(** grammar.cc:33-42 LoadArchive, 66-70 Grammar::Load *)
Definition load (g : grammar) : status * grammar :=
  match locate (g_path g) with
  | None => (No_runfiles, g)
  | Some path =>
      let (ok, m) := load_file files path (g_archive g) in
      let g' := Grammar (g_path g) (g_name g) m in
      if ok then verify_load g' else (Load_failed path, g')
  end.
(** grammar.cc:98-105 and 107-114.  [out] is what the output string holds before *)
Definition g_rewrite (g : grammar) (input out : str) : status * str :=
  match rewrite_bytes (g_archive g) (Triple (g_name g) [] []) input with
  | None => (Rewrite_failed input, out)
  | Some t => (Ok, t)
  end.
Definition g_accept (g : grammar) (input : str) : status :=
  match rewrite_bytes (g_archive g) (Triple (g_name g) [] []) input with None => Rewrite_failed input | Some _ => Ok end.

(** grammar.h:85-121 Normalizer, 125-143 ReadingNorm: two grammars *)
Definition visual_norm_name : str := [118; 105; 115; 117; 97; 108; 95; 110; 111; 114; 109]%N.
Definition wellformed_name : str := [119; 101; 108; 108; 102; 111; 114; 109; 101; 100]%N.
Definition reading_norm_name : str := [114; 101; 97; 100; 105; 110; 103; 95; 110; 111; 114; 109]%N.
Definition make_normalizer (far_path fst_name : str) : grammar * grammar :=
  (make_grammar far_path visual_norm_name fst_name, make_grammar far_path wellformed_name fst_name).
Definition make_reading_norm (far_path fst_name : str) : grammar * grammar :=
  (make_grammar far_path visual_norm_name fst_name, make_grammar far_path reading_norm_name fst_name).
(** grammar.cc:116-120, 144-148: the second is loaded only if the first was *)
Definition load_both (n : grammar * grammar) : status * (grammar * grammar) :=
  let (a, b) := n in
  match load a with
  | (Ok, a') => let (r, b') := load b in (r, (a', b'))
  | (e, a') => (e, (a', b))
  end.
(** grammar.cc:122-126 *)
Definition verify_both (n : grammar * grammar) : status * (grammar * grammar) :=
  let (a, b) := n in
  match verify_load a with
  | (Ok, a') => let (r, b') := verify_load b in (r, (a', b'))
  | (e, a') => (e, (a', b))
  end.
(** grammar.cc:135-138 and 128-133 *)
Definition normalize_only (n : grammar * grammar) (input out : str) : status * str := g_rewrite (fst n) input out.
Definition normalize (n : grammar * grammar) (input out : str) : status * str :=
  match normalize_only n input out with
  | (Ok, t) => (g_accept (snd n) t, t)
  | (e, t) => (e, t)
  end.
(** grammar.cc:140-142 SupportsFst *)
Definition supports (far_path fst_name : str) : bool :=
  match fst (load_both (make_normalizer far_path fst_name)) with Ok => true | _ => false end.
(** grammar.cc:150-156 *)
Definition reading_normalize (n : grammar * grammar) (input out : str) : status * str :=
  match g_rewrite (fst n) input [] with
  | (Ok, t) => g_rewrite (snd n) t out
  | (e, _) => (e, out)
  end.
End Manager.
