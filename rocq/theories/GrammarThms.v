(** Loading grammars, rewriting with them, rule cascades, and who owns the archives. *)
From Verif Require Import Base GrammarModel SharedModel GrammarSpec GrammarProofs SharedProofs.
Local Open Scope N_scope.

(** ** C36 *)
(** Verification succeeds exactly if the name, or the script of that language, is in the archive. *)
Theorem C36_verify : forall locate g g', verify_load locate g = (Ok, g') <->
  (exists path, locate (g_path g) = Some path) /\ g_path g' = g_path g /\ g_archive g' = g_archive g /\ resolves (g_archive g) (g_name g) (g_name g').
Proof. exact verify_ok. Qed.
Print Assumptions C36_verify.
Theorem C36_verified_present : forall locate g g', verify_load locate g = (Ok, g') -> present (g_archive g') (g_name g').
Proof. exact verify_rewrites. Qed.
Print Assumptions C36_verified_present.
Theorem C36_verify_again : forall locate g g', verify_load locate g = (Ok, g') -> verify_load locate g' = (Ok, g').
Proof. exact verify_again. Qed.
Print Assumptions C36_verify_again.
Theorem C36_load : forall locate files g g', load locate files g = (Ok, g') <->
  exists path entries, locate (g_path g) = Some path /\ files path = Some entries /\ entries <> [] /\ g_path g' = g_path g /\
    g_archive g' = snd (read_archive entries) /\ resolves (snd (read_archive entries)) (g_name g) (g_name g').
Proof. exact load_ok. Qed.
Print Assumptions C36_load.
(** Loading twice is the same as once. *)
Theorem C36_load_again : forall locate files g g', load locate files g = (Ok, g') -> load locate files g' = (Ok, g').
Proof. exact load_again. Qed.
Print Assumptions C36_load_again.
(** A file that cannot be opened leaves the grammar as it was; an empty one empties it. *)
Theorem C36_no_file : forall locate files g path, locate (g_path g) = Some path -> files path = None -> load locate files g = (Load_failed path, g).
Proof. exact load_bad_file. Qed.
Print Assumptions C36_no_file.
Theorem C36_empty_file : forall locate files g path, locate (g_path g) = Some path -> files path = Some [] -> load locate files g = (Load_failed path, Grammar (g_path g) (g_name g) []).
Proof. exact load_empty_file. Qed.
Print Assumptions C36_empty_file.
Theorem C36_rewrite : forall pdt g input out t, g_rewrite pdt g input out = (Ok, t) ->
  exists f, get_fst (g_archive g) (g_name g) = Some f /\ least_output (f (compile_bytes input)) t.
Proof. exact rewrite_sound. Qed.
Print Assumptions C36_rewrite.
(** Rewriting fails exactly if there is no output; then the output string is not touched. *)
Theorem C36_rewrite_fails : forall pdt g input out,
  (fst (g_rewrite pdt g input out) <> Ok <-> forall f, get_fst (g_archive g) (g_name g) = Some f -> f (compile_bytes input) = []) /\
  (fst (g_rewrite pdt g input out) <> Ok -> g_rewrite pdt g input out = (Rewrite_failed input, out)).
Proof. exact rewrite_fails. Qed.
Print Assumptions C36_rewrite_fails.
Theorem C36_accept : forall pdt g input, g_accept pdt g input = Ok <-> exists f, get_fst (g_archive g) (g_name g) = Some f /\ f (compile_bytes input) <> [].
Proof. exact accept_ok. Qed.
Print Assumptions C36_accept.
Theorem C36_normalizer_load : forall locate files a b a' b', load_both locate files (a, b) = (Ok, (a', b')) <-> load locate files a = (Ok, a') /\ load locate files b = (Ok, b').
Proof. exact load_both_ok. Qed.
Print Assumptions C36_normalizer_load.
Theorem C36_normalizer_verify : forall locate a b a' b', verify_both locate (a, b) = (Ok, (a', b')) <-> verify_load locate a = (Ok, a') /\ verify_load locate b = (Ok, b').
Proof. exact verify_both_ok. Qed.
Print Assumptions C36_normalizer_verify.
Theorem C36_supports : forall locate files far_path name, supports locate files far_path name = true <->
  exists a b, load locate files (make_grammar far_path visual_norm_name name) = (Ok, a) /\ load locate files (make_grammar far_path wellformed_name name) = (Ok, b).
Proof. exact supports_ok. Qed.
Print Assumptions C36_supports.
(** Text is returned exactly if it can be normalized and the result is well-formed. *)
Theorem C36_normalize : forall pdt a b input out t, normalize pdt (a, b) input out = (Ok, t) <-> normalize_only pdt (a, b) input out = (Ok, t) /\ g_accept pdt b t = Ok.
Proof. exact normalize_ok. Qed.
Print Assumptions C36_normalize.
(** Ill-formed text is an error, but the output string holds it. *)
Theorem C36_normalize_rejects : forall pdt a b input out t, normalize_only pdt (a, b) input out = (Ok, t) -> g_accept pdt b t <> Ok -> normalize pdt (a, b) input out = (Rewrite_failed t, t).
Proof. exact normalize_rejects. Qed.
Print Assumptions C36_normalize_rejects.
Theorem C36_reading : forall pdt a b input out t, reading_normalize pdt (a, b) input out = (Ok, t) <-> exists u, g_rewrite pdt a input [] = (Ok, u) /\ g_rewrite pdt b u out = (Ok, t).
Proof. exact reading_ok. Qed.
Print Assumptions C36_reading.
Theorem C36_reading_fails : forall pdt a b input out r t, reading_normalize pdt (a, b) input out = (r, t) -> r <> Ok -> t = out.
Proof. exact reading_fails. Qed.
Print Assumptions C36_reading_fails.
(** Names of archives and FSTs may be in any case. *)
Theorem C36_any_case : forall path far far' name name', small far = small far' -> small name = small name' -> make_grammar path far name = make_grammar path far' name'.
Proof. exact any_case. Qed.
Print Assumptions C36_any_case.
Theorem C36_trailing_slash : forall dir far, dir <> [] -> last dir 0 <> 47 -> far_file_path (dir ++ [47]) far = far_file_path dir far.
Proof. exact trailing_slash. Qed.
Print Assumptions C36_trailing_slash.
(** grammar_test.cc:130: "/foo/bar", "baz"; and Hindi, which falls back to Devanagari *)
Example C36_example :
  far_file_path [47; 102; 111; 111; 47; 98; 97; 114] [98; 97; 122] = [47; 102; 111; 111; 47; 98; 97; 114; 47; 98; 97; 122; 46; 102; 97; 114] /\
  (let deva := [68; 69; 86; 65] in
   let files (_ : str) : option archive := Some [(deva, fun s => if str_eqb s [1] then [([2], 0)] else [])] in
   let (r, n) := load_both (fun p => Some p) files (make_normalizer [47] [104; 105]) in
   r = Ok /\ g_name (fst n) = deva /\ normalize (fun l _ _ _ => l) n [1] [9] = (Rewrite_failed [2], [2]) /\ normalize (fun l _ _ _ => l) n [3] [9] = (Rewrite_failed [3], [9]) /\
   supports (fun p => Some p) files [47] [120; 120] = false).
Proof. vm_compute. repeat split. Qed.

(** ** C56 *)
(** Of entries with the same name the last counts. *)
Theorem C56_archive : forall entries k f, get_fst (snd (read_archive entries)) k = Some f <-> last_entry entries k f.
Proof. exact read_get. Qed.
Print Assumptions C56_archive.
Theorem C56_archive_ok : forall entries, fst (read_archive entries) = true <-> entries <> [].
Proof. exact read_ok. Qed.
Print Assumptions C56_archive_ok.
Theorem C56_archive_keys : forall entries, NoDup (map fst (snd (read_archive entries))).
Proof. exact read_keys. Qed.
Print Assumptions C56_archive_keys.
(** Rule definitions of one, two and three names, separated by dollar signs or colons. *)
Theorem C56_one_name : forall s, no_separator s -> parse_triple s = Triple s [] [].
Proof. exact triple_one. Qed.
Print Assumptions C56_one_name.
Theorem C56_two_names : forall a b c, no_separator a -> no_separator b -> In c [36; 58] -> parse_triple (a ++ c :: b) = Triple a b [].
Proof. exact triple_two. Qed.
Print Assumptions C56_two_names.
Theorem C56_three_names : forall a b d c, no_separator a -> no_separator b -> no_separator d -> In c [36; 58] -> parse_triple (a ++ c :: b ++ c :: d) = Triple a b d.
Proof. exact triple_three. Qed.
Print Assumptions C56_three_names.
Theorem C56_names_cover : forall s, s = main_rule (parse_triple s) \/ exists c, In c [36; 58] /\
  (s = main_rule (parse_triple s) ++ c :: parens_rule (parse_triple s) \/ exists c', In c' [36; 58] /\ s = main_rule (parse_triple s) ++ c :: parens_rule (parse_triple s) ++ c' :: assign_rule (parse_triple s)).
Proof. exact triple_keeps. Qed.
Print Assumptions C56_names_cover.
(** A colon before a dollar sign is part of the name. *)
Theorem C56_mixed_refuted : exists a b d, no_separator a /\ no_separator b /\ no_separator d /\ parse_triple (a ++ 58 :: b ++ 36 :: d) <> Triple a b d.
Proof. exact triple_mixed. Qed.
Print Assumptions C56_mixed_refuted.
(** Validation accepts exactly the cascades that cannot fail for want of a rule. *)
Theorem C56_valid : forall pdt m rules l out, forallb (valid_triple m) rules = true <-> cascade_rewrite pdt m rules l out <> None.
Proof. exact cascade_valid. Qed.
Print Assumptions C56_valid.
Theorem C56_split : forall pdt m a b l out, b <> [] ->
  cascade_rewrite pdt m (a ++ b) l out = match a with [] => cascade_rewrite pdt m b l out | _ => match cascade_rewrite pdt m a l out with None => None | Some l' => cascade_rewrite pdt m b l' l' end end.
Proof. exact cascade_app. Qed.
Print Assumptions C56_split.
(** The outputs of a cascade are those of paths through all its FSTs. *)
Theorem C56_through : forall pdt m rules fs l out, Forall2 (plain m) rules fs -> rules <> [] ->
  exists res, cascade_rewrite pdt m rules l out = Some res /\ forall t w, In (t, w) res <-> exists s v u, In (s, v) l /\ through fs s t u /\ w = v + u.
Proof. exact cascade_through. Qed.
Print Assumptions C56_through.
(** Rewriting to a string gives an output of least total cost. *)
Theorem C56_least : forall pdt m rules fs input, Forall2 (plain m) rules fs -> rules <> [] ->
  match cascade_bytes pdt m rules input with
  | Some t => exists w, through fs (compile_bytes input) t w /\ forall t' w', through fs (compile_bytes input) t' w' -> w <= w'
  | None => forall t w, ~ through fs (compile_bytes input) t w
  end.
Proof. exact cascade_least. Qed.
Print Assumptions C56_least.
(** For FSTs with one output at most, the same as rewriting to a string with each rule. *)
Theorem C56_one_by_one : forall pdt m rules fs input, Forall2 (plain m) rules fs -> rules <> [] ->
  Forall (fun f : wfst => forall s, (length (f s) <= 1)%nat /\ forall t w, In (t, w) (f s) -> no_zero t) fs ->
  cascade_bytes pdt m rules input = one_by_one pdt m rules (compile_bytes input).
Proof. exact cascade_one_by_one. Qed.
Print Assumptions C56_one_by_one.
Theorem C56_one_by_one_refuted : forall pdt, exists m rules input t, cascade_bytes pdt m rules input = Some t /\ one_by_one pdt m rules input = None.
Proof. exact greedy_differs. Qed.
Print Assumptions C56_one_by_one_refuted.
(** A cascade without rules is not the identity: it fails on every input. *)
Theorem C56_no_rules_refuted : forall pdt m input, cascade_bytes pdt m [] input = None.
Proof. exact cascade_no_rules. Qed.
Print Assumptions C56_no_rules_refuted.
(** Initializing from definitions adds to the rules that are there. *)
Theorem C56_init_refuted : exists m defs old, snd (cascade_init_defs m defs old) <> map parse_triple defs.
Proof. exact init_adds. Qed.
Print Assumptions C56_init_refuted.
Example C56_example :
  parse_triple [97; 36; 98; 58; 99] = Triple [97] [98] [99] /\ parse_triple [97; 58; 98; 36; 99] = Triple [97; 58; 98] [99] [] /\
  (let m : archive := [([97], fun s => [(s ++ [1], 2); (s ++ [2], 1)]); ([98], fun s => if str_eqb s [5; 1] then [([7], 0)] else [([8], 3)])] in
   cascade_bytes (fun l _ _ _ => l) m [parse_triple [97]; parse_triple [98]] [5; 0] = Some [7]).
Proof. vm_compute. repeat split. Qed.

(** ** C57 *)
(** If no archive is given to two grammars, none is deleted twice, none in use is deleted, and all are deleted in the end. *)
Theorem C57_deleted_once : forall l s, NoDup (owned 0 l) -> run start l = Some s -> NoDup (deleted s).
Proof. exact owned_once. Qed.
Print Assumptions C57_deleted_once.
Theorem C57_alive : forall l s g p, NoDup (owned 0 l) -> run start l = Some s -> manager_of s g = Some p -> ~ In p (deleted s).
Proof. exact owned_alive. Qed.
Print Assumptions C57_alive.
Theorem C57_freed : forall l s p, NoDup (owned 0 l) -> run start l = Some s -> (forall g, manager_of s g = None) -> In p (owned 0 l) -> In p (deleted s).
Proof. exact owned_freed. Qed.
Print Assumptions C57_freed.
(** The comment at grammar.h:58-59 says that an archive may be shared. It is then deleted twice. *)
Theorem C57_sharing_refuted : exists l s, (forall g, ~ In (Copy g) l) /\ run start l = Some s /\ ~ NoDup (deleted s).
Proof. exact sharing_deletes_twice. Qed.
Print Assumptions C57_sharing_refuted.
Theorem C57_sharing_dangles_refuted : exists l s g p, run start l = Some s /\ manager_of s g = Some p /\ In p (deleted s).
Proof. exact sharing_dangles. Qed.
Print Assumptions C57_sharing_dangles_refuted.
Example C57_example :
  option_map deleted (run start [Make; Raw; Adopt 1; Copy 1; Destroy 1; Destroy 0; Destroy 2]) = Some [1; 0]%nat /\
  option_map deleted (run start [Raw; Adopt 0; Adopt 0; Destroy 0; Destroy 1]) = Some [0; 0]%nat.
Proof. split; reflexivity. Qed.
