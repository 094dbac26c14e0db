(** C59: reading rewrites out of lattices. *)
From Coq Require Import List NArith ZArith Bool Sorting.Sorted.
From Verif Require Import PathModel PathSpec ReadoutModel ReadoutSpec ReadoutMoreSpec ReadoutProofs ReadoutMore.
Import ListNotations.

(** All outputs of a connected acyclic lattice, in the order of the paths, as
    labels, as strings, and as strings with weights.  The overload for
    repeated fields fails if there are none; the others do not. *)
Theorem C59_all_strings :
  forall (W : Type) (wone wzero : W) wtimes weqb (m : fst_t W),
  acyclic m -> acyclic_property m = true -> connected wzero weqb m ->
  exists ps outs bound,
    StronglySorted before ps /\
    (forall p, In p ps <-> accepted wzero weqb m p) /\
    Forall2 (reads wone wzero wtimes weqb m) ps outs /\
    forall n fuel, bound <= n -> bound <= fuel ->
      lattice_to_labels wone wzero wtimes weqb n fuel m
      = Ok (true, map second outs) /\
      lattice_to_strings wone wzero wtimes weqb n fuel m
      = Ok (true, map (fun o => bytes (second o)) outs) /\
      lattice_to_weighted_strings wone wzero wtimes weqb n fuel m
      = Ok (true, map (fun o => (bytes (second o), third o)) outs) /\
      lattice_to_strings_repeated wone wzero wtimes weqb n fuel m
      = Ok (match outs with [] => false | _ => true end,
            map (fun o => bytes (second o)) outs).
Proof. exact all_strings. Qed.
Print Assumptions C59_all_strings.

(** If the lattice is deterministic, no sequence of labels comes twice. *)
Theorem C59_different_strings :
  forall (W : Type) (wone wzero : W) wtimes weqb (m : fst_t W) ps outs,
  deterministic m -> StronglySorted before ps ->
  Forall2 (reads wone wzero wtimes weqb m) ps outs -> NoDup (map second outs).
Proof. exact different_strings. Qed.
Print Assumptions C59_different_strings.

(** OneTopRewrite to a string, of the cascade and of rewrite.h, succeeds
    exactly if there is a single best output, and returns it. *)
Theorem C59_one_top_rewrite :
  forall (W : Type) (wone wzero : W) wtimes weqb wle compile rewrite
    known_acceptor known_no_epsilons project rm_epsilon determinize input
    (l : fst_t W),
  rewrite_lattice compile rewrite known_acceptor known_no_epsilons project
    rm_epsilon input = Some l ->
  good_dfa wzero weqb (determinize true l) ->
  (forall x, (exists w, outputs wone wzero wtimes weqb (determinize true l) x w)
             <-> best wone wzero wtimes weqb wle l x) ->
  exists bound, forall fuel, bound <= fuel ->
    (exists b out,
       one_top_string wzero weqb compile rewrite known_acceptor
         known_no_epsilons project rm_epsilon determinize fuel input
       = Ok (b, out)) /\
    (forall out,
       one_top_string wzero weqb compile rewrite known_acceptor
         known_no_epsilons project rm_epsilon determinize fuel input
       = Ok (true, out) <->
       exists x, only (best wone wzero wtimes weqb wle l) x /\ out = bytes x) /\
    (forall out0 out,
       one_top_direct wzero weqb compile rewrite known_acceptor
         known_no_epsilons project rm_epsilon determinize fuel input out0
       = Ok (true, out) <->
       exists x, only (best wone wzero wtimes weqb wle l) x /\ out = bytes x).
Proof. exact one_top_rewrite. Qed.
Print Assumptions C59_one_top_rewrite.

(** Without a lattice they fail; only the cascade clears the output. *)
Theorem C59_no_lattice :
  forall (W : Type) (wzero : W) weqb compile rewrite known_acceptor
    known_no_epsilons project rm_epsilon determinize input fuel out0,
  rewrite_lattice compile rewrite known_acceptor known_no_epsilons project
    rm_epsilon input = None ->
  one_top_string wzero weqb compile rewrite known_acceptor
    known_no_epsilons project rm_epsilon determinize fuel input
  = Ok (false, []) /\
  one_top_direct wzero weqb compile rewrite known_acceptor
    known_no_epsilons project rm_epsilon determinize fuel input out0
  = Ok (false, out0).
Proof. exact one_top_no_lattice. Qed.
Print Assumptions C59_no_lattice.

(** OneTopRewrite to an acceptor: the same, if no output is a prefix of
    another one. *)
Theorem C59_one_top_acceptor :
  forall (W : Type) (wone wzero : W) wtimes weqb wle compile rewrite
    known_acceptor known_no_epsilons project rm_epsilon determinize input
    (l : fst_t W),
  rewrite_lattice compile rewrite known_acceptor known_no_epsilons project
    rm_epsilon input = Some l ->
  good_dfa wzero weqb (determinize true l) ->
  start (determinize true l) <> None ->
  prefix_free wzero weqb (determinize true l) ->
  (forall x, (exists w, outputs wone wzero wtimes weqb (determinize true l) x w)
             <-> best wone wzero wtimes weqb wle l x) ->
  (one_top_lattice compile rewrite known_acceptor known_no_epsilons project
     rm_epsilon determinize input = Some (determinize true l) <->
   exists x, only (best wone wzero wtimes weqb wle l) x).
Proof. exact one_top_acceptor. Qed.
Print Assumptions C59_one_top_acceptor.

(** In general it does not return false if there is a tie. *)
Theorem C59_acceptor_tie_refuted :
  exists (l : fst_t (option N)) (determinize : bool -> fst_t (option N) -> fst_t (option N)) x y,
    let compile := fun _ => l in
    let rewrite := fun m => Some m in
    let known := fun _ : fst_t (option N) => true in
    let same := fun m : fst_t (option N) => m in
    good_dfa None teqb (determinize true l) /\
    (forall z, (exists w, outputs (Some 0%N) None ttimes teqb (determinize true l) z w)
               <-> best (Some 0%N) None ttimes teqb tle l z) /\
    best (Some 0%N) None ttimes teqb tle l x /\
    best (Some 0%N) None ttimes teqb tle l y /\ x <> y /\
    one_top_lattice compile rewrite known known same same determinize []
    = Some (determinize true l) /\
    one_top_string None teqb compile rewrite known known same same determinize 9 []
    = Ok (false, x).
Proof. exact tie_not_noticed. Qed.
Print Assumptions C59_acceptor_tie_refuted.

(** The debug string is the output string if there are no generated symbols
    and no epsilons. *)
Theorem C59_debug_string :
  forall gensyms labels,
  Forall (fun x => x <> 0%N) labels ->
  (forall find, gensyms = Some find -> Forall (fun x => find x = []) labels) ->
  labels_to_debug_string gensyms labels = bytes labels.
Proof. exact debug_plain. Qed.
Print Assumptions C59_debug_string.

(** An epsilon is not printed in the output, but it is in the debug string. *)
Theorem C59_debug_epsilon_refuted :
  exists labels, labels_to_debug_string None labels <> labels_to_string labels.
Proof. exact debug_epsilon. Qed.
Print Assumptions C59_debug_epsilon_refuted.

(** In general: a generated symbol is printed as its name in brackets, any
    other label as a byte. *)
Theorem C59_debug_pieces :
  forall gensyms a b,
  labels_to_debug_string gensyms (a ++ b)
  = labels_to_debug_string gensyms a ++ labels_to_debug_string gensyms b.
Proof. exact debug_app. Qed.
Print Assumptions C59_debug_pieces.

Theorem C59_debug_name :
  forall find x, find x <> [] ->
  labels_to_debug_string (Some find) [x] = [91%N] ++ find x ++ [93%N].
Proof. exact debug_named. Qed.
Print Assumptions C59_debug_name.

Theorem C59_debug_byte :
  forall gensyms x, (forall find, gensyms = Some find -> find x = []) ->
  labels_to_debug_string gensyms [x] = [N.modulo x 256].
Proof. exact debug_other. Qed.
Print Assumptions C59_debug_byte.

(** RewriteLattice fails if there is no rewrite or if it has no start state. *)
Theorem C59_lattice_fails :
  forall (W : Type) compile rewrite known_acceptor known_no_epsilons project
    rm_epsilon input,
  rewrite_lattice (W := W) compile rewrite known_acceptor known_no_epsilons
    project rm_epsilon input = None <->
  rewrite (compile input) = None \/
  exists m, rewrite (compile input) = Some m /\ start m = None.
Proof. exact lattice_none. Qed.
Print Assumptions C59_lattice_fails.

(** Else the lattice is an acceptor without epsilons of the outputs of the
    rewrite, with the same costs, provided that projection makes an acceptor
    and removal of epsilons leaves an acceptor without them, both without a
    change of costs. *)
Theorem C59_lattice :
  forall (W : Type) (wone wzero : W) wtimes weqb wle compile rewrite
    known_acceptor known_no_epsilons project rm_epsilon,
  (forall m, known_acceptor m = true -> acceptor m) ->
  (forall m, known_no_epsilons m = true -> epsilon_free m) ->
  (forall m, acceptor (project m)) ->
  (forall m x w, costs wone wzero wtimes weqb wle (project m) x w <->
                 costs wone wzero wtimes weqb wle m x w) ->
  (forall m, acceptor m -> acceptor (rm_epsilon m) /\
     epsilon_free (rm_epsilon m) /\
     forall x w, costs wone wzero wtimes weqb wle (rm_epsilon m) x w <->
                 costs wone wzero wtimes weqb wle m x w) ->
  forall input l,
  rewrite_lattice compile rewrite known_acceptor known_no_epsilons project
    rm_epsilon input = Some l ->
  exists m, rewrite (compile input) = Some m /\ start m <> None /\
    acceptor l /\ epsilon_free l /\
    forall x w, costs wone wzero wtimes weqb wle l x w <->
                costs wone wzero wtimes weqb wle m x w.
Proof. exact lattice_some. Qed.
Print Assumptions C59_lattice.

(** Rewrites returns every output, TopRewrites every best output, each once,
    if determinization keeps them. *)
Theorem C59_rewrites :
  forall (W : Type) (wone wzero : W) wtimes weqb wle compile rewrite
    known_acceptor known_no_epsilons project rm_epsilon determinize
    (optimal : bool) input (l : fst_t W),
  rewrite_lattice compile rewrite known_acceptor known_no_epsilons project
    rm_epsilon input = Some l ->
  good_dfa wzero weqb (determinize optimal l) ->
  (forall x, (exists w, outputs wone wzero wtimes weqb (determinize optimal l) x w)
             <-> if optimal then best wone wzero wtimes weqb wle l x
                 else exists w, outputs wone wzero wtimes weqb l x w) ->
  exists xs bound, NoDup xs /\
    (forall x, In x xs <-> if optimal then best wone wzero wtimes weqb wle l x
               else exists w, outputs wone wzero wtimes weqb l x w) /\
    forall n fuel, bound <= n -> bound <= fuel ->
      rewrites wone wzero wtimes weqb compile rewrite known_acceptor
        known_no_epsilons project rm_epsilon determinize optimal n fuel input
      = Ok (true, map bytes xs) /\
      rewrites_repeated wone wzero wtimes weqb compile rewrite known_acceptor
        known_no_epsilons project rm_epsilon determinize optimal n fuel input
      = Ok (match xs with [] => false | _ => true end, map bytes xs).
Proof. exact rewrites_some. Qed.
Print Assumptions C59_rewrites.

Theorem C59_rewrites_fail :
  forall (W : Type) (wone wzero : W) wtimes weqb compile rewrite
    known_acceptor known_no_epsilons project rm_epsilon determinize
    (optimal : bool) n fuel input,
  rewrite_lattice compile rewrite known_acceptor known_no_epsilons project
    rm_epsilon input = None ->
  rewrites wone wzero wtimes weqb compile rewrite known_acceptor
    known_no_epsilons project rm_epsilon determinize optimal n fuel input
  = Ok (false, []) /\
  rewrites_repeated wone wzero wtimes weqb compile rewrite known_acceptor
    known_no_epsilons project rm_epsilon determinize optimal n fuel input
  = Ok (false, []).
Proof. exact rewrites_none. Qed.
Print Assumptions C59_rewrites_fail.

(** a | b, where b is better by weight, and the empty lattice *)
Example C59_example :
  lattice_to_weighted_strings (Some 0%N) None ttimes teqb 9 9
    (machine_of [None; Some 1%N]
       [[Arc 97 97 (Some 4%N) 1; Arc 98 354 (Some 2%N) 1]; []] true)
  = Ok (true, [([97%N], Some 5%N); ([98%N], Some 3%N)]) /\
  lattice_to_one_top_string None teqb 9
    (machine_of [None; Some 1%N]
       [[Arc 97 97 (Some 4%N) 1; Arc 98 98 (Some 2%N) 1]; []] true) []
  = Ok (false, [97%N]) /\
  lattice_to_strings (Some 0%N) None ttimes teqb 9 9
    (machine_of [None] [[]] true) = Ok (true, []) /\
  lattice_to_strings_repeated (Some 0%N) None ttimes teqb 9 9
    (machine_of [None] [[]] true) = Ok (false, []).
Proof. repeat split. Qed.

Example C59_example_debug :
  labels_to_debug_string
    (Some (fun x => if N.eqb x 300 then [110; 111; 117; 110]%N else [])) [97; 300; 98]%N
  = [97; 91; 110; 111; 117; 110; 93; 98]%N.
Proof. reflexivity. Qed.

(** a:0 then b, determinized by hand *)
Example C59_example_rewrites :
  rewrites (Some 0%N) None ttimes teqb
    (fun _ => machine_of [None; None; Some 1%N]
       [[Arc 97 0 (Some 4%N) 1]; [Arc 98 98 (Some 2%N) 2]; []] true)
    (fun m => Some m) (fun _ => false) (fun _ => false)
    (fun _ => machine_of [None; None; Some 1%N]
       [[Arc 0 0 (Some 4%N) 1]; [Arc 98 98 (Some 2%N) 2]; []] true)
    (fun m => match arcs m 0 with
              | [Arc _ 0%N _ _] => machine_of [None; Some 1%N] [[Arc 98 98 (Some 6%N) 1]; []] true
              | _ => m
              end)
    (fun _ m => m) true 9 9 []
  = Ok (true, [[98%N]]).
Proof. reflexivity. Qed.
