(** Reading strings out of lattices, nisaba/interim/grm2/rewrite/rewrite.h,
    and the rewriting functions of
    nisaba/interim/grm2/rewrite/base_rule_cascade.h.

    The token type is BYTE.  A string is a list of bytes.  A function that
    returns a bool and writes to an argument returns a pair; the value of the
    argument before the call is a parameter if it can remain.  The algorithms
    of OpenFst (string compilation, projection, removal of epsilons,
    determinization) and the virtual function Rewrite are parameters.  The
    state threshold of LatticeToDfa (rewrite.h:124-134) belongs to
    determinization. *)
From Coq Require Import List NArith Bool.
From Verif Require Import PathModel.
Import ListNotations.

(** fst::LabelsToString for bytes: no epsilons, each label as a char *)
Definition labels_to_string (labels : list N) : list N :=
  map (fun x => N.modulo x 256) (filter (fun x => negb (N.eqb x 0)) labels).

Section Extract.

Variable W : Type.
Variable wone wzero : W.
Variable wtimes : W -> W -> W.
Variable weqb : W -> W -> bool.

(** The output labels at the current path, paths.h:75; as a string:
    paths.h:324-337 *)
Definition olabels (it : iterator W) : list N := rev (path_olabels it).
Definition ostring (it : iterator W) : list N := labels_to_string (olabels it).

(** rewrite.h:174-190 *)
Definition lattice_to_one_top_string (fuel : nat) (m : fst_t W)
  (output : list N) : outcome (bool * list N) :=
  bind (make wzero weqb fuel m false) (fun r =>
  let (error, it) := r in
  if error || done it then Ok (false, output)
  else
    let output1 := ostring it in
    bind (next wzero weqb fuel m it) (fun it1 =>
    if negb (done it1) then Ok (false, output1) else Ok (true, output1))).

Definition third {A B C : Type} (r : A * B * C) : C := snd r.
Definition second {A B C : Type} (r : A * B * C) : B := snd (fst r).

(** rewrite.h:214-222; [n] bounds the number of paths *)
Definition lattice_to_labels (n fuel : nat) (m : fst_t W)
  : outcome (bool * list (list N)) :=
  bind (make wzero weqb fuel m true) (fun r =>
  let (error, it) := r in
  if error then Ok (false, [])
  else
    bind (collect wone wzero wtimes weqb n fuel m it) (fun r1 =>
    Ok (true, map second (fst r1)))).

(** rewrite.h:225-247, for a vector of strings *)
Definition lattice_to_strings (n fuel : nat) (m : fst_t W)
  : outcome (bool * list (list N)) :=
  if negb (acyclic_property m) then Ok (false, [])
  else
    bind (make wzero weqb fuel m false) (fun r =>
    let (error, it) := r in
    if error then Ok (false, [])
    else
      bind (collect wone wzero wtimes weqb n fuel m it) (fun r1 =>
      Ok (true, map (fun o => labels_to_string (second o)) (fst r1)))).

(** rewrite.h:251-269, for a repeated field of a protocol buffer *)
Definition lattice_to_strings_repeated (n fuel : nat) (m : fst_t W)
  : outcome (bool * list (list N)) :=
  if negb (acyclic_property m) then Ok (false, [])
  else
    bind (make wzero weqb fuel m false) (fun r =>
    let (error, it) := r in
    if error || done it then Ok (false, [])
    else
      bind (collect wone wzero wtimes weqb n fuel m it) (fun r1 =>
      Ok (true, map (fun o => labels_to_string (second o)) (fst r1)))).

(** rewrite.h:273-293, with weights *)
Definition lattice_to_weighted_strings (n fuel : nat) (m : fst_t W)
  : outcome (bool * list (list N * W)) :=
  if negb (acyclic_property m) then Ok (false, [])
  else
    bind (make wzero weqb fuel m false) (fun r =>
    let (error, it) := r in
    if error then Ok (false, [])
    else
      bind (collect wone wzero wtimes weqb n fuel m it) (fun r1 =>
      Ok (true, map (fun o => (labels_to_string (second o), third o))
                  (fst r1)))).

(** * The rule cascade *)

Variable compile : list N -> fst_t W.
Variable rewrite : fst_t W -> option (fst_t W).
Variable known_acceptor known_no_epsilons : fst_t W -> bool.
Variable project rm_epsilon : fst_t W -> fst_t W.
Variable determinize : bool -> fst_t W -> fst_t W.

(** rewrite.h:51-65 CheckNonEmptyAndCleanup *)
Definition check_and_cleanup (m : fst_t W) : option (fst_t W) :=
  match start m with
  | None => None
  | Some _ =>
    let m1 := if known_acceptor m then m else project m in
    Some (if known_no_epsilons m1 then m1 else rm_epsilon m1)
  end.

(** base_rule_cascade.h:534-540 RewriteLattice *)
Definition rewrite_lattice (input : list N) : option (fst_t W) :=
  match rewrite (compile input) with
  | None => None
  | Some m => check_and_cleanup m
  end.

(** base_rule_cascade.h:245-256 OneTopRewrite to an acceptor *)
Definition one_top_lattice (input : list N) : option (fst_t W) :=
  match rewrite_lattice input with
  | None => None
  | Some m =>
    let d := determinize true m in
    if existsb (fun s => Nat.ltb 1 (length (arcs d s))) (seq 0 (num_states d))
    then None
    else Some d
  end.

(** base_rule_cascade.h:267-274 OneTopRewrite to a string *)
Definition one_top_string (fuel : nat) (input : list N)
  : outcome (bool * list N) :=
  match one_top_lattice input with
  | None => Ok (false, [])
  | Some d => lattice_to_one_top_string fuel d []
  end.

(** rewrite.h:319-329 OneTopRewrite (and rewrite_manager.h:237-249): the same
    without the test of the numbers of arcs *)
Definition one_top_direct (fuel : nat) (input output : list N)
  : outcome (bool * list N) :=
  match rewrite_lattice input with
  | None => Ok (false, output)
  | Some m => lattice_to_one_top_string fuel (determinize true m) output
  end.

(** base_rule_cascade.h:375-382 TopRewrites (optimal) and 436-443 Rewrites
    (all) to a vector of strings *)
Definition rewrites (optimal : bool) (n fuel : nat) (input : list N)
  : outcome (bool * list (list N)) :=
  match rewrite_lattice input with
  | None => Ok (false, [])
  | Some m => lattice_to_strings n fuel (determinize optimal m)
  end.

(** base_rule_cascade.h:406-414 and 467-476, to a repeated field *)
Definition rewrites_repeated (optimal : bool) (n fuel : nat) (input : list N)
  : outcome (bool * list (list N)) :=
  match rewrite_lattice input with
  | None => Ok (false, [])
  | Some m => lattice_to_strings_repeated n fuel (determinize optimal m)
  end.

End Extract.

(** base_rule_cascade.h:517-532 PrintDebugSymbol.  The table of generated
    symbols, if there is one, maps a label to a name (empty: none). *)
Definition debug_symbol (gensyms : option (N -> list N)) (label : N) : list N :=
  match gensyms with
  | Some find =>
    match find label with
    | [] => [N.modulo label 256]
    | name => [91%N] ++ name ++ [93%N]
    end
  | None => [N.modulo label 256]
  end.

(** base_rule_cascade.h:498-515 LabelsToDebugString *)
Definition labels_to_debug_string (gensyms : option (N -> list N))
  (labels : list N) : list N :=
  match labels with
  | [] => []
  | l :: rest =>
    debug_symbol gensyms l ++ concat (map (debug_symbol gensyms) rest)
  end.

Arguments olabels {W}.
Arguments ostring {W}.
Arguments lattice_to_one_top_string {W}.
Arguments lattice_to_labels {W}.
Arguments lattice_to_strings {W}.
Arguments lattice_to_strings_repeated {W}.
Arguments lattice_to_weighted_strings {W}.
Arguments check_and_cleanup {W}.
Arguments rewrite_lattice {W}.
Arguments one_top_lattice {W}.
Arguments one_top_string {W}.
Arguments one_top_direct {W}.
Arguments rewrites {W}.
Arguments rewrites_repeated {W}.
