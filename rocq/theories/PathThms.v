(** C58: the iterator over the paths of an automaton. *)
From Coq Require Import List NArith ZArith Bool Sorting.Sorted.
From Verif Require Import PathModel PathSpec PathProofs.
Import ListNotations.

(** An acyclic automaton: the iterator never takes an element from an empty
    vector, stops, and shows each path once, in lexicographic order.  The
    paths are those that end in a final state and those that are stuck in a
    state without arcs.  After the last one, Reset starts again. *)
Theorem C58_paths :
  forall (W : Type) (wone wzero : W) wtimes weqb (m : fst_t W),
  acyclic m ->
  exists ps bound,
    StronglySorted before ps /\
    (forall p, In p ps <-> accepted wzero weqb m p \/ stuck wzero weqb m p) /\
    forall n fuel check, bound <= n -> bound <= fuel ->
      (check = true -> acyclic_property m = true) ->
      exists it out it',
        make wzero weqb fuel m check = Ok (false, it) /\
        collect wone wzero wtimes weqb n fuel m it = Ok (out, it') /\
        Forall2 (reads wone wzero wtimes weqb m) ps out /\
        done it' = true /\
        reset wzero weqb fuel m it' = Ok it.
Proof. exact paths_spec. Qed.
Print Assumptions C58_paths.

(** If all states that can be reached are final or have arcs, these are the
    accepted paths. *)
Theorem C58_connected_paths :
  forall (W : Type) (wone wzero : W) wtimes weqb (m : fst_t W),
  acyclic m -> connected wzero weqb m ->
  exists ps bound,
    StronglySorted before ps /\
    (forall p, In p ps <-> accepted wzero weqb m p) /\
    forall n fuel check, bound <= n -> bound <= fuel ->
      (check = true -> acyclic_property m = true) ->
      exists it out it',
        make wzero weqb fuel m check = Ok (false, it) /\
        collect wone wzero wtimes weqb n fuel m it = Ok (out, it') /\
        Forall2 (reads wone wzero wtimes weqb m) ps out.
Proof. exact connected_paths. Qed.
Print Assumptions C58_connected_paths.

(** The order is strict, so no path is shown twice. *)
Theorem C58_no_path_twice :
  forall ps, StronglySorted before ps -> NoDup ps.
Proof. exact sorted_nodup. Qed.
Print Assumptions C58_no_path_twice.

Theorem C58_cyclic_error :
  forall (W : Type) (wzero : W) weqb (m : fst_t W) fuel,
  acyclic_property m = false ->
  exists it, make wzero weqb fuel m true = Ok (true, it) /\ done it = true.
Proof. exact cyclic_error. Qed.
Print Assumptions C58_cyclic_error.

(** In an automaton that is not connected a path that is not accepted is
    shown. *)
Theorem C58_only_accepted_refuted :
  exists (m : fst_t (option N)) it out it' r,
    acyclic m /\
    make None teqb 9 m true = Ok (false, it) /\
    collect (Some 0%N) None ttimes teqb 9 9 m it = Ok (out, it') /\
    In r out /\
    ~ exists p, accepted None teqb m p /\
                reads (Some 0%N) None ttimes teqb m p r.
Proof. exact unconnected_false_path. Qed.
Print Assumptions C58_only_accepted_refuted.

(** Reset before the end does not start again: the labels of the path where
    the iterator was are still there. *)
Theorem C58_reset_midway_refuted :
  exists (m : fst_t (option N)) it it1 it2,
    acyclic m /\
    make None teqb 9 m true = Ok (false, it) /\
    next None teqb 9 m it = Ok it1 /\ done it1 = false /\
    reset None teqb 9 m it1 = Ok it2 /\
    observe (Some 0%N) ttimes it2 <> observe (Some 0%N) ttimes it.
Proof. exact reset_midway. Qed.
Print Assumptions C58_reset_midway_refuted.

(** Without the check, the constructor may never return, although the
    automaton is connected and accepts something. *)
Theorem C58_unchecked_cycle_refuted :
  exists m : fst_t (option N),
    connected None teqb m /\ (exists p, accepted None teqb m p) /\
    forall fuel, make None teqb fuel m false = Diverges.
Proof. exact loop_diverges. Qed.
Print Assumptions C58_unchecked_cycle_refuted.

(** a:x (b:y)? | c:z with weights; three paths *)
Open Scope N_scope.
Example C58_example :
  exists it it',
    make None teqb 9
      (machine_of [None; Some 3; Some 0]
         [[Arc 97 120 (Some 1) 1; Arc 99 122 (Some 7) 2];
          [Arc 98 121 (Some 2) 2]; []] true) true = Ok (false, it) /\
    collect (Some 0) None ttimes teqb 9 9
      (machine_of [None; Some 3; Some 0]
         [[Arc 97 120 (Some 1) 1; Arc 99 122 (Some 7) 2];
          [Arc 98 121 (Some 2) 2]; []] true) it
    = Ok ([([97], [120], Some 4); ([97; 98], [120; 121], Some 3);
           ([99], [122], Some 7)], it').
Proof.
  exists (Iterator [1%nat; 0%nat] [97] [120] [Some 3; Some 1] [(-1)%Z; 0%Z] false).
  exists (Iterator [] [] [] [] [] true). split; reflexivity.
Qed.
