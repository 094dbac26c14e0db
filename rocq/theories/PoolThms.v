(** C33: the thread pool. *)
From Verif Require Import Base PoolModel PoolSpec PoolProofs.

(** Under every interleaving: items leave the queue in the order in which they
    were pushed. *)
Theorem C33_fifo : forall body ops ms s, run body ms (initial ops) = Some s ->
  pushed s = popped s ++ queue s.
Proof. exact pool_fifo. Qed.
Print Assumptions C33_fifo.

(** At every moment a dequeued task is either finished or being run, once. *)
Theorem C33_no_task_runs_twice : forall body ops ms s, run body ms (initial ops) = Some s ->
  Permutation (tasks (popped s))
    (finished s ++ flat_map (fun w => match w with Running t _ => [t] | _ => [] end) (workers s)).
Proof. exact pool_once. Qed.
Print Assumptions C33_no_task_runs_twice.

(** Everything pushed by a moment [s1] before destruction begins (by the owner
    or by tasks) has been run exactly once when the destructor returns. *)
Theorem C33_every_task_runs_once : forall body ops ms1 ms2 l s1 s2,
  run body ms1 (initial ops) = Some s1 -> own s1 = Ops l -> spawns ops > 0 ->
  run body ms2 s1 = Some s2 -> own s2 = Done ->
  exists rest lost, Permutation (finished s2) (tasks (pushed s1) ++ rest) /\
    tasks (pushed s2) = tasks (pushed s1) ++ rest ++ lost.
Proof. exact pool_all_run. Qed.
Print Assumptions C33_every_task_runs_once.

(** In particular all that the owner ever schedules. *)
Theorem C33_owner_tasks_run : forall body ops ms s, run body ms (initial ops) = Some s -> own s = Done ->
  spawns ops > 0 ->
  exists run_tasks rest, Permutation (finished s) (run_tasks ++ rest) /\ subsequence (scheduled ops) run_tasks.
Proof. exact pool_owner_tasks. Qed.
Print Assumptions C33_owner_tasks_run.

(** Tasks that schedule nothing: exactly the scheduled tasks run, and they are
    started in the order in which they were scheduled. *)
Theorem C33_exactly_the_scheduled_tasks : forall body ops ms s, (forall t, body t = []) ->
  run body ms (initial ops) = Some s -> own s = Done -> spawns ops > 0 ->
  Permutation (finished s) (scheduled ops) /\ tasks (popped s) = scheduled ops.
Proof. exact pool_plain. Qed.
Print Assumptions C33_exactly_the_scheduled_tasks.

(** One worker: tasks also finish in that order. *)
Theorem C33_single_worker_order : forall body ops ms s, run body ms (initial ops) = Some s -> spawns ops <= 1 ->
  tasks (popped s) = finished s ++ flat_map (fun w => match w with Running t _ => [t] | _ => [] end) (workers s).
Proof. exact single_order. Qed.
Print Assumptions C33_single_worker_order.

(** No deadlock: until the destructor has returned, some thread can move. *)
Theorem C33_no_deadlock : forall body ops ms s, run body ms (initial ops) = Some s -> own s <> Done ->
  exists m s', step body m s = Some s'.
Proof. exact pool_progress. Qed.
Print Assumptions C33_no_deadlock.

(** Termination: if tasks do not spawn without bound, all interleavings have
    bounded length, and each can be continued to the return of the destructor. *)
Theorem C33_terminates : forall body ops, bounded body ->
  exists n, forall ms s, run body ms (initial ops) = Some s -> length ms <= n.
Proof. exact pool_terminates. Qed.
Print Assumptions C33_terminates.

Theorem C33_destructor_returns : forall body ops ms s, bounded body -> run body ms (initial ops) = Some s ->
  exists ms' s', run body (ms ++ ms') (initial ops) = Some s' /\ own s' = Done.
Proof. exact pool_finishes. Qed.
Print Assumptions C33_destructor_returns.

(** Without workers nothing is run. *)
Theorem C33_without_workers_refuted : exists body ops ms s,
  run body ms (initial ops) = Some s /\ own s = Done /\ scheduled ops = [7] /\ finished s = [].
Proof. exact no_workers_nothing_runs. Qed.
Print Assumptions C33_without_workers_refuted.

(** A task scheduled by a task after destruction has begun may be dropped. *)
Theorem C33_late_tasks_refuted : exists body ops ms s, bounded body /\ spawns ops > 0 /\
  run body ms (initial ops) = Some s /\ own s = Done /\
  tasks (pushed s) = [0; 1] /\ finished s = [0].
Proof. exact late_task_lost. Qed.
Print Assumptions C33_late_tasks_refuted.

(** Two workers, three tasks; the second worker overtakes the first. *)
Example C33_example :
  exists s, run (fun _ => [])
    [Owner; Owner; Owner; Owner; Owner; Worker 0; Worker 1; Worker 1; Owner; Worker 1; Worker 0;
     Worker 1; Worker 0; Worker 1; Owner; Owner; Owner]
    (initial (StartWorkers 2 ++ [Schedule 10; Schedule 20; Schedule 30])) = Some s /\
    own s = Done /\ finished s = [20; 10; 30] /\ tasks (popped s) = [10; 20; 30].
Proof. eexists. split; [vm_compute; reflexivity|]. auto. Qed.

(** Task 1 schedules 2 and 3 while the pool is alive; all are run. *)
Example C33_nested_example :
  exists s, run (fun t => match t with 1 => [2; 3] | _ => [] end)
    [Owner; Owner; Worker 0; Worker 0; Worker 0; Worker 0; Worker 0; Worker 0; Worker 0; Worker 0;
     Owner; Worker 0; Owner; Owner]
    (initial [Spawn; Schedule 1]) = Some s /\ own s = Done /\ finished s = [1; 2; 3].
Proof. eexists. split; [vm_compute; reflexivity|]. auto. Qed.
