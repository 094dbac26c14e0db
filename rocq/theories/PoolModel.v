(** nisaba/port/thread_pool.h as a system of threads. *)
From Verif Require Import Base.

Section Pool.
  (** Tasks are numbers; running task [t] calls Schedule for the tasks [body t],
      one after the other.  A task that does not return is not modelled. *)
  Variable body : nat -> list nat.

  (** What the thread that owns the pool does before destroying it.
      StartWorkers (thread_pool.h:48-52) is num_threads times [Spawn]. *)
  Inductive op := Schedule (t : nat) | Spawn.
  Definition StartWorkers (num_threads : nat) : list op := repeat Spawn num_threads.

  (** A thread in WorkLoop (thread_pool.h:78-93): waiting for work, in func()
      with calls of Schedule still to make, or past the loop. *)
  Inductive worker := Idle | Running (t : nat) (calls : list nat) | Exited.

  (** The owner: operations left; in the destructor waiting to join thread [k];
      past the destructor. *)
  Inductive owner := Ops (l : list op) | Joining (k : nat) | Done.

  (** [pushed], [popped], [finished] record what happened (oldest first): queue
      items put in and taken out, tasks whose call returned.  A [None] item is
      the nullptr that tells a worker to stop. *)
  Record state := State {
    queue : list (option nat); workers : list worker; own : owner;
    pushed : list (option nat); popped : list (option nat); finished : list nat }.

  Definition initial (ops : list op) : state := State [] [] (Ops ops) [] [] [].

  Definition push (x : list (option nat)) (s : state) : state :=
    State (queue s ++ x) (workers s) (own s) (pushed s ++ x) (popped s) (finished s).
  Definition set_own (o : owner) (s : state) : state :=
    State (queue s) (workers s) o (pushed s) (popped s) (finished s).
  Definition set_workers (ws : list worker) (s : state) : state :=
    State (queue s) ws (own s) (pushed s) (popped s) (finished s).

  (** One step of the owner; each locked region is one step.  [None]: blocked or
      past the end. *)
  Definition owner_step (s : state) : option state :=
    match own s with
    | Ops (Schedule t :: l) => Some (set_own (Ops l) (push [Some t] s))
    | Ops (Spawn :: l) => Some (set_own (Ops l) (set_workers (workers s ++ [Idle]) s))
    | Ops [] => Some (set_own (Joining 0) (push (repeat None (length (workers s))) s))
    | Joining k =>
      match nth_error (workers s) k with
      | None => Some (set_own Done s)
      | Some Exited => Some (set_own (Joining (S k)) s)
      | Some _ => None
      end
    | Done => None
    end.

  Fixpoint set_nth (i : nat) (w : worker) (ws : list worker) : list worker :=
    match i, ws with
    | _, [] => []
    | O, _ :: ws' => w :: ws'
    | S i', v :: ws' => v :: set_nth i' w ws'
    end.

  (** One step of worker [i]. *)
  Definition worker_step (i : nat) (s : state) : option state :=
    match nth_error (workers s) i with
    | Some Idle =>
      match queue s with
      | [] => None
      | x :: q =>
        Some (State q (set_nth i (match x with Some t => Running t (body t) | None => Exited end) (workers s))
                    (own s) (pushed s) (popped s ++ [x]) (finished s))
      end
    | Some (Running t (c :: cs)) => Some (set_workers (set_nth i (Running t cs) (workers s)) (push [Some c] s))
    | Some (Running t []) =>
      Some (State (queue s) (set_nth i Idle (workers s)) (own s) (pushed s) (popped s) (finished s ++ [t]))
    | Some Exited => None
    | None => None
    end.

  (** Who moves next. *)
  Inductive mover := Owner | Worker (i : nat).
  Definition step (m : mover) (s : state) : option state :=
    match m with Owner => owner_step s | Worker i => worker_step i s end.

  (** An interleaving; [None] if some move is not possible. *)
  Fixpoint run (ms : list mover) (s : state) : option state :=
    match ms with
    | [] => Some s
    | m :: ms' => match step m s with Some s' => run ms' s' | None => None end
    end.
End Pool.
