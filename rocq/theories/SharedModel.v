(** Model of the ownership of archive managers in nisaba/scripts/brahmic/grammar.h:47-82:
    [grm_mgr_] is a shared_ptr, made by make_shared (line 53), from a raw pointer (line
    64), or by copying a Grammar.

    A shared_ptr made from a raw pointer gets a control block of its own, with count one.
    A copy shares the block.  The manager is deleted when a count reaches zero. *)
From Verif Require Import Base.

(** Grammars are numbered in the order of their construction *)
Inductive op :=
| Make (** Grammar(far, fst): a new manager *)
| Raw (** LoadVisualNormManager and the like: a new manager nobody owns *)
| Adopt (p : nat) (** Grammar(far, fst, manager) *)
| Copy (g : nat)
| Destroy (g : nat).

Record state := State {
  managers : nat; (** managers made so far; they are numbered *)
  blocks : list (nat * nat); (** manager and count of each control block *)
  owners : list (option nat); (** control block of each Grammar; [None]: destroyed *)
  deleted : list nat (** managers deleted, in reverse order *)
}.
Definition start : state := State 0 [] [] [].

Fixpoint update {A} (l : list A) (i : nat) (f : A -> A) : list A :=
  match l, i with [], _ => [] | x :: l', 0 => f x :: l' | x :: l', S j => x :: update l' j f end.

(** [None]: not a program, the manager or Grammar does not exist *)
Definition step (s : state) (o : op) : option state :=
  match o with
  | Make => Some (State (S (managers s)) (blocks s ++ [(managers s, 1)]) (owners s ++ [Some (length (blocks s))]) (deleted s))
  | Raw => Some (State (S (managers s)) (blocks s) (owners s) (deleted s))
  | Adopt p =>
      if Nat.ltb p (managers s) then Some (State (managers s) (blocks s ++ [(p, 1)]) (owners s ++ [Some (length (blocks s))]) (deleted s)) else None
  | Copy g =>
      match nth_error (owners s) g with
      | Some (Some b) => Some (State (managers s) (update (blocks s) b (fun '(p, n) => (p, S n))) (owners s ++ [Some b]) (deleted s))
      | _ => None
      end
  | Destroy g =>
      match nth_error (owners s) g with
      | Some (Some b) =>
          match nth_error (blocks s) b with
          | Some (p, n) =>
              Some (State (managers s) (update (blocks s) b (fun '(p, n) => (p, pred n))) (update (owners s) g (fun _ => None))
                          (if Nat.eqb n 1 then p :: deleted s else deleted s))
          | None => None
          end
      | _ => None
      end
  end.
Fixpoint run (s : state) (l : list op) : option state :=
  match l with [] => Some s | o :: l' => match step s o with Some s' => run s' l' | None => None end end.
(** The manager that a Grammar uses *)
Definition manager_of (s : state) (g : nat) : option nat :=
  match nth_error (owners s) g with
  | Some (Some b) => option_map fst (nth_error (blocks s) b)
  | _ => None
  end.
