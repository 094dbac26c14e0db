(** A decision procedure, proved sound, for "replacing these strings by those
    keeps a text in a regular language".  Proof tooling only: nothing here
    models code. *)
From Verif Require Import Base RuleModel RuleSpec RuleProofs RegexModel RegexProofs.

(** Regular expressions whose sets of strings have numbers; [Small] holds what
    is left of such a set after some characters. *)
Inductive nre :=
| Named (k : nat)
| Small (l : list str)
| NCat (a b : nre)
| NAlt (a b : nre)
| NQues (a : nre)
| NStar (a : nre).

Fixpoint str_same (a b : str) : bool :=
  match a, b with
  | [], [] => true
  | x :: a', y :: b' => if N.eqb x y then str_same a' b' else false
  | _, _ => false
  end.
Fixpoint strs_same (a b : list str) : bool :=
  match a, b with
  | [], [] => true
  | x :: a', y :: b' => if str_same x y then strs_same a' b' else false
  | _, _ => false
  end.
Fixpoint nre_same (a b : nre) : bool :=
  match a, b with
  | Named j, Named k => Nat.eqb j k
  | Small l, Small m => strs_same l m
  | NCat a1 a2, NCat b1 b2 | NAlt a1 a2, NAlt b1 b2 =>
      if nre_same a1 b1 then nre_same a2 b2 else false
  | NQues a1, NQues b1 | NStar a1, NStar b1 => nre_same a1 b1
  | _, _ => false
  end.
Fixpoint re_same (a b : re) : bool :=
  match a, b with
  | Strs l, Strs m => strs_same l m
  | Cat a1 a2, Cat b1 b2 | Alt a1 a2, Alt b1 b2 =>
      if re_same a1 b1 then re_same a2 b2 else false
  | Ques a1, Ques b1 | Star a1, Star b1 => re_same a1 b1
  | _, _ => false
  end.

(** Numbers for the sets of an expression *)
Fixpoint place (l : list str) (env : list (list str)) (k : nat) : option nat :=
  match env with
  | [] => None
  | m :: env' => if strs_same l m then Some k else place l env' (S k)
  end.
Fixpoint number (r : re) (env : list (list str)) : nre * list (list str) :=
  match r with
  | Strs l => match place l env 0 with
              | Some k => (Named k, env)
              | None => (Named (length env), env ++ [l])
              end
  | Cat a b => let (a', e) := number a env in let (b', e') := number b e in (NCat a' b', e')
  | Alt a b => let (a', e) := number a env in let (b', e') := number b e in (NAlt a' b', e')
  | Ques a => let (a', e) := number a env in (NQues a', e)
  | Star a => let (a', e) := number a env in (NStar a', e)
  end.

Section Env.
  Variable env : list (list str).

  Fixpoint den (n : nre) : re :=
    match n with
    | Named k => Strs (nth k env [])
    | Small l => Strs l
    | NCat a b => Cat (den a) (den b)
    | NAlt a b => Alt (den a) (den b)
    | NQues a => Ques (den a)
    | NStar a => Star (den a)
    end.

  Fixpoint has_nil (l : list str) : bool :=
    match l with [] => false | [] :: _ => true | _ :: l' => has_nil l' end.

  Fixpoint nul (n : nre) : bool :=
    match n with
    | Named k => has_nil (nth k env [])
    | Small l => has_nil l
    | NCat a b => if nul a then nul b else false
    | NAlt a b => if nul a then true else nul b
    | NQues _ | NStar _ => true
    end.

  (** What may follow after the character [c] *)
  Definition rest_of (c : N) (l : list str) : list nre :=
    match tails c l with [] => [] | m => [Small m] end.
  Definition join (a b : nre) : nre :=
    match a with Small [[]] => b | _ => NCat a b end.
  Fixpoint after (c : N) (n : nre) : list nre :=
    match n with
    | Named k => rest_of c (nth k env [])
    | Small l => rest_of c l
    | NCat a b => map (fun x => join x b) (after c a) ++ (if nul a then after c b else [])
    | NAlt a b => after c a ++ after c b
    | NQues a => after c a
    | NStar a => map (fun x => join x (NStar a)) (after c a)
    end.

  Fixpoint mem (n : nre) (l : list nre) : bool :=
    match l with [] => false | m :: l' => if nre_same n m then true else mem n l' end.
  Fixpoint once (l : list nre) : list nre :=
    match l with [] => [] | n :: l' => let m := once l' in if mem n m then m else n :: m end.
  Definition step (q : list nre) (c : N) : list nre := once (flat_map (after c) q).
  Definition steps (q : list nre) (s : str) : list nre := fold_left step s q.
  Fixpoint inside (p q : list nre) : bool :=
    match p with [] => true | n :: p' => if mem n q then inside p' q else false end.
  Definition alike (p q : list nre) : bool := if inside p q then inside q p else false.
  Fixpoint has_state (q : list nre) (l : list (list nre)) : bool :=
    match l with [] => false | p :: l' => if alike q p then true else has_state q l' end.
  Fixpoint may_end (q : list nre) : bool :=
    match q with [] => false | n :: q' => if nul n then true else may_end q' end.

  Variable sigma : list N.

  (** The states reached from [todo], and those of [seen] *)
  Fixpoint new_states (q : list nre) (cs : list N) (todo seen : list (list nre)) : list (list nre) :=
    match cs with
    | [] => todo
    | c :: cs' =>
        let p := step q c in
        match p with
        | [] => new_states q cs' todo seen
        | _ => if has_state p seen then new_states q cs' todo seen
               else if has_state p todo then new_states q cs' todo seen
               else new_states q cs' (todo ++ [p]) seen
        end
    end.
  Fixpoint reach (fuel : nat) (todo seen : list (list nre)) : list (list nre) :=
    match fuel, todo with
    | S f, q :: todo' => reach f (new_states q sigma todo' (q :: seen)) (q :: seen)
    | _, _ => seen
    end.

  (** ** Inclusion of states *)

  Fixpoint has_pair (p q : list nre) (l : list (list nre * list nre)) : bool :=
    match l with
    | [] => false
    | (p', q') :: l' => if (if inside p p' then inside q' q else false) then true
                        else has_pair p q l'
    end.
  Definition below (l : list (list nre * list nre)) (p q : list nre) : bool :=
    if inside p q then true else has_pair p q l.

  Fixpoint new_pairs (p q : list nre) (cs : list N) (todo seen : list (list nre * list nre))
    : list (list nre * list nre) :=
    match cs with
    | [] => todo
    | c :: cs' =>
        let p' := step p c in
        match p' with
        | [] => new_pairs p q cs' todo seen
        | _ => let q' := step q c in
               if below seen p' q' then new_pairs p q cs' todo seen
               else if below todo p' q' then new_pairs p q cs' todo seen
               else new_pairs p q cs' (todo ++ [(p', q')]) seen
        end
    end.
  Fixpoint explore (fuel : nat) (todo seen : list (list nre * list nre))
    : list (list nre * list nre) :=
    match fuel, todo with
    | S f, (p, q) :: todo' =>
        if below seen p q then explore f todo' seen
        else explore f (new_pairs p q sigma todo' ((p, q) :: seen)) ((p, q) :: seen)
    | _, _ => seen
    end.

  (** The pairs that the rules ask for *)
  Definition wanted (states : list (list nre)) (rs : list (str * str)) : list (list nre * list nre) :=
    flat_map (fun q => flat_map (fun r =>
      match steps q (fst r) with
      | [] => []
      | p => let p' := steps q (snd r) in if inside p p' then [] else [(p, p')]
      end) rs) states.

  Definition closed_states (states : list (list nre)) : bool :=
    forallb (fun q => forallb (fun c =>
      match step q c with [] => true | p => has_state p states end) sigma) states.
  Definition closed_pairs (l : list (list nre * list nre)) : bool :=
    forallb (fun pq =>
      if (if may_end (fst pq) then may_end (snd pq) else true) then
        forallb (fun c => match step (fst pq) c with
                          | [] => true
                          | p => below l p (step (snd pq) c)
                          end) sigma
      else false) l.
End Env.

(** The whole check: the expression, its alphabet, and the replacements. *)
Definition keeps (r : re) (sigma : list N) (rs : list (str * str)) : bool :=
  let (n, env) := number r [] in
  if re_same (den env n) r then
    let states := reach env sigma 200 [[n]] [] in
    if has_state [n] states then
      if closed_states env sigma states then
        let w := wanted env states rs in
        let l := explore env sigma 2000 w [] in
        if closed_pairs env sigma l
        then forallb (fun pq => below l (fst pq) (snd pq)) w
        else false
      else false
    else false
  else false.

(** Structural inclusion of two expressions *)
Fixpoint mem_str (s : str) (l : list str) : bool :=
  match l with [] => false | t :: l' => if str_same s t then true else mem_str s l' end.
Fixpoint strs_below (a b : list str) : bool :=
  match a with [] => true | s :: a' => if mem_str s b then strs_below a' b else false end.
Fixpoint re_below (a b : re) : bool :=
  match a, b with
  | Strs l, Strs m => strs_below l m
  | Cat a1 a2, Cat b1 b2 | Alt a1 a2, Alt b1 b2 =>
      if re_below a1 b1 then re_below a2 b2 else false
  | Ques a1, Ques b1 | Star a1, Star b1 => re_below a1 b1
  | _, _ => false
  end.

(** The expression for the strings without the characters [z] *)
Definition lacks (z : list N) (s : str) : bool := forallb (fun c => negb (memN c z)) s.
Fixpoint lacking (z : list N) (r : re) : re :=
  match r with
  | Strs l => Strs (filter (lacks z) l)
  | Cat a b => Cat (lacking z a) (lacking z b)
  | Alt a b => Alt (lacking z a) (lacking z b)
  | Ques a => Ques (lacking z a)
  | Star a => Star (lacking z a)
  end.
