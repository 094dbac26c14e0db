(** Which pieces the texts of a grammar are made of: a checker. *)
From Verif Require Import Base RuleModel RegexModel AlignModel AlignSpec NatModel.

(** May hold, or surely holds, of a text that starts with the known symbols *)
Fixpoint maybe_re (edge : bool) (r : tre) (known : word) : bool :=
  if tnull r then false
  else match known with
       | [] => true
       | t :: k => if edge then maybe_re edge (tderiv t r) k else if tnullable r then true else maybe_re edge (tderiv t r) k
       end.
Definition maybe (c : tctx) (known : word) : bool := match c with None => true | Some (edge, r) => maybe_re edge r known end.
Fixpoint sure_re (r : tre) (known : word) : bool :=
  if tnullable r then true else match known with [] => false | t :: k => sure_re (tderiv t r) k end.
Definition sure (c : tctx) (known : word) : bool := match c with None => true | Some (true, _) => false | Some (false, r) => sure_re r known end.

(** What is rewritten lies within the known symbols, goes beyond them, or does not fit *)
Inductive fit := Inside (u : word) | Beyond (l : word) | Unfit.
Fixpoint fit_of (l w : word) : fit :=
  match l, w with
  | [], _ => Inside w
  | _, [] => Beyond l
  | a :: l', b :: w' => if tok_eqb a b then fit_of l' w' else Unfit
  end.
Fixpoint join {A} (l : list (option (list A))) : option (list A) :=
  match l with
  | [] => Some []
  | None :: _ => None
  | Some x :: l' => match join l' with None => None | Some y => Some (x ++ y) end
  end.
Section Explore.
Variables (det : bool) (rs : list (word * word)) (p f : tctx) (B : list word).
Definition beyond (w : word) : list word := flat_map (fun q : word * word => match fit_of (fst q) w with Beyond l => [l] | _ => [] end) rs.
Definition nexts (w : word) : list word :=
  match beyond w with
  | [] => []
  | ls => filter (fun b => existsb (fun l => match fit_of l b with Unfit => false | _ => true end) ls) B
  end.
Definition candidates (w : word) : list (word * word) :=
  flat_map (fun q : word * word => match fit_of (fst q) w with Inside u => if maybe f u then [(snd q, u)] else [] | _ => [] end) rs.
Definition certain (w : word) : bool :=
  existsb (fun q : word * word => match fit_of (fst q) w with Inside u => sure f u | _ => false end) rs.
Fixpoint explore (fuel : nat) (cur w : word) : option (list word) :=
  match fuel with
  | 0 => None
  | S k =>
      match w with
      | [] => Some [rev cur]
      | t :: w' =>
          if maybe p cur
          then let cs := candidates w in
               if (if det then match cs with _ :: _ :: _ => true | _ => false end else false) then None
               else join [join (map (fun q => explore k (rev (fst q) ++ cur) (snd q)) cs);
                          if (if certain w then sure p cur else false) then Some [] else explore k (t :: cur) w';
                          join (map (fun b => explore k cur (w ++ b)) (nexts w))]
          else explore k (t :: cur) w'
      end
  end.
End Explore.
Definition word_in (w : word) (l : list word) : bool := existsb (word_eqb w) l.
Fixpoint collect (l acc : list word) : list word :=
  match l with [] => acc | w :: l' => collect l' (if word_in w acc then acc else w :: acc) end.
Definition FUEL : nat := 60.
(** The pieces after an operation: those it leaves alone, and new ones *)
Fixpoint splits (u v : word) : list (word * word) := match v with [] => [] | t :: v' => (u, v) :: splits (t :: u) v' end.
Definition post (det : bool) (o : op) (B : list word) : option (list word) :=
  match o with
  | Rewrite rs p f =>
      match join (map (fun b => match explore det rs (skip_before p) (skip_after f) B FUEL [] b with None => None | Some r => Some [(b, r)] end) B) with
      | None => None
      | Some l =>
          let same := flat_map (fun q : word * list word => if word_in (fst q) (snd q) then [fst q] else []) l in
          let new := flat_map (fun q : word * list word => filter (fun x => negb (word_eqb x (fst q))) (snd q)) l in
          Some (collect new same)
      end
  | Insert new p f =>
      if forallb (fun b => forallb (fun q : word * word => match fst q with [] => true | _ => if maybe (skip_before p) (fst q) then negb (maybe (skip_after f) (snd q)) else true end) (splits [] b)) B
      then Some (new :: B) else None
  | Pairs _ => None
  end.
Fixpoint posts (det : bool) (l : list op) (B : list word) : option (list word) :=
  match l with [] => Some B | o :: l' => match post det o B with None => None | Some B' => posts det l' B' end end.
