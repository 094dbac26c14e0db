(** Texts as sequences of symbols, and rewriting of symbols. *)
From Verif Require Import Base RuleModel RegexModel AlignModel.

Inductive tok := Gr (s : str) | Ph (s : str) | Tr (s : str) | Eq.
Definition enc (t : tok) : str :=
  match t with Gr s => [60%N] ++ s ++ [62%N] | Ph s => [123%N] ++ s ++ [125%N] | Tr s => [96%N] ++ s ++ [96%N] | Eq => [61%N] end.
Definition encs (l : list tok) : str := flat_map enc l.
(** Letters and punctuation of symbol names *)
Definition sym_char (c : N) : Prop := (65 <= c <= 90)%N \/ (97 <= c <= 122)%N \/ In c [95; 43; 46; 42; 45; 38; 33; 58]%N.
Definition symbol (t : tok) : Prop := match t with Gr s | Ph s | Tr s => Forall sym_char s | Eq => True end.
Definition named (t : tok) : Prop := match t with Gr s | Ph s | Tr s => s <> [] | Eq => True end.
(** Rules between sequences of symbols; the first one to be matched has a name *)
Definition symbol_rule (p : list tok * list tok) : Prop :=
  Forall symbol (fst p) /\ Forall symbol (snd p) /\ match fst p with [] => False | t :: _ => named t end.
Definition right_symbol (t : tok) : bool := match t with Ph _ | Tr _ => true | _ => false end.
Definition grapheme (t : tok) : bool := match t with Gr _ => true | _ => false end.

(** What may stand between an operation and its context *)
Definition skipped (l : list tok) : Prop :=
  l = [] \/ (exists g, l = g ++ [Eq] /\ forallb grapheme g = true) \/ (exists r, l = Eq :: r /\ forallb right_symbol r = true).
(** No context; one of some sequences; or the edge of the word, past one side of an
    alignment at most *)
Inductive ctx := Anywhere | Next (l : list (list tok)) | Edge.
Definition symbol_ctx (c : ctx) : Prop := match c with Next l => Forall (Forall symbol) l | _ => True end.
Definition before (c : ctx) (done : list tok) : Prop :=
  match c with
  | Anywhere => True
  | Next l => exists a u x, In a l /\ skipped x /\ done = u ++ a ++ x
  | Edge => exists x y, (x = [] \/ exists g, x = g ++ [Eq] /\ forallb grapheme g = true) /\ skipped y /\ done = x ++ y
  end.
Definition after (c : ctx) (rest : list tok) : Prop :=
  match c with
  | Anywhere => True
  | Next l => exists a u x, In a l /\ skipped x /\ rest = x ++ a ++ u
  | Edge => exists x y, (x = [] \/ exists r, x = Eq :: r /\ forallb right_symbol r = true) /\ skipped y /\ rest = y ++ x
  end.
Definition left_context (c : ctx) : context := match c with Anywhere => None | Next l => Some (false, Strs (map encs l)) | Edge => BOW end.
Definition right_context (c : ctx) : context := match c with Anywhere => None | Next l => Some (false, Strs (map encs l)) | Edge => EOW end.

(** Rewriting from left to right, [done] is what was written *)
Inductive rewrites (rs : list (list tok * list tok)) (p f : ctx) : list tok -> list tok -> list tok -> Prop :=
| rw_end done : rewrites rs p f done [] []
| rw_apply done l r rest out : In (l, r) rs -> before p done -> after f rest -> rewrites rs p f (done ++ r) rest out -> rewrites rs p f done (l ++ rest) (r ++ out)
| rw_copy done t rest out : (forall l r u, In (l, r) rs -> t :: rest = l ++ u -> after f u -> ~ before p done) -> rewrites rs p f (done ++ [t]) rest out ->
    rewrites rs p f done (t :: rest) (t :: out).
Definition rule_of (p : list tok * list tok) : rule := Rule (encs (fst p)) (encs (snd p)).

(** [stripped s t]: graphemes and alignment signs are left out, anything else stays *)
Inductive stripped : str -> str -> Prop :=
| sp_end : stripped [] []
| sp_sign s t : stripped s t -> stripped (61%N :: s) t
| sp_grapheme y s t : Forall sym_char y -> stripped s t -> stripped (60%N :: y ++ 62%N :: s) t
| sp_copy c s t : c <> 61%N -> (forall y u, Forall sym_char y -> c :: s <> 60%N :: y ++ 62%N :: u) -> stripped s t -> stripped (c :: s) (c :: t).

(** Values looked up by name, for tables with distinct names *)
Definition assigns (tab : list (str * list tok)) : list (list tok * list tok) := map (fun p : str * list tok => ([Gr (fst p)], [Gr (fst p); Eq] ++ snd p)) tab.
Definition table (tab : list (str * list tok)) : Prop :=
  NoDup (map fst tab) /\ Forall (fun p : str * list tok => fst p <> [] /\ Forall sym_char (fst p) /\ Forall symbol (snd p)) tab.
(** Rules that keep the graphemes *)
Definition keeps_graphemes (p : list tok * list tok) : Prop := filter grapheme (fst p) = filter grapheme (snd p).
(** No left side starts with another *)
Definition apart (rs : list (list tok * list tok)) : Prop :=
  forall p q u, In p rs -> In q rs -> fst q = fst p ++ u -> p = q.
(** Characters with names and distinct types *)
Definition char_table (l : list char) : Prop := NoDup (map typ l) /\ Forall (fun c => typ c <> [] /\ Forall sym_char (typ c)) l.
(** The first symbol, if any, has a name *)
Definition starts_named (l : list tok) : Prop := match l with [] => True | t :: _ => named t end.
(** Each character transliterated by itself *)
Definition spelled (l : list char) : list (str * list tok) := map (fun c => (typ c, [Tr (typ c)])) l.
