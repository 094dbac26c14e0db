(** Model of expressions: Item and Symbol in
    nisaba/scripts/natural_translit/utils/symbol.py and Expression, Atomic, Cat, Or and
    alignments in utils/expression.py.  Expressions are trees: an expression that is put
    into another one and changed afterwards is not modelled.  Symbols are compared by
    identity, which is a number here.  The symbol made by an empty alternation is new on
    every call, so that it differs from all symbols, also from itself ([Fresh]). *)
From Verif Require Import Base.

(** Symbols: the controls eps and nor, other controls, all others. *)
Inductive sy := Eps | Nor | Ctl (n : nat) | Let (n : nat) | Fresh.
Definition sy_eqb (a b : sy) : bool :=
  match a, b with
  | Eps, Eps => true
  | Nor, Nor => true
  | Ctl m, Ctl n => Nat.eqb m n
  | Let m, Let n => Nat.eqb m n
  | _, _ => false
  end.
Fixpoint syl_eqb (a b : list sy) : bool :=
  match a, b with
  | [], [] => true
  | x :: a', y :: b' => sy_eqb x y && syl_eqb a' b'
  | _, _ => false
  end.
(** Symbol.is_control, symbol.py, lines 346-347; Atomic.is_control, expression.py, lines 181-182 *)
Definition is_control (s : sy) : bool := match s with Eps | Nor | Ctl _ => true | Let _ | Fresh => false end.

(** A Symbol, an Atomic of it, Expression.ANY, another bare Expression, Cat, Or, and an
    Alignment with its two sides (the context of a rule is in [rule] below). *)
Inductive item :=
| ISym (s : sy)
| IAtm (s : sy)
| IAny
| IExp
| ICat (l : list item)
| IOr (l : list item)
| IAlg (l r : item).

(** __len__, symbol.py, lines 46-47 and type_op.py, lines 235-236; Atomic contains itself.
    An item of length 0 is false as a condition. *)
Definition item_len (x : item) : nat :=
  match x with
  | IAtm _ => 1
  | ICat l => length l
  | IOr l => length l
  | _ => 0
  end.
Definition truth (x : item) : bool := negb (Nat.eqb (item_len x) 0).

(** Expression.is_any, expression.py, lines 103-108; _BaseAlignment.is_any, lines 381-382;
    Item.is_any, symbol.py, lines 55-56.  As no symbol is any, this is also
    Item.is_expression_any, symbol.py, lines 58-59. *)
Fixpoint is_any (x : item) : bool :=
  match x with
  | IAny => true
  | ICat [y] => is_any y
  | IOr [y] => is_any y
  | IAlg l r => is_any l && is_any r
  | _ => false
  end.

(** is_nor, symbol.py, lines 352-353, expression.py, lines 113-114 and 387-388 *)
Fixpoint is_nor (x : item) : bool :=
  match x with
  | ISym s => sy_eqb s Nor
  | IAtm s => sy_eqb s Nor
  | IAlg l r => is_nor l && is_nor r
  | _ => false
  end.

(** state_count, symbol.py, lines 67-68, expression.py, lines 98-101 *)
Fixpoint state_count (x : item) : nat :=
  match x with
  | ISym _ => 1
  | IAtm _ => 1
  | ICat l => list_sum (map state_count l)
  | IOr l => list_sum (map state_count l)
  | _ => 0
  end.

(** Cat._add_sym_lists, expression.py, lines 218-225 *)
Definition add_sym_lists (a b : list sy) : list sy :=
  if syl_eqb a [Eps] then b else if syl_eqb b [Eps] then a else a ++ b.
(** The inner loop of Cat.symbols, expression.py, lines 237-241: the first list is taken
    out and its continuations are put at the end. *)
Fixpoint rotate (n : nat) (queue item_symbols : list (list sy)) : list (list sy) :=
  match n with
  | O => queue
  | S n' =>
    match queue with
    | [] => []
    | syms :: rest => rotate n' (rest ++ map (add_sym_lists syms) item_symbols) item_symbols
    end
  end.
(** symbols, symbol.py, lines 70-77 and 343-344, expression.py, lines 227-242 and 321-334 *)
Fixpoint symbols (x : item) : list (list sy) :=
  match x with
  | ISym s => [[s]]
  | IAtm s => [[s]]
  | ICat l => fold_left (fun acc ls => rotate (length acc) acc ls) (map symbols l) [[Eps]]
  | IOr [] => [[Fresh]]
  | IOr l => concat (map symbols l)
  | _ => []
  end.

Definition mem_list (a : list sy) (l : list (list sy)) : bool := existsb (syl_eqb a) l.

(** Item.accepts, symbol.py, lines 85-107; _BaseAlignment._compare and accepts,
    expression.py, lines 390-398; is_equivalent, symbol.py, lines 109-110, expression.py,
    lines 400-401, is [accepts] with [eqv]. *)
Definition item_accepts (x other : item) (eqv : bool) : bool :=
  if is_any x || is_any other then (eqv && is_any x && is_any other) || negb eqv
  else
    let self_symbols := symbols x in
    let other_symbols := symbols other in
    let self_len := length self_symbols in
    let other_len := length other_symbols in
    if Nat.eqb self_len 0 || Nat.ltb self_len other_len || (eqv && negb (Nat.eqb self_len other_len)) then false
    else forallb (fun sym_list => mem_list sym_list self_symbols) other_symbols.
Fixpoint accepts (x other : item) (eqv : bool) : bool :=
  match x with
  | IAlg l r => match other with IAlg l' r' => accepts l l' eqv && accepts r r' eqv | _ => false end
  | _ => item_accepts x other eqv
  end.
Definition is_equivalent (x other : item) : bool := accepts x other true.

(** Expression.ANY in self *)
Definition has_any (l : list item) : bool := existsb (fun x => match x with IAny => true | _ => false end) l.

(** Expression._add_item, Cat.add, Or.add, Or._update and the copy methods, expression.py,
    lines 62-88, 210-216, 271-316, 116-119, 178-179, 244-245, 318-319 and 693-707.
    [cat_step x acc] adds x to a Cat of items acc, [or_step x acc] one item to an Or, after
    the two tests that end the loop, which are in [or_list].  Or._update empties the Or
    and adds the item again; an empty Or is not accepted by any item but ANY, so that this
    does not go further ([or_update]; see the theorem on or_step).  A copy of an Alignment
    has copies of its sides. *)
Fixpoint cat_step (x : item) (acc : list item) {struct x} : list item :=
  let cat_list := (fix cat_list l acc := match l with [] => acc | y :: r => cat_list r (cat_step y acc) end) in
  let or_list :=
    (fix or_list l acc :=
       match l with
       | [] => acc
       | y :: r => if has_any acc then acc else if is_any y then [y] else or_list r (or_step y acc)
       end) in
  if is_any x then acc ++ [x] else
  match x with
  | ICat l => cat_list l acc
  | ISym s | IAtm s => if is_control s then acc else acc ++ [IAtm s]
  | IOr [y] => cat_step y acc
  | IOr l => acc ++ [IOr (or_list l [])]
  | IAlg l r => acc ++ [IAlg (copy l) (copy r)]
  | IAny | IExp => acc ++ [x]
  end
with or_step (x : item) (acc : list item) {struct x} : list item :=
  let cat_list := (fix cat_list l acc := match l with [] => acc | y :: r => cat_list r (cat_step y acc) end) in
  let or_list :=
    (fix or_list l acc :=
       match l with
       | [] => acc
       | y :: r => if has_any acc then acc else if is_any y then [y] else or_list r (or_step y acc)
       end) in
  let add_item acc :=
    match x with
    | IOr l => or_list l acc
    | ISym s | IAtm s => if is_control s then acc else acc ++ [IAtm s]
    | ICat [y] => if has_any acc then acc else if is_any y then [y] else or_step y acc
    | ICat l => acc ++ [ICat (cat_list l [])]
    | IAlg l r => acc ++ [IAlg (copy l) (copy r)]
    | IAny | IExp => acc ++ [x]
    end in
  let or_update := if accepts (IOr []) x false then [] else add_item [] in
  if accepts (IOr acc) x false then
    if accepts x (IOr acc) false && Nat.ltb (state_count x) (state_count (IOr acc)) then or_update else acc
  else if accepts x (IOr acc) false then or_update
  else add_item acc
with copy (x : item) {struct x} : item :=
  let cat_list := (fix cat_list l acc := match l with [] => acc | y :: r => cat_list r (cat_step y acc) end) in
  let or_list :=
    (fix or_list l acc :=
       match l with
       | [] => acc
       | y :: r => if has_any acc then acc else if is_any y then [y] else or_list r (or_step y acc)
       end) in
  match x with
  | ICat l => ICat (cat_list l [])
  | IOr l => IOr (or_list l [])
  | IAlg l r => IAlg (copy l) (copy r)
  | _ => x
  end.

(** Cat.add and Or.add with several arguments *)
Fixpoint cat_list (l acc : list item) : list item := match l with [] => acc | y :: r => cat_list r (cat_step y acc) end.
Fixpoint or_list (l acc : list item) : list item :=
  match l with
  | [] => acc
  | y :: r => if has_any acc then acc else if is_any y then [y] else or_list r (or_step y acc)
  end.

(** Cat.__init__, Or.__init__, __add__, __or__, repeat, ques, expression.py, lines 201-203,
    257-259 and 121-136 *)
Definition mk_cat (l : list item) : item := ICat (cat_list l []).
Definition mk_or (l : list item) : item := IOr (or_list l []).
Definition plus (x y : item) : item := mk_cat [x; y].
Definition alt (x y : item) : item := mk_or [x; y].
Definition repeated (x : item) (n : nat) : item := mk_cat (repeat x n).
Definition ques (x : item) (preferred : bool) : item := if preferred then mk_or [x; mk_cat []] else mk_or [mk_cat []; x].

(** Item.contains_symbol_list, symbol.py, lines 112-193: the inner loop trims [search_in],
    the outer one takes the first symbol off.  Lists shared between sequences are trimmed
    together in the code; equal lists have been searched then. *)
Fixpoint trim (n : nat) (tail : bool) (search_in search_for : list sy) (full : bool) : bool :=
  match n, search_in with
  | O, _ => false
  | _, [] => false
  | S n', _ :: rest =>
    if syl_eqb search_in search_for then true
    else if full then false
    else trim n' tail (if tail then rest else removelast search_in) search_for full
  end.
Fixpoint search (symbol_list search_for : list sy) (head tail : bool) : bool :=
  match symbol_list with
  | [] => false
  | _ :: rest =>
    if trim (length symbol_list) tail symbol_list search_for (head && tail) then true
    else if head || tail then false
    else search rest search_for head tail
  end.
Definition contains_symbol_list (x : item) (search_for : list sy) (head tail : bool) : bool :=
  if syl_eqb search_for [Eps] then true
  else if syl_eqb search_for [Nor] then false
  else if is_any x then true
  else existsb (fun symbol_list => search symbol_list search_for head tail) (symbols x).

(** contains, symbol.py, lines 195-227, expression.py, lines 403-406 *)
Definition item_contains (x other : item) (head tail : bool) : bool :=
  if is_any x || is_any other then negb (is_nor x) && negb (is_nor other)
  else existsb (fun sym_list => contains_symbol_list x sym_list head tail) (symbols other).
Fixpoint contains (x other : item) (head tail : bool) : bool :=
  match x with
  | IAlg l r => match other with IAlg l' r' => contains l l' head tail && contains r r' head tail | _ => false end
  | _ => item_contains x other head tail
  end.
(** matches, symbol.py, lines 236-237, expression.py, lines 413-414 *)
Definition matches (x other : item) : bool := contains x other true true.
(** head_matches and tail_matches, symbol.py, lines 245-248 and 253-256, expression.py,
    lines 416-417 and 422-423; [tail] tells which. *)
Fixpoint end_matches (tail : bool) (x other : item) : bool :=
  match x with
  | IAlg l r => match other with IAlg l' r' => end_matches tail l l' && end_matches tail r r' | _ => false end
  | _ =>
    if truth x && negb (truth other) then is_any other
    else contains x other (negb tail) tail
  end.
(** is_prefix and is_suffix, symbol.py, lines 250-251 and 258-259, expression.py,
    lines 419-420 and 425-426 *)
Fixpoint is_end (tail : bool) (x other : item) : bool :=
  match x with
  | IAlg l r => match other with IAlg l' r' => is_end tail l l' && is_end tail r r' | _ => false end
  | _ => end_matches tail other x
  end.
Definition head_matches := end_matches false.
Definition tail_matches := end_matches true.
Definition is_prefix := is_end false.
Definition is_suffix := is_end true.

(** Rules: the sides, contexts and flags of Alignment, expression.py, lines 481-512.
    Operations, costs, priorities and aliases are numbers; [constant] is the source
    AlignmentSource.CONSTANT.  _set_side, lines 350-353, makes symbols atomic. *)
Definition set_side (x : item) : item := match x with ISym s => IAtm s | _ => x end.
Record rule := Rule {
  r_alias : list nat; r_left : item; r_right : item; r_pre : item * item; r_fol : item * item; from_bos : bool; to_eos : bool;
  r_op : nat; r_priority : nat; r_cost : nat; constant : bool
}.
Definition as_item (r : rule) : item := IAlg (r_left r) (r_right r).
Definition base (l r : item) : item * item := (set_side l, set_side r).
(** Alignment.simple, lines 563-570 *)
Definition simple (l r : item) : rule :=
  Rule [] (set_side l) (set_side r) (IAny, IAny) (IAny, IAny) false false 0 0 0 false.
(** Alignment.rule, lines 573-605.  A context of which both sides are any becomes ANY. *)
Definition any_context (c : item * item) : item * item := if is_any (fst c) && is_any (snd c) then (IAny, IAny) else c.
Definition mk_rule (alias : list nat) (alignment : item * item) (pre fol : item * item) (bos eos : bool) (op prio cost : nat) : rule :=
  Rule alias (set_side (fst alignment)) (set_side (snd alignment))
    (any_context (base (fst pre) (snd pre))) (any_context (base (fst fol) (snd fol))) bos eos op prio cost false.
Definition sides (r : rule) : item * item := (r_left r, r_right r).
(** deletion, insertion and interchangeable, lines 608-691; the suffixes _l2r and _r2l of
    the alias are 0 and 1. *)
Definition deletion (alias : list nat) (left : item) (pre fol : item * item) bos eos op prio cost : rule :=
  mk_rule alias (sides (simple left (IAtm Eps))) pre fol bos eos op prio cost.
Definition insertion (alias : list nat) (right : item) (pre fol : item * item) bos eos op prio cost : rule :=
  mk_rule alias (sides (simple (IAtm Eps) right)) pre fol bos eos op prio cost.
Definition interchangeable (alias : list nat) (alignment : item * item) (pre fol : item * item) bos eos op prio cost : rule * rule :=
  (mk_rule (alias ++ [0]) (sides (simple (fst alignment) (snd alignment))) pre fol bos eos op prio cost,
   mk_rule (alias ++ [1]) (sides (simple (snd alignment) (fst alignment))) pre fol bos eos op prio cost).
(** Alignment.copy, lines 693-707 *)
Definition copy_rule (r : rule) : rule :=
  if constant r then r
  else mk_rule (r_alias r) (sides (simple (copy (r_left r)) (copy (r_right r))))
         (sides (simple (copy (fst (r_pre r))) (copy (snd (r_pre r)))))
         (sides (simple (copy (fst (r_fol r))) (copy (snd (r_fol r)))))
         (from_bos r) (to_eos r) (r_op r) (r_priority r) (r_cost r).
(** Alignment.context_matches, lines 712-721 *)
Definition alg (c : item * item) : item := IAlg (fst c) (snd c).
Definition context_matches (r : rule) (preceding following : item * item) : bool :=
  ((from_bos r && matches (alg (r_pre r)) (alg preceding)) || (negb (from_bos r) && is_suffix (alg (r_pre r)) (alg preceding)))
  && ((to_eos r && matches (alg (r_fol r)) (alg following)) || (negb (to_eos r) && is_prefix (alg (r_fol r)) (alg following))).
