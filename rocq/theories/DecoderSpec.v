(** Vocabulary for the theorems about the pair language model decoder: properties of
    its data. *)
From Coq Require Import Sorting.Sorted.
From Verif Require Import Base Utf8Spec KbestModel KbestSpec ErrorRateModel PairlmModel PairlmSpec LatticeModel LatticeSpec CacheModel.

(** ** Backoff models *)
Definition first_of (m : lm) (q : nat) : option (Z * Z * nat) :=
  match nth_error m q with Some s => hd_error (lm_arcs s) | None => None end.
Definition final_of (m : lm) (q : nat) : option Z :=
  match nth_error m q with Some s => lm_final s | None => None end.
Notation via_lm m := (via (first_of m) (final_of m)).
Definition has_arcs (m : lm) : Prop := forall s, In s m -> lm_arcs s <> [].
(** Backoff arcs lead to states of lower rank, so there are no circles of them. *)
Definition ranked (rank : nat -> nat) (m : lm) : Prop :=
  forall q, q < length m -> rank q < length m /\
    forall w n, final_of m q = None -> first_of m q = Some (0%Z, w, n) -> n < length m /\ rank n < rank q.

(** ** Lattices *)
Definition good_positions (l : sausage) : Prop := Forall (fun p => p <> [] /\ Forall (fun a => (0 < ilabel a)%Z) p) l.
Definition in_tables (ids costs : list Z) (a : arc) : Prop :=
  (0 < ilabel a)%Z /\ Z.to_nat (ilabel a) < length costs /\ Z.to_nat (ilabel a) < length ids.
Definition cost_of (costs : list Z) (a : arc) : Z := nth (Z.to_nat (ilabel a)) costs 0%Z.
Definition relabelled (input_sym : Z) (ids costs : list Z) (a : arc) : arc :=
  Arc input_sym (nth (Z.to_nat (ilabel a)) ids 0%Z) (cost_of costs a).
Definition input_word_of (syms : list str) (w : str) : Prop := exists n, find_sym w syms = Some n /\ 0 < n.
Definition assigned (syms : list str) (ids costs : list Z) k bound (w : str) (arcs out : list arc) : Prop :=
  exists n kept, find_sym w syms = Some n /\ pruned (cost_of costs) k bound arcs kept /\ out = map (relabelled (Z.of_nat n) ids costs) kept.

Definition olabel_le (a b : arc) : Prop := (olabel a <= olabel b)%Z.
(** Arc [a] stands for the arc [r] of a word's lattice. *)
Definition stands_for (ids : list Z) (a r : arc) : Prop :=
  (0 < ilabel a)%Z /\ nth_error ids (Z.to_nat (ilabel a)) = Some (ilabel r) /\ olabel a = olabel r /\ weight a = weight r.
Definition position_of (ids : list Z) (p r : list arc) : Prop :=
  StronglySorted olabel_le p /\ exists p', Permutation p p' /\ Forall2 (stands_for ids) p' r.

(** ** Printed lattices *)
(** A field: not empty, no tab, no end of line. *)
Definition field (s : str) : Prop := s <> [] /\ ~ In 9%N s /\ ~ In 10%N s.
Definition entry (in_syms out_syms : list str) (a : arc) : str * scored :=
  (symbol_text in_syms (ilabel a), (symbol_text out_syms (olabel a), weight a)).
Definition printable (in_syms out_syms : list str) (l : sausage) : Prop :=
  Forall (fun p => p <> [] /\ Forall (fun a => field (symbol_text in_syms (ilabel a)) /\ field (symbol_text out_syms (olabel a))) p) l.
(** Symbol tables and lattice of a line. *)
Notation example := ((list str * list str) * sausage)%type.
Definition texts (e : example) : list (list (str * scored)) := map (map (entry (fst (fst e)) (snd (fst e)))) (snd e).
Definition segments (examples : list example) := placed (map Z.of_nat (seq 0 (length examples))) (map texts examples).

(** ** Pair symbols *)
(** What a one-state transducer relates; labels 0 are left out. *)
Definition nonzero (l : list Z) : list Z := filter (fun z => negb (Z.eqb z 0)) l.
Definition relates (arcs : list (Z * Z)) (ins outs : list Z) : Prop :=
  exists p, incl p arcs /\ nonzero (map fst p) = ins /\ nonzero (map snd p) = outs.
(** Symbols N;M with the numbers [x] and [y]. *)
Definition pair_symbol (atoi : str -> option Z) (s : str) (x y : Z) : Prop :=
  exists a b, s = a ++ 59%N :: b /\ a <> [] /\ b <> [] /\ ~ In 59%N a /\ ~ In 59%N b /\ atoi a = Some x /\ atoi b = Some y.
(** Every symbol but the first is a pair or has no semicolon. *)
Definition pair_table (atoi : str -> option Z) (syms : list str) : Prop :=
  forall i s, nth_error syms (S i) = Some s -> (exists x y, pair_symbol atoi s x y) \/ ~ In 59%N s.
(** The numbers of the symbols with these labels. *)
Definition pair_of (atoi : str -> option Z) (syms : list str) (label : Z) (xy : Z * Z) : Prop :=
  exists i s, label = Z.of_nat (S i) /\ nth_error syms (S i) = Some s /\ pair_symbol atoi s (fst xy) (snd xy).

(** ** Caches *)
(** Every word in mix_overrides_ is in the global cache. *)
Definition covers (d : caches) : Prop := forall w, In w (overrides d) -> lookup w (global d) <> None.
(** Entries of the global cache are never empty. *)
Definition filled (d : caches) : Prop := forall w cs, lookup w (global d) = Some cs -> cs <> [].
Definition sound (d : caches) : Prop := covers d /\ filled d.
(** A word is not one of its own segments. *)
Definition proper (segment : str -> list str) (w : str) : Prop :=
  match segment w with _ :: _ :: _ => ~ In w (segment w) | _ => True end.
(** No word is a segment of a word. *)
Definition no_segments (segment : str -> list str) (ws : list str) : Prop :=
  forall v, In v ws -> match segment v with _ :: _ :: _ => forall w, In w ws -> ~ In w (segment v) | _ => True end.

(** The line has three fields: two words and a cost. *)
Definition external_entry (atod : str -> option Z) (line : str) (e : str * str * Z) : Prop :=
  exists f, has_fields line [fst (fst e); snd (fst e); f] /\ atod f = Some (snd e).
(** The last entry for a pair of words counts. *)
Definition same_words (a b : str) (e : str * str * Z) : bool := str_eqb a (fst (fst e)) && str_eqb b (snd (fst e)).
Definition last_cost (es : list (str * str * Z)) (a b : str) : option Z :=
  match filter (same_words a b) (rev es) with e :: _ => Some (snd e) | [] => None end.
Definition cost_in (d : caches) (a b : str) : option Z := match lookup a (global d) with Some m => lookup b m | None => None end.
