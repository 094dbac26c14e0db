(** What the tools for lists of full-string hypotheses should do. *)
From Verif Require Import Base Utf8Spec DelimSpec.

(** [ts] are the words of the text [s]. *)
Definition text_words (s : str) (ts : list str) : Prop :=
  exists cs l, encoding cs s /\ words_of white_space cs l /\ Forall2 encoding l ts.

(** The most frequent value; of several the largest. *)
Definition occurrences (v : nat) (l : list nat) : nat := count_occ Nat.eq_dec l v.
Definition mode (l : list nat) (v : nat) : Prop :=
  In v l /\ forall w, In w l ->
    occurrences w l < occurrences v l \/ (occurrences w l = occurrences v l /\ w <= v).

(** Acceptors given by their arcs. *)
Inductive path (arcs : list (nat * nat * str)) : nat -> list str -> nat -> Prop :=
| path_nil q : path arcs q [] q
| path_cons q r w ws t : In (q, r, w) arcs -> path arcs r ws t -> path arcs q (w :: ws) t.

(** Non-empty fields between tabs. *)
Fixpoint join_tab (parts : list str) : str :=
  match parts with
  | [] => []
  | [p] => p
  | p :: parts' => p ++ 9%N :: join_tab parts'
  end.
Definition non_empty (s : str) : bool := match s with [] => false | _ => true end.
Definition has_fields (line : str) (fs : list str) : Prop :=
  exists parts, parts <> [] /\ join_tab parts = line /\ Forall (fun p => ~ In 9%N p) parts /\
    fs = filter non_empty parts.

(** Maximal runs of equal keys. *)
Definition neighbours_differ {K} (l : list K) : Prop :=
  forall pre a b post, l = pre ++ a :: b :: post -> a <> b.
Definition spread {K V} (segs : list (K * list V)) : list (K * V) :=
  flat_map (fun s => map (pair (fst s)) (snd s)) segs.
Definition runs {K V} (l : list (K * V)) (segs : list (K * list V)) : Prop :=
  spread segs = l /\ Forall (fun s => snd s <> []) segs /\ neighbours_differ (map fst segs).

(** The elements of a list of lists with the number of their list. *)
Fixpoint numbered {A} (n : Z) (ll : list (list A)) : list (Z * A) :=
  match ll with
  | [] => []
  | l :: ll' => map (pair n) l ++ numbered (n + 1) ll'
  end.

(** Each index is the last one or one more. *)
Fixpoint steps (indices : list Z) : Prop :=
  match indices with
  | a :: (b :: _) as l => (b = a \/ b = a + 1)%Z /\ steps l
  | _ => True
  end.

Definition longest {A} (l : list (list A)) : nat := fold_right Nat.max 0 (map (@length A) l).

(** One candidate of every list. *)
Inductive choice {A} : list (list A) -> list A -> Prop :=
| choice_nil : choice [] []
| choice_cons l ls a r : In a l -> choice ls r -> choice (l :: ls) (a :: r).

Definition total (l : list Z) : Z := fold_right Z.add 0%Z l.
Definition spaced (ps : list str) : str :=
  match ps with [] => [] | p :: ps' => p ++ flat_map (fun q => 32%N :: q) ps' end.

(** Paths of a lattice with one state per position: labels count from 1. *)
Inductive lattice_path : list (list Z) -> list nat -> Z -> Prop :=
| lp_nil : lattice_path [] [] 0
| lp_cons ws l w lat p c : nth_error ws l = Some w -> lattice_path lat p c ->
    lattice_path (ws :: lat) (S l :: p) (w + c).

(** A k-shortest-paths search: different paths, [k] of them or all if there are
    fewer, and no path left out is cheaper than one found. *)
Definition k_shortest (search : list (list Z) -> nat -> list (list nat)) : Prop :=
  forall lat k, NoDup (search lat k) /\
    (forall p, In p (search lat k) -> exists c, lattice_path lat p c) /\
    length (search lat k) <= k /\
    forall q d, lattice_path lat q d -> ~ In q (search lat k) ->
      length (search lat k) = k /\
      forall p c, In p (search lat k) -> lattice_path lat p c -> (c <= d)%Z.

(** The elements of one list of an example, with example index and position; and
    those of all examples. *)
Definition positioned {A} (i : Z) (l : list A) : list ((Z * Z) * A) :=
  combine (map (fun p => (i, Z.of_nat p)) (seq 0 (length l))) l.
Definition placed {A} (index : list Z) (ll : list (list A)) : list ((Z * Z) * A) :=
  flat_map (fun g => positioned (fst g) (snd g)) (combine index ll).

(** What may follow a line about position [snd a] of example [fst a]. *)
Definition follows (a b : Z * Z) : Prop :=
  b = a \/ (fst b = fst a /\ snd b = (snd a + 1)%Z) \/ (fst b <> fst a /\ snd b = 0%Z).
Fixpoint keys_ok (k : Z * Z) (l : list (Z * Z)) : Prop :=
  match l with [] => True | k' :: l' => follows k k' /\ keys_ok k' l' end.
(** Positions count from 0 in every example. *)
Definition keys_good (l : list (Z * Z)) : Prop :=
  match l with [] => True | k :: l' => snd k = 0%Z /\ keys_ok k l' end.

(** ** Hypotheses: texts with scores *)
Notation scored := (str * Z)%type.
Definition hyp_words (h : scored) (ts : list str) : Prop := text_words (fst h) ts.
(** The hypotheses, with their words, that have [v] words. *)
Definition with_count (v : nat) (lists : list scored) (wss : list (list str)) : list (scored * list str) :=
  filter (fun x => Nat.eqb (length (snd x)) v) (combine lists wss).
Definition uniform (wss : list (list str)) : Prop := forall a b, In a wss -> In b wss -> length a = length b.
(** The hypotheses of all systems for item [j]. *)
Definition items_at {A} (systems : list (list (list A))) (j : nat) : list A :=
  flat_map (fun s => nth j s []) systems.

(** A line of the rejoiner: input, candidate, score. *)
Definition entry_of (stod : str -> option Z) (line : str) (e : str * scored) : Prop :=
  exists score, has_fields line [fst e; fst (snd e); score] /\ stod score = Some (snd (snd e)).
Definition last_index (indices : list Z) : Z := last indices 0%Z.
(** Segment number n is in the list numbered by the n-th index; no list is empty
    or missing. *)
Definition grouped (indices : list Z) (segs : list (str * list scored)) (lists : list (list (list scored))) : Prop :=
  numbered 0 lists = combine indices (map snd segs) /\ Forall (fun l => l <> []) lists /\
  Z.of_nat (length lists) = (last_index indices + 1)%Z.
Definition joined (hs : list scored) : scored := (spaced (map fst hs), total (map snd hs)).

(** A line of the extractor: the key is (index, position), the value (input word,
    candidate with score). *)
Definition line_entry_of (stod stoi : str -> option Z) (line : str) (e : (Z * Z) * (str * scored)) : Prop :=
  exists i p score, has_fields line [i; p; fst (snd e); fst (snd (snd e)); score] /\
    stoi i = Some (fst (fst e)) /\ stoi p = Some (snd (fst e)) /\ stod score = Some (snd (snd (snd e))).
Definition cands_of (s : (Z * Z) * list (str * scored)) : (Z * Z) * list scored := (fst s, map snd (snd s)).
Definition word_of (a : (Z * Z) * str) (s : (Z * Z) * list (str * scored)) : Prop :=
  fst a = fst s /\ exists v r, snd s = v :: r /\ snd a = fst v.
(** Every run of lines is one list of candidates, placed by its key; the input
    word is that of the first line of the run. *)
Definition extract_result (es : list ((Z * Z) * (str * scored)))
  (r : list (list (list scored)) * list (list str) * list Z) : Prop :=
  let '(arcs, wordss, index) := r in
  exists segs, runs es segs /\ placed index arcs = map cands_of segs /\ Forall2 word_of (placed index wordss) segs /\
    length index = length arcs /\ length index = length wordss /\ neighbours_differ index /\ Forall (fun l => l <> []) arcs.
