(** What the registry of letters and its tests promise. *)
From Coq Require Import Sorted.
From Verif Require Import Base DataModel DataSpec LetterModel.

(** The text [s] of a letter with these names and this raw text: what the names denote, one
    character each, which must be the raw text if that is given *)
Definition letter_text (lookup : str -> option str) (is_cc has_name : N -> bool) (prefixes names : list str)
    (given s : str) : Prop :=
  (names = [] /\ given <> [] /\ s = given) \/
  (names <> [] /\ (given = [] \/ (given = s /\ forall c, In c given -> has_name c = true)) /\
   (forall n, In n names -> forall p ch, In p (prefixes ++ [[]]) -> lookup (spelling n p) = Some ch -> exists c, ch = [c]) /\
   Forall2 (fun n c => exists full p, full = spelling n p /\ names_char lookup is_cc full c /\
     only (fun q => exists d, names_char lookup is_cc (spelling n q) d) (prefixes ++ [[]]) p) names s).

(** The same entry with the text filled in *)
Definition same_but_raw (e e' : entry) : Prop :=
  languages e' = languages e /\ regions e' = regions e /\ uname (letter e') = uname (letter e) /\
  to_uname (letter e') = to_uname (letter e) /\ to_raw (letter e') = to_raw (letter e).
Definition no_target (it : item) : Prop := to_uname it = [] /\ to_raw it = [].

(** Single characters, with rising code points *)
Definition in_code_order (es : list entry) : Prop :=
  exists cs, map (fun e => raw (letter e)) es = map (fun c => [c]) cs /\ StronglySorted N.lt cs.

(** A code of three letters for something that has no code of two, or a known shorter code *)
Definition shortest_code {E} (by_2 by_3 : str -> option E) (alpha_2 : E -> option str) (shorter : list nat)
    (code : str) : Prop :=
  (length code = 3 /\ exists x, by_3 code = Some x /\ alpha_2 x = None) \/
  (In (length code) shorter /\ exists x, by_2 code = Some x).

Definition stands_for {E} (by_2 by_3 : str -> option E) (code : str) (x : E) : Prop :=
  (length code = 3 /\ by_3 code = Some x) \/ (length code <> 3 /\ by_2 code = Some x).

Definition small_letters (s : str) : Prop := forall c, In c s -> (97 <= c <= 122)%N.
Definition capital_letters (s : str) : Prop := forall c, In c s -> (65 <= c <= 90)%N.
(** Alphabetic order of codes *)
Inductive before : str -> str -> Prop :=
| before_end c s : before [] (c :: s)
| before_here c d s t : (c < d)%N -> before (c :: s) (d :: t)
| before_later c s t : before s t -> before (c :: s) (c :: t).

(** unicodedata.lookup with a table of names *)
Definition lookup_in (names : list (str * str)) (n : str) : option str :=
  match find (fun row => str_eqb (fst row) n) names with Some row => Some (snd row) | None => None end.
