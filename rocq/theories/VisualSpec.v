(** What mark de-duplication and joiner cleaning are meant to do. *)
From Verif Require Import Base RuleModel RuleSpec VisualModel.

(** ** Runs *)

(** A text as a list of runs: a character and how often it is repeated after
    its first occurrence. *)
Definition runs := list (N * nat).
Definition expand (r : runs) : str := flat_map (fun p => repeat (fst p) (S (snd p))) r.

(** Runs are maximal: neighbouring runs have different characters. *)
Fixpoint maximal (r : runs) : Prop :=
  match r with
  | (c, _) :: (((d, _) :: _) as r') => c <> d /\ maximal r'
  | _ => True
  end.

(** Runs of a listed character shrink to length one. *)
Definition shrink (marks : list N) (r : runs) : runs :=
  map (fun p => if memN (fst p) marks then (fst p, 0) else p) r.

(** ** Joiners *)
Definition joiners : list N := [ZWNJ; ZWJ; ZWS].

(** What remains of a piece of the input: a copied joiner disappears, every
    other copied character and every preserved sequence stays. *)
Definition kept (g : seg) : str :=
  match g with
  | Copy c => if memN c joiners then [] else [c]
  | Sub r => lhs r
  end.

(** Requirements on the preserve table: the generated symbols are pairwise
    different and not in the alphabet, the sequences are over the alphabet and
    not empty; the joiners are in the alphabet (utils/char.py:84). *)
Definition good_preserve (P : list preserve_item) (sigma : list N) : Prop :=
  NoDup (map psym P) /\
  (forall p, In p P -> memN (psym p) sigma = false /\ over sigma (pseq p) = true /\ pseq p <> []) /\
  over sigma joiners = true.

(** The spans looked for: the preserve sequences (each marked by its symbol). *)
Definition spans (P : list preserve_item) : list rule :=
  map (fun p => Rule (pseq p) [psym p]) P.

(** Contexts: a text, given back to front, that ends in a listed string; a
    text that starts with one. *)
Definition ends_in (K : list str) (outr : str) : bool :=
  existsb (fun k => prefixb (rev k) outr) K.
Definition starts_in (K : list str) (s : str) : bool :=
  existsb (fun k => prefixb k s) K.

Definition without_joiners (s : str) : str := filter (fun c => negb (memN c joiners)) s.

(** [u] is what the steps before the joiner treatment make of [s]. *)
Definition before_joiners (nfc dedup rw : fst_t) (s u : str) : Prop :=
  exists a b, In a (nfc s) /\ In b (dedup a) /\ In u (rw b).
