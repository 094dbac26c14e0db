(** What segmentation into pieces and backoff should do. *)
From Verif Require Import Base Utf8Spec DelimSpec KbestSpec.

(** ** Pieces of words *)
Inductive piece := Known (w : list N) | Unknown (c : N).
Definition piece_text (p : piece) : list N := match p with Known w => w | Unknown c => [c] end.
Definition is_unknown (p : piece) : bool := match p with Known _ => false | Unknown _ => true end.

(** [w] is the longest non-empty prefix of [s] in [P]. *)
Definition longest_match (P : list N -> Prop) (s w : list N) : Prop :=
  w <> [] /\ is_prefix w s /\ P w /\ forall v, is_prefix v s -> P v -> length v <= length w.
(** From left to right the longest match, or a single unknown character; pieces
    after the first are taken from [Q]. *)
Inductive greedy (Q : list N -> Prop) : (list N -> Prop) -> list N -> list piece -> Prop :=
| greedy_nil P : greedy Q P [] []
| greedy_known P w r ps : longest_match P (w ++ r) w -> greedy Q Q r ps -> greedy Q P (w ++ r) (Known w :: ps)
| greedy_unknown P c r ps : (forall v, v <> [] -> is_prefix v (c :: r) -> ~ P v) -> greedy Q Q r ps ->
    greedy Q P (c :: r) (Unknown c :: ps).

(** [label] is the key of the text [w] preceded by [prefix]; neither 0 nor that
    of the symbol for unknown text. *)
Definition symbol_of (syms : list str) (oov : option nat) (prefix : str) (w : list N) (label : nat) : Prop :=
  exists bs, encoding w bs /\ nth_error syms label = Some (prefix ++ bs) /\ 0 < label /\ Some label <> oov.
Definition in_vocabulary syms oov prefix (w : list N) : Prop := exists label, symbol_of syms oov prefix w label.
Definition labelled syms oov prefix (p : piece) (label : nat) : Prop :=
  match p with
  | Known w => symbol_of syms oov prefix w label
  | Unknown _ => oov = Some label
  end.
(** The first piece has no prefix. *)
Definition all_labelled syms oov (prefix : str) (ps : list piece) (labels : list nat) : Prop :=
  match ps, labels with
  | [], [] => True
  | p :: ps', l :: labels' => labelled syms oov [] p l /\ Forall2 (labelled syms oov prefix) ps' labels'
  | _, _ => False
  end.

(** ** Backoff *)
(** [via first final q c]: the cost of stopping in state [q]; a state without one
    has the cost of its first arc, if that is labelled 0, plus that of the next
    state.  [None]: impossible. *)
Inductive via (first : nat -> option (Z * Z * nat)) (final : nat -> option Z) : nat -> option Z -> Prop :=
| via_final q c : final q = Some c -> via first final q (Some c)
| via_none q l w n : final q = None -> first q = Some (l, w, n) -> l <> 0%Z -> via first final q None
| via_backoff q w n c : final q = None -> first q = Some (0%Z, w, n) -> via first final n c ->
    via first final q (match c with Some x => Some (w + x)%Z | None => None end).

Definition phi_first (arcs : list (Z * Z * nat)) : list (Z * Z * nat) :=
  match arcs with
  | (l, w, n) :: r => (if Z.eqb l 0 then (-2)%Z else l, w, n) :: r
  | [] => []
  end.
