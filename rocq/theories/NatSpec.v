(** What the operations of the transliteration grammars mean on symbols. *)
From Coq Require Import String.
From Verif Require Import Base RuleModel RegexModel IsoModel AlignModel AlignSpec NatModel.
Local Open Scope list_scope.

(** The language of a context *)
Inductive means : tre -> word -> Prop :=
| m_words l w : In w l -> means (TWords l) w
| m_graphemes w : forallb grapheme w = true -> means TGraphemes w
| m_rights w : forallb right_symbol w = true -> means TRights w
| m_cat a b u v : means a u -> means b v -> means (TCat a b) (u ++ v)
| m_left a b w : means a w -> means (TAlt a b) w
| m_right a b w : means b w -> means (TAlt a b) w
| m_none a : means (TQues a) []
| m_some a w : means a w -> means (TQues a) w
| m_stop a : means (TStar a) []
| m_more a u v : means a u -> means (TStar a) v -> means (TStar a) (u ++ v).

(** The context stands right before or after, one side of an alignment may be between.
    With the flag set nothing else is there. *)
Definition preceded (c : tctx) (done : word) : Prop :=
  match c with
  | None => True
  | Some (edge, r) => exists u a x, done = u ++ a ++ x /\ means r a /\ skipped x /\ (edge = true -> u = [])
  end.
Definition followed (c : tctx) (rest : word) : Prop :=
  match c with
  | None => True
  | Some (edge, r) => exists x a u, rest = x ++ a ++ u /\ means r a /\ skipped x /\ (edge = true -> u = [])
  end.

(** [rewriting rs p f done ts out]: from left to right, [done] has been written, [ts] is
    left to read and [out] gets written *)
Inductive rewriting (rs : list (word * word)) (p f : tctx) : word -> word -> word -> Prop :=
| re_end done : rewriting rs p f done [] []
| re_apply done l r rest out : In (l, r) rs -> preceded p done -> followed f rest ->
    rewriting rs p f (done ++ r) rest out -> rewriting rs p f done (l ++ rest) (r ++ out)
| re_copy done t rest out : (forall l r u, In (l, r) rs -> t :: rest = l ++ u -> followed f u -> ~ preceded p done) ->
    rewriting rs p f (done ++ [t]) rest out -> rewriting rs p f done (t :: rest) (t :: out).
(** Insertion, at most once at each place *)
Inductive inserting (new : word) (p f : tctx) : word -> word -> word -> Prop :=
| in_end_new done : preceded p done -> followed f [] -> inserting new p f done [] new
| in_end done : ~ (preceded p done /\ followed f []) -> inserting new p f done [] []
| in_new done t rest out : preceded p done -> followed f (t :: rest) ->
    inserting new p f (done ++ new ++ [t]) rest out -> inserting new p f done (t :: rest) (new ++ t :: out)
| in_copy done t rest out : ~ (preceded p done /\ followed f (t :: rest)) ->
    inserting new p f (done ++ [t]) rest out -> inserting new p f done (t :: rest) (t :: out).
(** Piece by piece *)
Inductive translated (l : list (word * word)) : word -> word -> Prop :=
| tl_end : translated l [] []
| tl_piece a b ts out : In (a, b) l -> translated l ts out -> translated l (a ++ ts) (b ++ out).

Definition performs (o : op) (ts out : word) : Prop :=
  match o with
  | Rewrite rs p f => rewriting rs p f [] ts out
  | Insert new p f => inserting new p f [] ts out
  | Pairs l => translated l ts out
  end.
Inductive performs_all : list op -> word -> word -> Prop :=
| pa_end ts : performs_all [] ts ts
| pa_op o l ts mid out : performs o ts mid -> performs_all l mid out -> performs_all (o :: l) ts out.

(** Operations on symbols: names are made of letters and punctuation, nothing rewritten
    is empty, what is rewritten starts with a symbol that has a name, and an insertion needs
    something before it *)
Fixpoint symbols_in (r : tre) : Prop :=
  match r with
  | TWords l => Forall (Forall symbol) l
  | TGraphemes | TRights => True
  | TCat a b | TAlt a b => symbols_in a /\ symbols_in b
  | TQues a | TStar a => symbols_in a
  end.
Definition symbols_ctx (c : tctx) : Prop := match c with None => True | Some (_, r) => symbols_in r end.
Definition well_formed (o : op) : Prop :=
  match o with
  | Rewrite rs p f => Forall symbol_rule rs /\ symbols_ctx p /\ symbols_ctx f
  | Insert new p f => Forall symbol new /\ symbols_ctx p /\ symbols_ctx f /\
      match p with None => False | Some (edge, r) => edge = true \/ ~ means r [] end
  | Pairs l => Forall symbol_rule l
  end.

(** Insertions come before there are transliterations: the same mark opens and closes
    these, so that bytes do not tell where a symbol starts *)
Definition translit (t : tok) : bool := match t with Tr _ => true | _ => false end.
Definition no_translit (ts : word) : Prop := forallb (fun t => negb (translit t)) ts = true.
Definition no_translit_op (o : op) : Prop :=
  match o with
  | Rewrite rs _ _ | Pairs rs => Forall (fun q : word * word => no_translit (snd q)) rs
  | Insert new _ _ => no_translit new
  end.
Definition no_insert (o : op) : Prop := match o with Insert _ _ _ => False | _ => True end.
Inductive staged : list op -> Prop :=
| st_rest l : Forall no_insert l -> staged l
| st_op o l : no_translit_op o -> staged l -> staged (o :: l).

(** ** Reading *)

(** The symbol of a character, and the texts that can be read *)
Definition symbol_of (c : bchar) : tok := Gr (bytes (btyp c)).
Definition letters (cs : list bchar) : Prop := Forall (fun c => In c SINGLE_POINT) cs.
Definition text_of (cs : list bchar) : str := flat_map bglyph cs.
(** Vowel signs at the start of a word: any but ạ̄; vocalic l and r *)
Definition starts_with_vowel (cs : list bchar) : Prop :=
  (exists c rest, cs = c :: rest /\ In c SIMPLE_VOWEL /\ ~ (c = sp "an"%string /\ exists rest', rest = sp "long"%string :: rest')) \/
  (exists c rest, cs = c :: sp "vcl"%string :: rest /\ (c = sp "l"%string \/ c = sp "r"%string)).
(** Nowhere in the text *)
Definition nowhere (l ts : word) : Prop := forall u v, ts <> u ++ l ++ v.
Definition composites : list bchar := LONG_VOCALIC ++ TWO_POINT.
(** Exactly one result *)
Definition only (o : str) (l : list str) : Prop := forall x, In x l <-> x = o.
(** From text to characters *)
Definition iso_to_typ (s : str) : list str := flat_map (run_bytes typ_ops) (map fst (outs read_iso s)).

(** ** Romanization and pronunciation *)

Definition lower_case (s : str) : Prop := Forall (fun c => (97 <= c <= 122)%N) s.
(** No a directly before i or u *)
Definition no_diphthong (cs : list bchar) : Prop := forall u v c, In c [sp "i"%string; sp "u"%string] -> cs <> u ++ sp "a"%string :: c :: v.
(** Graphemes with their phonemes *)
Definition phoneme (t : tok) : bool := match t with Ph _ => true | _ => false end.
Definition aligned_piece (w : word) : Prop := exists g r, w = g ++ Eq :: r /\ g <> [] /\ forallb grapheme g = true /\ forallb phoneme r = true.
Definition aligned (ts : word) : Prop := exists ps, ts = concat ps /\ Forall aligned_piece ps.
(** The name of each of the characters is kept *)
Definition names (cs : list bchar) : word := map symbol_of cs.
