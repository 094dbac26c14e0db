(** Model of nisaba/scripts/utils/far.py:30-86 (FstWrapper), of the word and
    line normalizers of nisaba/scripts/brahmic/__init__.py:88-113 and
    nisaba/scripts/abjad_alphabet/__init__.py:81-105, and of the parts of
    Python's re and of pynini's string compiler they rely on. *)
From Verif Require Import Base RuleModel.

Inductive error := FstInputError | FstStringCompilationError | IllFormedError.
Inductive res (A : Type) := Ok (a : A) | Raise (e : error).
Arguments Ok {A} _.
Arguments Raise {A} _.
Definition bind {A B} (r : res A) (k : A -> res B) : res B :=
  match r with Ok a => k a | Raise e => Raise e end.

(** ** re.escape and the character class of accept_pat *)

(** re._special_chars_map: ()[]{}?*+-|^$\.&~# and tab, newline, return, vertical
    tab, form feed, space. *)
Definition re_special : list N :=
  [9; 10; 11; 12; 13; 32; 35; 36; 38; 40; 41; 42; 43; 45; 46; 63; 91; 92; 93; 94;
   123; 124; 125; 126]%N.
Definition re_escape (s : str) : str :=
  flat_map (fun c => if memN c re_special then [92; c]%N else [c]) s.

(** r'[^{}]+'.format(re.escape(ignore)) *)
Definition accept_pat (ignore : str) : str := [91; 94]%N ++ re_escape ignore ++ [93; 43]%N.

(** sre_parse.Tokenizer: a backslash and the next character are one token. *)
Inductive tok := Plain (c : N) | Esc (c : N).
Fixpoint tokens (esc : bool) (s : str) : option (list tok) :=
  match s with
  | [] => if esc then None else Some []
  | c :: s' =>
    if esc then option_map (cons (Esc c)) (tokens false s')
    else if (c =? 92)%N then tokens true s'
    else option_map (cons (Plain c)) (tokens false s')
  end.

Definition alnum (c : N) : bool :=
  ((48 <=? c) && (c <=? 57) || (65 <=? c) && (c <=? 90) || (97 <=? c) && (c <=? 122))%N.

(** sre_parse._class_escape for characters that are not letters or digits; the
    others (categories, octal) do not occur and are not modelled. *)
Definition literal (t : tok) : option N :=
  match t with Plain c => Some c | Esc c => if alnum c then None else Some c end.

Definition is_plain (c : N) (t : tok) : bool :=
  match t with Plain d => (d =? c)%N | Esc _ => false end.

(** The set loop of sre_parse._parse: a ']' that is not first ends the set,
    "a-b" is a range, a '-' before the closing ']' is literal.  [None] for
    re.error. *)
Fixpoint class_items (first : bool) (ts : list tok) : option (list (N * N) * list tok) :=
  match ts with
  | [] => None
  | t :: ts1 =>
    if is_plain 93 t && negb first then Some ([], ts1)
    else match literal t with
    | None => None
    | Some lo =>
      match ts1 with
      | [] => None
      | d :: ts2 =>
        if is_plain 45 d then
          match ts2 with
          | [] => None
          | u :: ts3 =>
            if is_plain 93 u then Some ([(lo, lo); (45, 45)]%N, ts3)
            else match literal u with
                 | None => None
                 | Some hi =>
                   if (hi <? lo)%N then None
                   else option_map (fun q => ((lo, hi) :: fst q, snd q)) (class_items false ts3)
                 end
          end
        else option_map (fun q => ((lo, lo) :: fst q, snd q)) (class_items false ts1)
      end
    end
  end.

(** re.compile for patterns of the form [^...]+ ; the result lists the ranges
    that are excluded. *)
Definition compile_class (pat : str) : option (list (N * N)) :=
  match tokens false pat with
  | Some (a :: b :: ts) =>
    if is_plain 91 a && is_plain 94 b then
      match class_items true ts with
      | Some (l, [c]) => if is_plain 43 c then Some l else None
      | _ => None
      end
    else None
  | _ => None
  end.

Definition matched (l : list (N * N)) (c : N) : bool :=
  negb (existsb (fun r => (fst r <=? c) && (c <=? snd r))%N l).

(** ** re.sub with a callback *)
Section Sub.
  Variable p : N -> bool.
  Variable word : str -> res str.

  (** The greedy match of p+ at the start. *)
  Fixpoint longest (s : str) : str :=
    match s with c :: s' => if p c then c :: longest s' else [] | [] => [] end.

  (** [skip] characters belong to the match just replaced. *)
  Fixpoint sub (skip : nat) (s : str) : res str :=
    match s with
    | [] => Ok []
    | c :: s' =>
      match skip with
      | S k => sub k s'
      | O =>
        if p c
        then bind (word (longest s)) (fun r =>
             bind (sub (length (longest s) - 1) s') (fun t => Ok (r ++ t)))
        else bind (sub 0 s') (fun t => Ok (c :: t))
      end
    end.
End Sub.

(** ApplyOnText of the two normalizers; [None] if the constructor raises
    re.error. *)
Definition apply_on_line (ignore : str) (word : str -> res str) (line : str) : option (res str) :=
  match compile_class (accept_pat ignore) with
  | Some l => Some (sub (matched l) word 0 line)
  | None => None
  end.

(** ** pynini.escape and string compilation *)
Definition pyn_special : list N := [91; 92; 93]%N.
Definition pyn_escape (s : str) : str :=
  flat_map (fun c => if memN c pyn_special then [92; c]%N else [c]) s.

Section Compile.
  (** Names of generated symbols, and a backslash that is not followed by a
      bracket or backslash ([None]: by nothing): not fixed here. *)
  Variable generated : str -> option (list N).
  Variable odd_escape : option N -> option (list N).

  Definition digit (c : N) : bool := ((48 <=? c) && (c <=? 57))%N.

  (** A bracketed span: a decimal number is the label itself.  (Base prefixes,
      i.e. a leading 0, and lists of names are left to [generated].) *)
  Definition symbols (body : str) : option (list N) :=
    match body with
    | d :: _ => if forallb digit body && negb (d =? 48)%N
                then Some [fold_left (fun n c => n * 10 + (c - 48)) body 0]%N
                else generated body
    | [] => None
    end.

  Inductive cstate := Outside | Escaped | Inside (body : str).

  Definition cat_opt (a b : option (list N)) : option (list N) :=
    match a, b with Some x, Some y => Some (x ++ y) | _, _ => None end.

  Fixpoint compile (st : cstate) (s : str) : option (list N) :=
    match s with
    | [] => match st with Outside => Some [] | Escaped => odd_escape None | Inside _ => None end
    | c :: s' =>
      match st with
      | Outside =>
        if (c =? 91)%N then compile (Inside []) s'
        else if (c =? 93)%N then None
        else if (c =? 92)%N then compile Escaped s'
        else cat_opt (Some [c]) (compile Outside s')
      | Escaped =>
        if memN c pyn_special then cat_opt (Some [c]) (compile Outside s')
        else cat_opt (odd_escape (Some c)) (compile Outside s')
      | Inside body =>
        if (c =? 93)%N then cat_opt (symbols (rev body)) (compile Outside s')
        else if (c =? 91)%N then None
        else compile (Inside (c :: body)) s'
      end
    end.

  (** far.py:43-64.  shortestpath of an unweighted lattice: the first output;
      no output makes .string() raise. *)
  Definition apply_on_text (f : fst_t) (text : str) : res str :=
    match compile Outside (pyn_escape text) with
    | None => Raise FstStringCompilationError
    | Some ls => match f ls with [] => Raise FstInputError | t :: _ => Ok t end
    end.

  (** far.py:66-86: no escaping. *)
  Definition accept_text (accepts : str -> bool) (text : str) : res bool :=
    match compile Outside text with
    | None => Raise FstStringCompilationError
    | Some ls => Ok (accepts ls)
    end.

  (** brahmic/__init__.py:103-108 ApplyOnWord *)
  Definition brahmic_word (visual : fst_t) (wellformed : str -> bool) (w : str) : res str :=
    bind (apply_on_text visual w) (fun n =>
    bind (accept_text wellformed n) (fun ok => if ok then Ok n else Raise IllFormedError)).

  (** abjad_alphabet/__init__.py:99-101 ApplyOnWord *)
  Definition abjad_word (nfc visual : fst_t) (w : str) : res str :=
    bind (apply_on_text nfc w) (apply_on_text visual).
End Compile.
