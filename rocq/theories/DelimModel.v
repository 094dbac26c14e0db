(** Model of nisaba/port/utf8_delimiters.cc, nisaba/port/unicode_properties.cc and
    of absl::StrSplit (external library) with a delimiter object.  Strings are
    byte strings; a string_view into the text is given by the part of the text
    before it and its length. *)
From Verif Require Import Base Utf8Model.
Local Open Scope N_scope.

(** unicode_properties.cc:24-50 *)
Definition kBreakingWhitespace : list N :=
  [0x0009; 0x000A; 0x000B; 0x000C; 0x000D; 0x0020; 0x0085; 0x00A0; 0x1680;
   0x2000; 0x2001; 0x2002; 0x2003; 0x2004; 0x2005; 0x2006; 0x2007; 0x2008; 0x2009; 0x200A;
   0x2028; 0x2029; 0x202F; 0x205F; 0x3000].

(** unicode_properties.cc:52-59 *)
Definition kNonBreakingWhitespace : list N :=
  [0x180E; 0x200B; 0x200C; 0x200D; 0x2060; 0xFEFF].

(** std::set_union of two sorted ranges; the number of steps is bounded by the
    sum of the lengths. *)
Fixpoint set_union (fuel : nat) (a b : list N) : option (list N) :=
  match fuel with
  | O => match a, b with [], [] => Some [] | _, _ => None end
  | S f =>
    match a, b with
    | [], _ => Some b
    | _, [] => Some a
    | x :: a', y :: b' =>
      if y <? x then option_map (cons y) (set_union f a b')
      else if x <? y then option_map (cons x) (set_union f a' b)
      else option_map (cons x) (set_union f a' b')
    end
  end.

(** unicode_properties.cc:73-80 *)
Definition GetAllWhitespaceChars : option (list N) :=
  set_union (length kBreakingWhitespace + length kNonBreakingWhitespace)
    kBreakingWhitespace kNonBreakingWhitespace.

(** [Throws]: an exception of utf8::next; [Stuck]: the bound on the number of
    steps was too small (shown to be impossible). *)
Inductive outcome (A : Type) := Throws | Stuck | Got (a : A).
Arguments Throws {A}. Arguments Stuck {A}. Arguments Got {A}.

(** utf8_delimiters.cc:34-53, [tail] being the text from [pos] on: offset of the
    result in [tail] and its length.  utf8::next is [validate_next]; it throws
    on anything malformed. *)
Fixpoint find_fuel (delimiters : list N) (fuel : nat) (off : nat) (tail : str) : outcome (nat * nat) :=
  match tail with
  | [] => Got (off, 0%nat)
  | _ :: _ =>
    match fuel with
    | O => Stuck
    | S f =>
      match validate_next tail with
      | None => Throws
      | Some (c, rest) =>
        let n := (length tail - length rest)%nat in
        if memN c delimiters then Got (off, n) else find_fuel delimiters f (off + n) rest
      end
    end
  end.
Definition find (delimiters : list N) (tail : str) : outcome (nat * nat) :=
  find_fuel delimiters (length tail) 0 tail.

(** absl::StrSplit: each step finds the next delimiter from the current position;
    the piece before it is kept if it passes the predicate.  A result at the
    end of the text makes it the last piece. *)
Fixpoint str_split_fuel (delimiters : list N) (keep : str -> bool) (fuel : nat) (text : str)
  : outcome (list str) :=
  match fuel with
  | O => Stuck
  | S f =>
    match find delimiters text with
    | Throws => Throws
    | Stuck => Stuck
    | Got (off, len) =>
      let piece := firstn off text in
      let more := if Nat.eqb off (length text) then Got []
                  else str_split_fuel delimiters keep f (skipn (off + len) text) in
      match more with
      | Got ps => Got (if keep piece then piece :: ps else ps)
      | e => e
      end
    end
  end.

(** absl::SkipEmpty *)
Definition SkipEmpty (s : str) : bool := match s with [] => false | _ => true end.

(** absl::StrSplit(text, Utf8WhitespaceDelimiter(), absl::SkipEmpty()) *)
Definition split_whitespace (text : str) : outcome (list str) :=
  str_split_fuel kBreakingWhitespace SkipEmpty (S (length text)) text.
