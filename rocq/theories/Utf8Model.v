(** Model of nisaba/port/utf8_util.cc.  The utfcpp functions it calls
    (utf8::is_valid, utf8::iterator, utf8::append; external library) are modelled
    after utfcpp's core.h and checked.h.  Bytes are numbers. *)
From Verif Require Import Base.
Local Open Scope N_scope.

(** utfcpp is_code_point_valid *)
Definition valid_cp (c : N) : bool :=
  (c <=? 0x10FFFF) && negb ((0xD800 <=? c) && (c <=? 0xDFFF)).

(** utfcpp append; the bitwise or of disjoint bit groups is written as a sum.
    [None]: the exception invalid_code_point. *)
Definition append (c : N) : option str :=
  if negb (valid_cp c) then None
  else if c <? 0x80 then Some [c]
  else if c <? 0x800 then Some [c / 64 + 0xC0; c mod 64 + 0x80]
  else if c <? 0x10000 then
    Some [c / 4096 + 0xE0; (c / 64) mod 64 + 0x80; c mod 64 + 0x80]
  else
    Some [c / 262144 + 0xF0; (c / 4096) mod 64 + 0x80; (c / 64) mod 64 + 0x80; c mod 64 + 0x80].

(** utfcpp is_trail *)
Definition is_trail (b : N) : bool := b / 64 =? 2.

(** utfcpp is_overlong_sequence *)
Definition overlong (c : N) (len : nat) : bool :=
  if c <? 0x80 then negb (Nat.eqb len 1)
  else if c <? 0x800 then negb (Nat.eqb len 2)
  else if c <? 0x10000 then negb (Nat.eqb len 3)
  else false.

(** utfcpp validate_next: the lead byte gives the length (sequence_length), the
    trail bytes are checked and combined (get_sequence_1..4), then the code point
    and the length are checked. *)
Definition check (c : N) (len : nat) (rest : str) : option (N * str) :=
  if valid_cp c && negb (overlong c len) then Some (c, rest) else None.

Definition validate_next (s : str) : option (N * str) :=
  match s with
  | [] => None
  | b1 :: s1 =>
    if b1 <? 0x80 then check b1 1 s1
    else if b1 / 32 =? 0x6 then
      match s1 with
      | b2 :: s2 =>
        if is_trail b2 then check ((b1 * 64) mod 2048 + b2 mod 64) 2 s2 else None
      | _ => None
      end
    else if b1 / 16 =? 0xE then
      match s1 with
      | b2 :: b3 :: s3 =>
        if is_trail b2 && is_trail b3 then
          check ((b1 * 4096) mod 65536 + (b2 * 64) mod 4096 + b3 mod 64) 3 s3
        else None
      | _ => None
      end
    else if b1 / 8 =? 0x1E then
      match s1 with
      | b2 :: b3 :: b4 :: s4 =>
        if is_trail b2 && is_trail b3 && is_trail b4 then
          check ((b1 * 262144) mod 2097152 + (b2 * 4096) mod 262144 + (b3 * 64) mod 4096
                 + b4 mod 64) 4 s4
        else None
      | _ => None
      end
    else None
  end.

(** The code points from begin to end; [None] if utf8::is_valid is false.  The
    number of bytes bounds the number of steps. *)
Fixpoint decode_fuel (fuel : nat) (s : str) : option (list N) :=
  match s with
  | [] => Some []
  | _ :: _ =>
    match fuel with
    | O => None
    | S f =>
      match validate_next s with
      | None => None
      | Some (c, rest) =>
        match decode_fuel f rest with
        | None => None
        | Some cs => Some (c :: cs)
        end
      end
    end
  end.
Definition code_points (s : str) : option (list N) := decode_fuel (length s) s.

(** utf8::is_valid *)
Definition is_valid (s : str) : bool :=
  match code_points s with Some _ => true | None => false end.

(** [None] if an append throws. *)
Fixpoint append_all (cs : list N) : option (list str) :=
  match cs with
  | [] => Some []
  | c :: cs' =>
    match append c, append_all cs' with
    | Some b, Some bs => Some (b :: bs)
    | _, _ => None
    end
  end.

(** utf8_util.cc:29-47; [None] if an exception is thrown. *)
Definition str_split_by_char (s : str) : option (list str) :=
  match code_points s with
  | None => Some []
  | Some cs => append_all cs
  end.

Definition kBadUTF8Char : N := 0xFFFD.

(** utf8_util.cc:49-67: the first character and the number of bytes *)
Definition decode_unicode_char (s : str) : N * nat :=
  match s with
  | [] => (0, 1%nat)
  | _ :: _ =>
    if negb (is_valid s) then (kBadUTF8Char, 1%nat)
    else match validate_next s with
         | Some (c, rest) => (c, (length s - length rest)%nat)
         | None => (kBadUTF8Char, 1%nat)
         end
  end.

(** utf8_util.cc:78-90: returned value and stored utf8_value *)
Definition decode_single_unicode_char (s : str) : bool * N :=
  let (v, n) := decode_unicode_char s in
  let v' := if negb (Nat.eqb n (length s)) && negb (v =? kBadUTF8Char) then kBadUTF8Char else v in
  (Nat.eqb n (length s) && (negb (v' =? kBadUTF8Char) || Nat.ltb 1 n), v').

(** utf8_util.cc:69-76 *)
Definition str_split_to_unicode (s : str) : option (list N) :=
  match str_split_by_char s with
  | None => None
  | Some l => Some (map (fun x => snd (decode_single_unicode_char x)) l)
  end.

(** utf8_util.cc:92-96 *)
Definition encode_unicode_char (c : N) : option str := append c.
