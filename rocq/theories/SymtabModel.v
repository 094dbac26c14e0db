(** The symbol tables of bytes and of characters,
    nisaba/interim/grm2/thrax/walker/util/function/symbols.{h,cc}, and the functions of
    OpenFst they use.  Labels are not negative.  Only one thread. *)
From Coq Require Import String Ascii.
From Verif Require Import Base.
Local Open Scope list_scope.
Local Open Scope N_scope.

Definition chars (s : string) : str := map N_of_ascii (list_ascii_of_string s).

(** ** fst::SymbolTable (symbol-table.h, external): the symbols in the order of their insertion,
    each with its key; keys below [dense] are those of the symbol at that place, for the
    others there is a map with the newest entry first *)
Record table := Table { rows : list (str * N); dense : N; key_map : list (N * nat) }.
Definition empty_table : table := Table [] 0 [].
Fixpoint find_row (s : str) (l : list (str * N)) : option N :=
  match l with
  | [] => None
  | (t, k) :: r => if str_eqb t s then Some k else find_row s r
  end.
(** Find(symbol) *)
Definition find_key (t : table) (s : str) : option N := find_row s (rows t).
Fixpoint find_place (k : N) (l : list (N * nat)) : option nat :=
  match l with
  | [] => None
  | (j, i) :: r => if N.eqb j k then Some i else find_place k r
  end.
(** Find(key); the empty string stands for a key that is not there *)
Definition find_symbol (t : table) (k : N) : str :=
  match (if k <? dense t then Some (N.to_nat k) else find_place k (key_map t)) with
  | Some i => match nth_error (rows t) i with Some (s, _) => s | None => [] end
  | None => []
  end.
(** AddSymbol(symbol, key): a symbol that is there keeps its key *)
Definition add_symbol (t : table) (s : str) (k : N) : table :=
  match find_key t s with
  | Some _ => t
  | None =>
    let size := length (rows t) in
    if (k =? N.of_nat size) && (k =? dense t) then Table (rows t ++ [(s, k)]) (dense t + 1) (key_map t)
    else Table (rows t ++ [(s, k)]) (dense t) ((k, size) :: key_map t)
  end.

(** ** Names *)
(** fst::LabelsToUTF8String (string.h, external) of one label below 2^31 *)
Definition utf8_label (c : N) : str :=
  if c <? 0x80 then [c]
  else if c <? 0x800 then [c / 64 + 0xC0; c mod 64 + 0x80]
  else if c <? 0x10000 then [c / 4096 + 0xE0; (c / 64) mod 64 + 0x80; c mod 64 + 0x80]
  else if c <? 0x200000 then [c / 262144 + 0xF0; (c / 4096) mod 64 + 0x80; (c / 64) mod 64 + 0x80; c mod 64 + 0x80]
  else if c <? 0x4000000 then
    [c / 16777216 + 0xF8; (c / 262144) mod 64 + 0x80; (c / 4096) mod 64 + 0x80; (c / 64) mod 64 + 0x80; c mod 64 + 0x80]
  else
    [c / 1073741824 + 0xFC; (c / 16777216) mod 64 + 0x80; (c / 262144) mod 64 + 0x80; (c / 4096) mod 64 + 0x80; (c / 64) mod 64 + 0x80; c mod 64 + 0x80].
(** snprintf of an int with %0wx: at least w digits; size is that of the buffer *)
Definition hex_digit (d : N) : N := if d <? 10 then d + 48 else d + 87.
Fixpoint hex_digits (fuel : nat) (c : N) : str :=
  match fuel with
  | O => []
  | S f => if c <? 16 then [hex_digit c] else hex_digits f (c / 16) ++ [hex_digit (c mod 16)]
  end.
Definition print_hex (size width : nat) (c : N) : str :=
  let d := hex_digits 8 c in
  firstn (size - 1) (chars "0x" ++ repeat 48 (width - length d) ++ d).

(** A run of cases of the switch *)
Definition cases (a b c : N) : bool := (a <=? c) && (c <=? b).
(** symbols.cc:49-146 IsUnicodeSpaceOrControl *)
Definition is_space_or_control (c : N) : bool :=
  cases 1 32 c || cases 127 160 c || (c =? 5760) || (c =? 6158) || cases 8192 8202 c || (c =? 8232) || (c =? 8233) || (c =? 8239) || (c =? 8287) || (c =? 12288).

(** ** The builder *)
(** The labels of a loop: n of them from c on *)
Fixpoint numbers (c : N) (n : nat) : list N := match n with O => [] | S n' => c :: numbers (c + 1) n' end.
Definition epsilon : str := chars "<epsilon>".
(** symbols.cc:178-186 *)
Definition byte_name (c : N) : str := if (32 <? c) && (c <? 127) then [c] else print_hex 5 2 c.
(** symbols.cc:196-204 *)
Definition utf8_name (c : N) : str := if is_space_or_control c then print_hex 7 4 c else utf8_label c.
Definition add_names (name : N -> str) (l : list N) (t : table) : table := fold_left (fun t c => add_symbol t (name c) c) l t.
(** symbols.cc:173-187 GenerateByteSymbolTable, 189-207 GenerateUtf8SymbolTable.  LabelsToUTF8String does not fail for labels that are not negative. *)
Definition generate_bytes : table := add_names byte_name (numbers 1 (N.to_nat 255)) (add_symbol empty_table epsilon 0).
Definition generate_utf8 : table := add_names utf8_name (numbers 1 (N.to_nat 0xFFFF)) (add_symbol empty_table epsilon 0).

(** symbols.h:42-59; nullptr: there is no table yet *)
Record builder := Builder { byte_symbols : option table; utf8_symbols : option table }.
(** symbols.cc:148-149 *)
Definition new_builder : builder := Builder None None.
(** What can be done with the builder: symbols.cc:33-47 and 151-171 *)
Inductive call := GetByte | GetUtf8 | AddToByte (s : str) (label : N) | AddToUtf8 (s : str) (label : N).
Definition invoke (b : builder) (c : call) : builder :=
  match c with
  | GetByte => match byte_symbols b with Some _ => b | None => Builder (Some generate_bytes) (utf8_symbols b) end
  | GetUtf8 => match utf8_symbols b with Some _ => b | None => Builder (byte_symbols b) (Some generate_utf8) end
  | AddToByte s l => match byte_symbols b with Some t => Builder (Some (add_symbol t s l)) (utf8_symbols b) | None => b end
  | AddToUtf8 s l => match utf8_symbols b with Some t => Builder (byte_symbols b) (Some (add_symbol t s l)) | None => b end
  end.
Definition invoke_all (l : list call) : builder := fold_left invoke l new_builder.
