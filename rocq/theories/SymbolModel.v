(** Model of symbol inventories: Symbol.Inventory in
    nisaba/scripts/natural_translit/utils/symbol.py, Grapheme.Inventory in
    script/grapheme.py and Phon.Inventory in phonology/phonological_symbol.py.  Symbols
    are records in a list, referred to by position; the control symbols come first.
    Features, names and languages of symbols are left out.  [None] is an exception. *)
From Coq Require Import Ascii String Decimal Hexadecimal.
From Verif Require Import Base ContainerModel InventoryModel OperationModel.
Local Open Scope list_scope.

Record symbol := Sym { s_class : N; s_alias : str; s_text : str; s_raw : str; s_index : N; s_home : option nat }.
Definition sym_class : N := 4.
Definition grapheme_class : N := 5.
Definition phon_class : N := 6.

(** Control symbols, symbol.py, lines 718-745; their texts are three characters each. *)
Definition CONTROL_PREFIX : N := 1000000.
Definition GRAPHEME_PREFIX : N := 2000000.
Definition PHONEME_PREFIX : N := 3000000.
Definition UNDEFINED_PREFIX : N := 9000000.
Definition controls : list symbol :=
  map (fun q => let '(alias, mark, i) := q in Sym sym_class (codes alias) [8203%N; mark; 8203%N] [] (CONTROL_PREFIX + i)%N None)
    [("eps"%string, 8496%N, 0%N); ("unk"%string, 9254%N, 1%N); ("bos"%string, 8883%N, 2%N); ("eos"%string, 8882%N, 3%N);
     ("oos"%string, 8893%N, 4%N); ("nor"%string, 9678%N, 5%N); ("nos"%string, 10801%N, 6%N)].
Definition unk : nat := 1.
Definition nor : nat := 5.
Definition is_control (id : nat) : bool := Nat.ltb id 7.

Fixpoint set_key {A} (k : str) (v : A) (d : list (str * A)) : list (str * A) :=
  match d with
  | [] => [(k, v)]
  | (k', v') :: r => if str_eqb k k' then (k, v) :: r else (k', v') :: set_key k v r
  end.

Record sinv := SInv {
  sbase : inv; sid : nat; s_index_dict : list (N * nat); raw_dict : list (str * nat); text_dict : list (str * nat);
  sprefix : N; unknown_count : nat; atomics : inv
}.
Definition sym_obj (y : symbol) (id : nat) : obj := Plain (s_class y) (N.of_nat id).

(** _add_to_dicts, symbol.py, lines 570-584 *)
Definition add_to_dicts (y : symbol) (id : nat) (s : sinv) : sinv :=
  SInv (sbase s) (sid s) (dict_set (s_index y) id (s_index_dict s))
    (match s_raw y with [] => raw_dict s | r => set_key r id (raw_dict s) end)
    (match s_text y with [] => text_dict s | t => set_key t id (text_dict s) end)
    (sprefix s) (unknown_count s) (atomics s).

(** Symbol.Inventory.__init__ without symbols, lines 537-552.  [n] tells inventories apart;
    [more]: the attributes that the constructors of subclasses set. *)
Definition sym_attributes : list str :=
  base_attributes ++ map codes ["index_dict"; "raw_dict"; "text_dict"; "prefix"; "unknown_count"]%string.
Definition phon_attributes : list str := map codes ["language"; "atomics"]%string.
Definition grapheme_attributes : list str := phon_attributes ++ [codes "script"].
Definition empty_sinv (n : nat) (typed : list N) (prefix : N) (more : list str) : sinv :=
  SInv (Inv (Container inv_class (Some typed) []) (sym_attributes ++ more) [(codes "CTRL", Plain 7 0)] [] [codes "CTRL"])
    n [] [] [] prefix 0 (new_inventory inv_class None base_attributes).
Fixpoint add_all_to_dicts (ys : list symbol) (id : nat) (s : sinv) : sinv :=
  match ys with [] => s | y :: r => add_all_to_dicts r (S id) (add_to_dicts y id s) end.
Definition new_sinv (n : nat) (typed : list N) (prefix : N) (more : list str) : sinv :=
  add_all_to_dicts controls 0 (empty_sinv n typed prefix more).

Definition set_home (y : symbol) (n : nat) : symbol := Sym (s_class y) (s_alias y) (s_text y) (s_raw y) (s_index y) (Some n).
Definition set_index (y : symbol) (i : N) : symbol := Sym (s_class y) (s_alias y) (s_text y) (s_raw y) i (s_home y).
Definition with_base (s : sinv) (b : inv) : sinv :=
  SInv b (sid s) (s_index_dict s) (raw_dict s) (text_dict s) (sprefix s) (unknown_count s) (atomics s).

(** _add_symbol, lines 586-593 *)
Definition add_symbol (ys : list symbol) (s : sinv) (id : nat) : option (bool * list symbol * sinv) :=
  match nth_error ys id with
  | None => None
  | Some y =>
    match add_item [] (sbase s) (Thing (sym_obj y id) (s_alias y) (sym_obj y id) []) [] with
    | None => None
    | Some (false, b) => Some (false, ys, with_base s b)
    | Some (true, b) =>
      let y' := match s_home y with None => if is_control id then y else set_home y (sid s) | Some _ => y end in
      Some (true, replace ys id y', add_to_dicts y' id (with_base s b))
    end
  end.

(** add_symbols without a list alias, lines 599-613: the symbols that were added *)
Fixpoint add_symbols (ys : list symbol) (s : sinv) (ids : list nat) : option (list nat * list symbol * sinv) :=
  match ids with
  | [] => Some ([], ys, s)
  | id :: r =>
    match add_symbol ys s id with
    | None => None
    | Some (added, ys1, s1) =>
      match add_symbols ys1 s1 r with
      | None => None
      | Some (l, ys2, s2) => Some (if added : bool then id :: l else l, ys2, s2)
      end
    end
  end.

(** lookup, index_lookup, raw_lookup, text_lookup without another default, lines 615-649 *)
Definition or_unk (o : option nat) : nat := match o with Some id => id | None => unk end.
Definition sym_index_lookup (s : sinv) (i : N) : nat := or_unk (dict_get i (s_index_dict s)).
Definition raw_lookup (s : sinv) (r : str) : nat := or_unk (lookup r (raw_dict s)).
Definition text_lookup (s : sinv) (t : str) : nat := or_unk (lookup t (text_dict s)).

(** str of a count; hex of a code point *)
Fixpoint uint_str (d : Decimal.uint) : str :=
  match d with
  | Decimal.Nil => []
  | Decimal.D0 d => 48%N :: uint_str d | Decimal.D1 d => 49%N :: uint_str d | Decimal.D2 d => 50%N :: uint_str d | Decimal.D3 d => 51%N :: uint_str d
  | Decimal.D4 d => 52%N :: uint_str d | Decimal.D5 d => 53%N :: uint_str d | Decimal.D6 d => 54%N :: uint_str d | Decimal.D7 d => 55%N :: uint_str d
  | Decimal.D8 d => 56%N :: uint_str d | Decimal.D9 d => 57%N :: uint_str d
  end.
Definition decimal (n : nat) : str := uint_str (N.to_uint (N.of_nat n)).
Fixpoint hex_str (d : Hexadecimal.uint) : str :=
  match d with
  | Hexadecimal.Nil => []
  | Hexadecimal.D0 d => 48%N :: hex_str d | Hexadecimal.D1 d => 49%N :: hex_str d | Hexadecimal.D2 d => 50%N :: hex_str d | Hexadecimal.D3 d => 51%N :: hex_str d
  | Hexadecimal.D4 d => 52%N :: hex_str d | Hexadecimal.D5 d => 53%N :: hex_str d | Hexadecimal.D6 d => 54%N :: hex_str d | Hexadecimal.D7 d => 55%N :: hex_str d
  | Hexadecimal.D8 d => 56%N :: hex_str d | Hexadecimal.D9 d => 57%N :: hex_str d | Hexadecimal.Da d => 97%N :: hex_str d | Hexadecimal.Db d => 98%N :: hex_str d
  | Hexadecimal.Dc d => 99%N :: hex_str d | Hexadecimal.Dd d => 100%N :: hex_str d | Hexadecimal.De d => 101%N :: hex_str d | Hexadecimal.Df d => 102%N :: hex_str d
  end.
Definition hexadecimal (c : N) : str := codes "0x" ++ hex_str (N.to_hex_uint c).

(** raw_from_unknown, lines 651-660: the new symbol, added or not *)
Definition unk_alias (n : nat) : str := codes "from_unk_" ++ decimal n.
Definition unk_symbol (s : sinv) (raw : str) : symbol :=
  let n := S (unknown_count s) in
  Sym sym_class (unk_alias n) (codes "<" ++ unk_alias n ++ codes "_" ++ raw ++ codes ">") raw (sprefix s + N.of_nat n)%N None.
Definition counted (s : sinv) : sinv :=
  SInv (sbase s) (sid s) (s_index_dict s) (raw_dict s) (text_dict s) (sprefix s) (S (unknown_count s)) (atomics s).
Definition raw_from_unknown (ys : list symbol) (s : sinv) (raw : str) : option (nat * list symbol * sinv) :=
  let id := length ys in
  match add_symbol (ys ++ [unk_symbol s raw]) (counted s) id with
  | None => None
  | Some (_, ys', s') => Some (id, ys', s')
  end.

(** Grapheme.from_char, grapheme.py, lines 105-144, and Grapheme.Inventory.raw_from_unknown,
    lines 229-231, with _add_symbol_and_atomic, phonological_symbol.py, lines 83-87.  An
    atomic is a new object with the alias of the symbol. *)
Definition grapheme_of (c : N) : symbol :=
  Sym grapheme_class (codes "u_" ++ hexadecimal c) [c] [c] (GRAPHEME_PREFIX + c)%N None.
Definition add_symbol_and_atomic (ys : list symbol) (s : sinv) (id : nat) : option (bool * list symbol * sinv) :=
  match add_symbol ys s id with
  | None => None
  | Some (false, ys1, s1) => Some (false, ys1, s1)
  | Some (true, ys1, s1) =>
    match nth_error ys id with
    | None => None
    | Some y =>
      match add_item [] (atomics s1) (Thing (Plain 8 (N.of_nat (length (items_of (atomics s1))))) (s_alias y) (Nought 0) []) [] with
      | None => None
      | Some (added, b) =>
        Some (added, ys1, SInv (sbase s1) (sid s1) (s_index_dict s1) (raw_dict s1) (text_dict s1) (sprefix s1) (unknown_count s1) b)
      end
    end
  end.
Definition grapheme_from_unknown (ys : list symbol) (s : sinv) (raw : str) : option (nat * list symbol * sinv) :=
  match raw with
  | [c] =>
    match add_symbol_and_atomic (ys ++ [grapheme_of c]) s (length ys) with
    | None => None
    | Some (added, ys', s') => Some (if added : bool then length ys else nor, ys', s')
    end
  | _ => None
  end.

(** str_to_raw_symbols, symbol.py, lines 662-692, with the raw_from_unknown of the class *)
Section Parse.
  Variable from_unknown : list symbol -> sinv -> str -> option (nat * list symbol * sinv).
  Fixpoint str_to_raw_symbols (ys : list symbol) (s : sinv) (text : str) : option (list nat * list symbol * sinv) :=
    match text with
    | [] => Some ([], ys, s)
    | c :: r =>
      match (match lookup [c] (raw_dict s) with Some _ => Some (raw_lookup s [c], ys, s) | None => from_unknown ys s [c] end) with
      | None => None
      | Some (id, ys1, s1) =>
        match str_to_raw_symbols ys1 s1 r with
        | None => None
        | Some (ids, ys2, s2) => Some (id :: ids, ys2, s2)
        end
      end
    end.
End Parse.

(** The inventory used by str_to_raw_symbols(text, sym_inventory), line 686: type_check *)
Definition chosen (isinstance : N -> N -> bool) (self_class other_class : N) {A} (self other : A) : A :=
  if isinstance other_class self_class then other else self.

(** Phon.Inventory._add_phoneme, phonological_symbol.py, lines 177-186; the index of the
    language is [lang]. *)
Definition LANG_PREFIX_MULTIPLIER : N := 100.
Definition add_phoneme (ys : list symbol) (s : sinv) (lang : N) (id : nat) : option (bool * list symbol * sinv) :=
  match nth_error ys id with
  | None => None
  | Some y =>
    let index := (PHONEME_PREFIX + lang * LANG_PREFIX_MULTIPLIER + N.of_nat (length (items_of (sbase s))) + 1)%N in
    add_symbol_and_atomic (replace ys id (set_index y index)) s id
  end.
Fixpoint add_phonemes (ys : list symbol) (s : sinv) (lang : N) (ids : list nat) : option (list symbol * sinv) :=
  match ids with
  | [] => Some (ys, s)
  | id :: r => match add_phoneme ys s lang id with None => None | Some (_, ys1, s1) => add_phonemes ys1 s1 lang r end
  end.

(** Histories of one inventory *)
Inductive sym_op :=
| NewSymbol (y : symbol)
| AddSymbols (ids : list nat)
| Unknown (raw : str)
| Parse (text : str).
Definition sym_do (st : list symbol * sinv) (o : sym_op) : option (list symbol * sinv) :=
  let '(ys, s) := st in
  match o with
  | NewSymbol y => Some (ys ++ [y], s)
  | AddSymbols ids => option_map (fun r => (snd (fst r), snd r)) (add_symbols ys s ids)
  | Unknown raw => option_map (fun r => (snd (fst r), snd r)) (raw_from_unknown ys s raw)
  | Parse text => option_map (fun r => (snd (fst r), snd r)) (str_to_raw_symbols raw_from_unknown ys s text)
  end.
Definition sym_run (st : list symbol * sinv) (os : list sym_op) : option (list symbol * sinv) := for_each sym_do st os.

(** Histories of one grapheme inventory: add_graphemes, grapheme.py, lines 188-199, without
    the language, and parsing *)
Fixpoint add_graphemes (ys : list symbol) (s : sinv) (ids : list nat) : option (list symbol * sinv) :=
  match ids with
  | [] => Some (ys, s)
  | id :: r =>
    match add_symbol_and_atomic ys s id with
    | None => None
    | Some (added, ys1, s1) =>
      add_graphemes (if added then match nth_error ys1 id with Some y => replace ys1 id (set_home y (sid s)) | None => ys1 end else ys1) s1 r
    end
  end.
Inductive gr_op :=
| NewGrapheme (y : symbol)
| AddGraphemes (ids : list nat)
| ParseGraphemes (text : str).
Definition gr_do (st : list symbol * sinv) (o : gr_op) : option (list symbol * sinv) :=
  let '(ys, s) := st in
  match o with
  | NewGrapheme y => Some (ys ++ [y], s)
  | AddGraphemes ids => add_graphemes ys s ids
  | ParseGraphemes text => option_map (fun r => (snd (fst r), snd r)) (str_to_raw_symbols grapheme_from_unknown ys s text)
  end.
Definition gr_run (st : list symbol * sinv) (os : list gr_op) : option (list symbol * sinv) := for_each gr_do st os.

(** Phon.Inventory.__init__, phonological_symbol.py, lines 173-175 *)
Definition phon_inventory (n : nat) : sinv := new_sinv n [phon_class] UNDEFINED_PREFIX phon_attributes.
