(** Fixed rule romanization of Malayalam to native text, nisaba/scripts/brahmic/fixed.py. *)
From Verif Require Import Base RuleModel VisualModel ScriptData ScriptTables ScriptModel IsoModel IsoFullModel FixedTables.

(** fixed.py:50-52: string.printable without brackets.  pynini.accep of a single backslash is taken to accept that character. *)
Definition ascii_input_chars : list N :=
  filter (fun c => negb (N.eqb c 91 || N.eqb c 93)) (map N.of_nat (seq 9 5 ++ seq 32 95)).
(** utils/char.py:29-73 derive_chars with both_sides: the characters of both columns *)
Definition rule_chars (rs : list rule) : list N := flat_map (fun r => lhs r ++ rhs r) rs.
(** fixed.py:58-59, utils/char.py:78-91 derive_sigma *)
Definition fixed_sigma (rs : list rule) : list N := rule_chars rs ++ ascii_input_chars ++ [ZWNJ; ZWJ; ZWS].
(** fixed.py:55-61 _fixed_rule_fst *)
Definition fixed_rule_fst (ns : fst_t -> nat) (rs : list rule) : option fst_t := fst_from_cascading ns rs (fixed_sigma rs).
(** fixed.py:64-66 _ascii_acceptor *)
Definition ascii_acceptor : fst_t := fun x => if over ascii_input_chars x then [x] else [].
(** Composition with a weighted FST that may not exist *)
Fixpoint all_outs (l : list (option (list (str * N)))) : option (list (str * N)) :=
  match l with
  | [] => Some []
  | Some a :: r => match all_outs r with Some b => Some (a ++ b) | None => None end
  | None :: _ => None
  end.
(** fixed.py:69-79 generator_main, for token type utf8: ASCII, the rules, and ISO to native.  The only script of util.py:98 is Mlym. *)
Definition fixed_grammar (ns : fst_t -> nat) (rs : list rule) (d : script_data) (x : str) : option (list (str * N)) :=
  match fixed_rule_fst ns rs with
  | Some f => all_outs (map (to_script ns d) (compose ascii_acceptor f x))
  | None => None
  end.
Definition MLYM (ns : fst_t -> nat) : str -> option (list (str * N)) := fixed_grammar ns fixed_Mlym data_Mlym.
