(** C77: the symbol tables of bytes and of characters. *)
From Coq Require Import String Ascii.
From Verif Require Import Base DelimModel SymtabModel SymtabSpec SymtabProofs.
Local Open Scope list_scope.
Local Open Scope N_scope.

(** Whatever was called before: every byte has its name in the table, and the name has the byte. *)
Theorem C77_bytes : forall l t c, byte_symbols (invoke_all l) = Some t -> c < 256 ->
  byte_called c (find_symbol t c) /\ (forall name, byte_called c name -> find_key t name = Some c).
Proof. exact bytes_named. Qed.
(** The same for the characters below U+10000 *)
Theorem C77_characters : forall l t c, utf8_symbols (invoke_all l) = Some t -> c < 0x10000 ->
  character_called (white kBreakingWhitespace) c (find_symbol t c) /\
  (forall name, character_called (white kBreakingWhitespace) c name -> find_key t name = Some c).
Proof. exact characters_named. Qed.
(** A table that was just made has no other symbols. *)
Theorem C77_only_bytes : forall s k, find_key generate_bytes s = Some k -> k < 256 /\ byte_called k s.
Proof. exact bytes_only. Qed.
Theorem C77_only_characters : forall s k, find_key generate_utf8 s = Some k -> k < 0x10000 /\ character_called (white kBreakingWhitespace) k s.
Proof. exact characters_only. Qed.
(** No name of a character has white space or a control character in it, as a byte. *)
Theorem C77_plain : forall l t c b, utf8_symbols (invoke_all l) = Some t -> c < 0x10000 -> In b (find_symbol t c) -> 32 < b /\ b <> 127.
Proof. exact no_white. Qed.
(** The list of white space in the code against the one used for splitting text *)
Theorem C77_spaces : forall c, is_space_or_control c = true <-> control c \/ white kBreakingWhitespace c.
Proof. exact space_spec. Qed.
(** A table is there once it was asked for, and a symbol in it keeps its label for ever. *)
Theorem C77_generated : forall l, (In GetByte l -> byte_symbols (invoke_all l) <> None) /\ (In GetUtf8 l -> utf8_symbols (invoke_all l) <> None).
Proof. exact (fun l => conj (generated l) (generated_utf8 l)). Qed.
Theorem C77_kept : forall l l',
  (forall t, byte_symbols (invoke_all l) = Some t -> exists t', byte_symbols (invoke_all (l ++ l')) = Some t' /\ forall s k, find_key t s = Some k -> find_key t' s = Some k) /\
  (forall t, utf8_symbols (invoke_all l) = Some t -> exists t', utf8_symbols (invoke_all (l ++ l')) = Some t' /\ forall s k, find_key t s = Some k -> find_key t' s = Some k).
Proof. exact calls_keep. Qed.
(** A new symbol gets the label it is added with; the label gets the symbol when it had none. *)
Theorem C77_added_byte : forall l t s k, byte_symbols (invoke_all l) = Some t -> find_key t s = None ->
  exists t', byte_symbols (invoke_all (l ++ [AddToByte s k])) = Some t' /\ find_key t' s = Some k /\ ((forall u, find_key t u <> Some k) -> find_symbol t' k = s).
Proof. exact bytes_added. Qed.
Theorem C77_added_character : forall l t s k, utf8_symbols (invoke_all l) = Some t -> find_key t s = None ->
  exists t', utf8_symbols (invoke_all (l ++ [AddToUtf8 s k])) = Some t' /\ find_key t' s = Some k /\ ((forall u, find_key t u <> Some k) -> find_symbol t' k = s).
Proof. exact characters_added. Qed.
(** A symbol added before the table was asked for is not in it. *)
Theorem C77_early_refuted : exists s k t, byte_symbols (invoke_all [AddToByte s k; GetByte]) = Some t /\ find_key t s = None.
Proof. exact added_early. Qed.
(** A second symbol for a byte is not its name, a second symbol for another label is. *)
Theorem C77_second_refuted : exists s k t, byte_symbols (invoke_all [GetByte; AddToByte s k]) = Some t /\ find_key t s = Some k /\ find_symbol t k <> s.
Proof. exact two_names. Qed.
Theorem C77_second_above : exists s u k t, byte_symbols (invoke_all [GetByte; AddToByte s k; AddToByte u k]) = Some t /\
  find_key t s = Some k /\ find_symbol t k = u /\ s <> u.
Proof. exact two_names_high. Qed.

(** ** Examples *)
Example C77_e_bytes : map (find_symbol generate_bytes) [0; 9; 32; 65; 127; 255] = map text ["<epsilon>"; "0x09"; "0x20"; "A"; "0x7f"; "0xff"]%string.
Proof. vm_compute. reflexivity. Qed.
Example C77_e_names : map utf8_name [10; 160; 97; 0x915; 0x2003] = [text "0x000a"; text "0x00a0"; text "a"; [224; 164; 149]; text "0x2003"].
Proof. vm_compute. reflexivity. Qed.
Example C77_e_back : find_key generate_bytes (text "0x20") = Some 32 /\ find_key generate_bytes (text " ") = None /\ find_key generate_bytes (text "0x41") = None.
Proof. vm_compute. auto. Qed.
Example C77_e_digits : hexadecimal 2 127 (text "0x7f").
Proof. exact (print_hex_ok 2 127 5 ltac:(lia) eq_refl ltac:(reflexivity)). Qed.
Example C77_e_encoded : encoded 0x915 [224; 164; 149].
Proof. exact (three_bytes 0 36 21 ltac:(reflexivity) ltac:(reflexivity) ltac:(reflexivity) ltac:(lia)). Qed.
Example C77_e_spaces : map is_space_or_control [10; 65; 0x00A0; 0x180E; 0x200B; 0x3000] = [true; false; true; true; false; true].
Proof. vm_compute. reflexivity. Qed.
Example C77_e_added : exists t, byte_symbols (invoke_all [GetByte; AddToByte (text "[X]") 256; GetByte; AddToByte (text "[X]") 300; AddToByte (text "[Y]") 300]) = Some t /\
  (find_key t (text "[X]"), find_symbol t 256, find_symbol t 300, find_symbol t 301) = (Some 256, text "[X]", text "[Y]", []).
Proof.
  exists (add_symbol (add_symbol (add_symbol generate_bytes (text "[X]") 256) (text "[X]") 300) (text "[Y]") 300).
  split; [reflexivity|vm_compute; reflexivity].
Qed.

Print Assumptions C77_bytes.
Print Assumptions C77_characters.
Print Assumptions C77_only_bytes.
Print Assumptions C77_only_characters.
Print Assumptions C77_plain.
Print Assumptions C77_spaces.
Print Assumptions C77_generated.
Print Assumptions C77_kept.
Print Assumptions C77_added_byte.
Print Assumptions C77_added_character.
Print Assumptions C77_early_refuted.
Print Assumptions C77_second_refuted.
Print Assumptions C77_second_above.
