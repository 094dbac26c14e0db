(** C75: spelled-out acronyms in Hindi natural transliteration. *)
From Coq Require Import String.
From Verif Require Import Base RuleModel ScriptData ScriptTables IsoModel AlignModel AlignSpec NatModel NatSpec AcronymModel AcronymSpec AcronymMain AcronymNat AcronymRound.
From Verif Require ByteModel SpelloutModel SpelloutSpec.

(** A word whose characters are the names of English letters has one result, the letters in upper case. *)
Theorem C75_acronym (e : bool) (cs ds : list bchar) (w : list string) :
  letters cs -> (forall c, In c ds -> In c CHARS) -> In (encs (names ds)) (iso_to_typ (text_of cs)) -> acronym ds w -> only (capitals w) (hi_nat e (text_of cs)).
Proof. exact (hi_nat_acronym e cs ds w). Qed.
Print Assumptions C75_acronym.
(** "bī" is B *)
Example C75_acronym_example : hi_nat true (NatModel.bytes "bī") = [NatModel.bytes "B"].
Proof. vm_compute. reflexivity. Qed.

(** Any other word has the results it has without acronyms. *)
Theorem C75_other (e : bool) (cs ds : list bchar) (f : fst_t) :
  letters cs -> (forall c, In c ds -> In c CHARS) -> In (encs (names ds)) (iso_to_typ (text_of cs)) -> (forall w, ~ acronym ds w) -> romanize e Hi Nat = Some f ->
  forall x, In x (hi_nat e (text_of cs)) <-> In x (f (text_of cs)).
Proof. exact (hi_nat_other e cs ds f). Qed.
Print Assumptions C75_other.
(** "bīb" is not an acronym *)
Example C75_other_example : hi_nat true (NatModel.bytes "bīb") = [NatModel.bytes "bib"].
Proof. vm_compute. reflexivity. Qed.

(** The characters have at most one reading as letters: no name, and no sequence of names, is also another one. *)
Theorem C75_unique (ds : list bchar) (v w : list string) : acronym ds v -> acronym ds w -> v = w.
Proof. exact (acronym_unique ds v w). Qed.
Print Assumptions C75_unique.
(** "jēḍabalyū" is J W, not Z and something else. *)
Example C75_unique_example : acronym (map sp ["j"; "ee"; "dd"; "a"; "b"; "l"; "y"; "uu"]%string) ["J"; "W"]%string.
Proof.
  apply (ac_letter "J" (map sp ["j"; "ee"]%string)); [exists [["j"]; ["e"; "ee"]]%string; split; [vm_compute; tauto|repeat constructor; vm_compute; tauto]|].
  apply (ac_letter "W" (map sp ["dd"; "a"; "b"; "l"; "y"; "uu"]%string) []); [|constructor].
  exists [["dd"]; ["a"]; ["b"]; ["l"]; ["y"]; ["u"; "uu"]]%string. split; [vm_compute; tauto|repeat constructor; vm_compute; tauto].
Qed.

(** Every word of characters has one result, in upper case if it is an acronym and in lower case otherwise. *)
Theorem C75_one_result (e : bool) (cs : list bchar) : letters cs -> exists x, only x (hi_nat e (text_of cs)) /\
  ((Forall (fun c => (65 <= c <= 90)%N) x /\ exists ds w, In (encs (names ds)) (iso_to_typ (text_of cs)) /\ acronym ds w /\ x = capitals w) \/ lower_case x).
Proof. exact (hi_nat_one e cs). Qed.
Print Assumptions C75_one_result.
(** "ē" is A, "ēk" is "ek" *)
Example C75_one_result_example : hi_nat true (NatModel.bytes "ē") = [NatModel.bytes "A"] /\ hi_nat true (NatModel.bytes "ēk") = [NatModel.bytes "ek"].
Proof. split; vm_compute; reflexivity. Qed.

(** A word of English letters, spelled out in Devanagari and romanized, comes back in upper case; *)
Theorem C75_spelled (e : bool) (w x y : str) : In x (SpelloutModel.speller SpelloutModel.Utf8 SpelloutModel.HI SpelloutModel.DEVA w) -> In y (best_outs (iso_wt data_Deva) x) ->
  only (map (fun c => (SpelloutSpec.lower c - 32)%N) w) (hi_nat e (ByteModel.bytes y)).
Proof. exact (spelled_back e w x y). Qed.
Print Assumptions C75_spelled.
(** every such word can be spelled and romanized. *)
Theorem C75_spelled_exists (w : str) : SpelloutSpec.letters w -> exists x y, In x (SpelloutModel.speller SpelloutModel.Utf8 SpelloutModel.HI SpelloutModel.DEVA w) /\ In y (best_outs (iso_wt data_Deva) x).
Proof. exact (spelled_exists w). Qed.
Print Assumptions C75_spelled_exists.
(** "Tv": "टीवी", "ṭīvī" *)
Example C75_spelled_example : SpelloutModel.speller SpelloutModel.Utf8 SpelloutModel.HI SpelloutModel.DEVA [84; 118]%N = [[2335; 2368; 2357; 2368]]%N /\
  In [7789; 299; 118; 299]%N (best_outs (iso_wt data_Deva) [2335; 2368; 2357; 2368]%N) /\
  map (fun c => (SpelloutSpec.lower c - 32)%N) [84; 118]%N = [84; 86]%N /\ hi_nat true (ByteModel.bytes [118; 299]%N) = [[86]]%N.
Proof. split; [vm_compute; reflexivity|]. split; [vm_compute; tauto|]. split; vm_compute; reflexivity. Qed.
