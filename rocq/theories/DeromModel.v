(** Model of the deromanization grammars of nisaba/scripts/natural_translit:
    brahmic/{derom_inventory,deromanizer}.py, the Hindi and Tamil parameters in
    language_params, and the tables of brahmic/grapheme_inventory.py that they use.
    Latin letters are graphemes and Brahmic characters are transliterations (AlignSpec.tok);
    operations are those of NatModel.  [None] is an exception (an attribute that is missing). *)
From Coq Require Import String Ascii.
From Verif Require Import Base RuleModel RegexModel IsoModel AlignModel AlignSpec NatModel.
Local Open Scope string_scope.
Local Open Scope list_scope.

(** ** nisaba/scripts/natural_translit/brahmic/derom_inventory.py *)

(** 44-56 *)
Definition BRH_MONO : list (list string) :=
  [["a"; "a_i"; "aa"; "aa_i"]; ["e"; "e_i"; "ee"; "ee_i"]; ["i"; "i_i"; "ii"; "ii_i"]; ["o"; "o_i"; "oo"; "oo_i"]; ["u"; "u_i"; "uu"; "uu_i"]].
Definition BRH_DIPH : list (list string) := [["ai"; "ai_i"]; ["au"; "au_i"]; ["ee"; "ee_i"]; ["oo"; "oo_i"]].
Definition columns (i j : nat) (l : list (list string)) : list (string * string) :=
  flat_map (fun a => match nth_error a i, nth_error a j with Some x, Some y => [(x, y)] | _, _ => [] end) l.
(** 59-67, 76-81, 89-99.  A key that is given twice has the same value each time *)
Definition SIGN_INDEPENDENT : list (string * string) := columns 0 1 (BRH_MONO ++ BRH_DIPH) ++ columns 2 3 BRH_MONO.
Definition SHORT_LONG : list (string * string) := columns 0 2 BRH_MONO ++ columns 1 3 BRH_MONO.
Definition UNASP_ASP : list (string * string) :=
  [("b", "bh"); ("c", "ch"); ("d", "dh"); ("g", "gh"); ("j", "jh"); ("k", "kh"); ("p", "ph"); ("t", "th")].
(** 35-41, 72-73, 86-87, 102-103: of a string of symbols, here of their names *)
Definition get_from_dict (d : list (string * string)) (key : list string) : option (list string) :=
  match key with [k] => option_map (fun p => [snd p]) (find (fun p : string * string => String.eqb (fst p) k) d) | _ => None end.
Definition independent_vowel := get_from_dict SIGN_INDEPENDENT.
Definition long_vowel := get_from_dict SHORT_LONG.
Definition aspirated_consonant := get_from_dict UNASP_ASP.

(** A mapping with its fields; a field is a union of strings *)
Definition latin (l : list string) : word := map (fun s => Gr (bytes s)) l.
Definition brahmic (l : list string) : word := map (fun s => Tr (bytes s)) l.
Record mapping := Mapping { m_alias : string; m_rom : list string; m_brh : list string; m_priority : nat; m_fields : list (string * list word) }.
(** 245-254: a field that is there is kept, and nothing is added if there is no value *)
Definition add_field (fs : list (string * list word)) (name : string) (value : list word) : list (string * list word) :=
  if existsb (fun f : string * list word => String.eqb (fst f) name) fs then fs else fs ++ [(name, value)].
Definition add_fst_fields (l : list (string * option (list word))) (fs : list (string * list word)) : list (string * list word) :=
  fold_left (fun fs p => match snd p with Some v => add_field fs (fst p) v | None => fs end) l fs.
(** 111-163 *)
Definition base_mapping (alias : string) (rom brh : list string) (priority : nat) : mapping :=
  Mapping alias rom brh (List.length rom + priority) [("rom", [latin rom]); ("brh", [brahmic brh])].
Definition with_fields (m : mapping) (l : list (string * option (list word))) : mapping :=
  Mapping (m_alias m) (m_rom m) (m_brh m) (m_priority m) (add_fst_fields l (m_fields m)).
Definition one (o : option (list string)) : option (list word) := option_map (fun w => [brahmic w]) o.
(** 165-180 *)
Definition vowel (alias : string) (rom brh : list string) : mapping :=
  with_fields (base_mapping alias rom brh 0)
    [("rom_l", Some [latin (rom ++ rom)]); ("brh_i", one (independent_vowel brh)); ("brh_l", one (long_vowel brh));
     ("brh_l_i", one (match long_vowel brh with Some l => independent_vowel l | None => None end))].
(** 182-215 *)
Definition consonant (alias : string) (rom brh : list string) (priority : nat) : mapping :=
  let brh_v := brh ++ ["vir"] in
  let rom_l := (rom ++ rom) :: match rom with a :: _ :: _ => [a :: rom] | _ => [] end in
  let new := with_fields (base_mapping alias rom brh priority)
    [("rom_h", Some [latin (rom ++ ["h"])]); ("rom_l", Some (map latin rom_l)); ("brh_v", Some [brahmic brh_v]);
     ("brh_l", Some [brahmic (brh_v ++ brh)]); ("brh_l_v", Some [brahmic (brh_v ++ brh_v)])] in
  match aspirated_consonant brh with
  | None => new
  | Some asp =>
      let asp_v := asp ++ ["vir"] in
      with_fields new
        [("rom_l_h", Some (map (fun r => latin (r ++ ["h"])) rom_l)); ("rom_h_l", Some [latin ((rom ++ ["h"]) ++ rom ++ ["h"])]);
         ("brh_asp", Some [brahmic asp]); ("brh_asp_v", Some [brahmic asp_v]); ("brh_l_asp", Some [brahmic (brh_v ++ asp)]);
         ("brh_l_asp_v", Some [brahmic (brh_v ++ asp_v)]); ("brh_asp_l", Some [brahmic (asp_v ++ asp)]); ("brh_asp_l_v", Some [brahmic (asp_v ++ asp_v)])]
  end.
(** 217-234 *)
Definition foreign_consonant (alias : string) (rom brh frg : list string) : mapping :=
  let frg_v := frg ++ ["vir"] in
  with_fields (consonant alias rom brh 0)
    [("frg", Some [brahmic frg]); ("frg_v", Some [brahmic frg_v]); ("frg_l", Some [brahmic (frg_v ++ frg)]); ("frg_l_v", Some [brahmic (frg_v ++ frg_v)])].
(** 256-260 *)
Definition get (m : mapping) (attr : string) : option (list word) :=
  option_map snd (find (fun f : string * list word => String.eqb (fst f) attr) (m_fields m)).
Definition is_high_priority (m : mapping) : bool := Nat.ltb (List.length (m_rom m)) (m_priority m).

(** 276-319: the mappings, called by their aliases *)
Definition MAPPINGS : list mapping :=
  [vowel "a" ["a"] ["a"]; vowel "e" ["e"] ["e"]; vowel "i" ["i"] ["i"]; vowel "o" ["o"] ["o"]; vowel "u" ["u"] ["u"];
   vowel "ai" ["a"; "i"] ["ai"]; vowel "au" ["a"; "u"] ["au"]; vowel "ae_ee" ["a"; "e"] ["ee"]; vowel "oa_oo" ["o"; "a"] ["oo"];
   consonant "b" ["b"] ["b"] 0; consonant "b_p" ["b"] ["p"] 0; consonant "ch" ["c"; "h"] ["c"] 0; consonant "d" ["d"] ["d"] 0;
   consonant "d_t" ["d"] ["t"] 0; consonant "g" ["g"] ["g"] 0; consonant "g_k" ["g"] ["k"] 0; consonant "j" ["j"] ["j"] 0;
   consonant "k" ["k"] ["k"] 0; consonant "p" ["p"] ["p"] 0; consonant "t" ["t"] ["t"] 0; consonant "c" ["c"] ["c"] 0;
   consonant "h" ["h"] ["h"] 0; consonant "l" ["l"] ["l"] 0; consonant "m" ["m"] ["m"] 0; consonant "n" ["n"] ["n"] 0;
   consonant "q" ["q"] ["k"] 0; consonant "r" ["r"] ["r"] 0; consonant "s" ["s"] ["s"] 0; consonant "sh" ["s"; "h"] ["sh"] 0;
   consonant "v" ["v"] ["v"] 0; consonant "w" ["w"] ["v"] 0; consonant "x" ["x"] ["k"; "vir"; "s"] 0; consonant "y" ["y"] ["y"] 0;
   consonant "tr_rr" ["t"; "r"] ["rr"] 0; consonant "zh_lr" ["z"; "h"] ["lr"] 1;
   foreign_consonant "f" ["f"] ["ph"] ["f"]; foreign_consonant "z" ["z"] ["j"] ["z"]].
Fixpoint drm (l : list string) : option (list mapping) :=
  match l with
  | [] => Some []
  | a :: l' => match find (fun m => String.eqb (m_alias m) a) MAPPINGS, drm l' with Some m, Some ms => Some (m :: ms) | _, _ => None end
  end.

(** ** nisaba/scripts/natural_translit/brahmic/deromanizer.py *)

(** 169-192: a group is a dictionary from priorities to lists, in the order of their addition *)
Definition group := list (nat * list mapping).
Definition same_mapping (a b : mapping) : bool := String.eqb (m_alias a) (m_alias b).
Fixpoint add_member (m : mapping) (g : group) : group :=
  match g with
  | [] => [(m_priority m, [m])]
  | (p, ms) :: g' => if Nat.eqb p (m_priority m) then (p, if existsb (same_mapping m) ms then ms else ms ++ [m]) :: g' else (p, ms) :: add_member m g'
  end.
Definition add_to_group (l : list mapping) (g : group) : group := fold_left (fun g m => add_member m g) l g.
Fixpoint insert_down (e : nat * list mapping) (l : group) : group :=
  match l with [] => [e] | x :: l' => if Nat.leb (fst x) (fst e) then e :: x :: l' else x :: insert_down e l' end.
Definition by_priority (g : group) : list (list mapping) := map snd (fold_right insert_down [] g).
(** A list of operations that fails if one of its parts does *)
Definition then_ops (a b : option (list op)) : option (list op) :=
  match a, b with Some x, Some y => Some (x ++ y) | _, _ => None end.
(** 194-229: the operations of high priority and the others *)
Fixpoint apply_lists (ps : list (list mapping)) (rewriter : list mapping -> option (list op)) : option (list op * list op) :=
  match ps with
  | [] => Some ([], [])
  | p :: ps' =>
      match rewriter (filter is_high_priority p), rewriter (filter (fun m => negb (is_high_priority m)) p), apply_lists ps' rewriter with
      | Some h, Some n, Some (hs, ns) => Some (h ++ hs, n ++ ns)
      | _, _, _ => None
      end
  end.
Definition apply_by_priority (g : group) (rewriter : list mapping -> option (list op)) := apply_lists (by_priority g) rewriter.

(** Contexts.  The empty string is not al.EPSILON, so SKIP is added to it *)
Definition EMPTY : tctx := Some (false, TWords [[]]).
Definition trs (l : list bchar) : list word := map (fun c => [Tr (bytes (btyp c))]) l.
(** nisaba/scripts/natural_translit/brahmic/grapheme_inventory.py:218-224 *)
Definition SCH_CONS : tre := TWords (trs (SIMPLE_CONSONANT ++ ASPIRATED_CONSONANT)).
Definition ONSET_CONS : tre := TWords (trs (SIMPLE_CONSONANT ++ ASPIRATED_CONSONANT ++ DEAD_CONSONANT)).
Definition LTN_VOWEL : tre := TWords (map (fun s => [Gr (bytes s)]) vowels).
(** 331-348 *)
Fixpoint field_pairs (l : list mapping) (old new : string) : option (list (word * word)) :=
  match l with
  | [] => Some []
  | m :: l' =>
      match get m old, get m new, field_pairs l' old new with
      | Some os, Some ns, Some r => Some (flat_map (fun o => map (fun n => (o, n)) ns) os ++ r)
      | _, _, _ => None
      end
  end.
Definition rw_fields (l : list mapping) (old new : string) (p f : tctx) : option (list op) :=
  match l with [] => Some [] | _ => option_map (fun ps => [Rewrite ps p f]) (field_pairs l old new) end.
(** 350-363 *)
Definition rw_vowel (rom_l brh_l : bool) (l : list mapping) : option (list op) :=
  let old := if rom_l then "rom_l" else "rom" in
  let new := if brh_l then "brh_l" else "brh" in
  then_ops (rw_fields l old new (Some (false, SCH_CONS)) EMPTY) (rw_fields l old (new ++ "_i")%string EMPTY EMPTY).
(** 365-371 *)
Definition rw_ind_to_sign (brh_l : bool) (l : list mapping) : option (list op) :=
  let new := if brh_l then "brh_l" else "brh" in rw_fields l (new ++ "_i")%string new TBOW EMPTY.
(** 373-381 *)
Definition rw_cons_vir (l : list mapping) (old new : string) : option (list op) :=
  then_ops (rw_fields l old new EMPTY (Some (false, LTN_VOWEL))) (rw_fields l old (new ++ "_v")%string EMPTY EMPTY).
(** 383-411 *)
Definition rw_cons (schwa_deletion : bool) (old new : string) (single geminated : bool) (l : list mapping) : option (list op) :=
  let rewriter := fun o n => if schwa_deletion then rw_fields l o n EMPTY EMPTY else rw_cons_vir l o n in
  then_ops (if geminated then rewriter (old ++ "_l")%string (new ++ "_l")%string else Some []) (if single then rewriter old new else Some []).
(** 415-437 *)
Definition rw_gem_only (sd : bool) := rw_cons sd "rom" "brh" false true.
Definition rw_aspiration (sd : bool) (l : list mapping) : option (list op) :=
  then_ops (if sd then rw_fields l "rom_l_h" "brh_l_asp" EMPTY EMPTY else Some []) (rw_cons sd "rom_h" "brh_asp" true true l).
Definition rw_drop_aspiration (sd : bool) := rw_cons sd "rom_h" "brh" true true.
Definition rw_foreign (sd : bool) := rw_cons sd "rom" "frg" true true.
(** 441-448 *)
Definition rw_cluster_wi : list op := [Insert (trl "vir") (Some (true, TCat (TQues TSKIP_LEFT) SCH_CONS)) (Some (false, ONSET_CONS))].
Definition rw_cluster_wf : list op :=
  [rw_ctx (trl "a") (trl "aa") None TEOW; Insert (trl "vir") (Some (false, SCH_CONS)) (Some (true, TCat ONSET_CONS (TQues TSKIP_RIGHT)))].
(** 452-461.  The rest of the text after a consonant is any sequence of symbols *)
Definition rw_nasal_labial : list op := [rw_ctx (grs "m") (trl "ans") (Some (false, LTN_VOWEL)) (some_of [grs "b"; grs "p"])].
Definition ANY_SYMBOLS : tre := TStar (TAlt (TWords [[Eq]]) (TAlt TGraphemes TRights)).
Definition rw_ans_n : list op :=
  [rw_ctx (grs "n") (trl "ans") (Some (false, LTN_VOWEL))
     (Some (true, TAlt (TCat (TWords (map (fun s => grs s) (filter (fun s => negb (String.eqb s "n" || String.eqb s "m")) consonants))) ANY_SYMBOLS)
                       (TQues TSKIP_RIGHT)))].

(** 95-110: the parameters *)
Record params := Params {
  p_script : string; p_schwa_deletion : bool; p_schwa_deletion_wf : bool;
  p_monophthong : list string; p_always_long : list string; p_diphthong : list string;
  p_has_aspirated : list string; p_drops_aspirated : list string; p_no_aspirated : list string; p_only_geminated : list string; p_foreign : list string;
  p_anusvara_n : bool; p_nasal_assimilation : bool }.
Record deromanizer := Deromanizer { d_script : string; d_typ_ops : list op; d_ind_to_sign : list op }.
(** 139-167, 231-298: the rules in their order; mono_base_long has none *)
Definition make (p : params) : option deromanizer :=
  let sd := p_schwa_deletion p in
  let cluster_vir := if sd then rw_cluster_wi ++ (if p_schwa_deletion_wf p then rw_cluster_wf else []) else [] in
  let anusvara := if p_anusvara_n p then (if p_nasal_assimilation p then rw_nasal_labial else []) ++ rw_ans_n else [] in
  match drm (p_monophthong p), drm (p_always_long p), drm (p_diphthong p), drm (p_has_aspirated p), drm (p_drops_aspirated p), drm (p_no_aspirated p),
        drm (p_only_geminated p), drm (p_foreign p) with
  | Some mo, Some al, Some di, Some ha, Some dr, Some no, Some ge, Some fo =>
      let g l := add_to_group l [] in
      let all_vowels := add_to_group di (add_to_group al (g mo)) in
      let all_consonants := add_to_group fo (add_to_group ge (add_to_group no (add_to_group dr (g ha)))) in
      match apply_by_priority (g mo) (rw_vowel true true), apply_by_priority (g al) (rw_vowel false true), apply_by_priority (g mo) (rw_vowel false false),
            apply_by_priority (g di) (rw_vowel false false), apply_by_priority (g mo) (rw_ind_to_sign true), apply_by_priority all_vowels (rw_ind_to_sign false),
            apply_by_priority (g fo) (rw_foreign sd), apply_by_priority (g dr) (rw_drop_aspiration sd), apply_by_priority (g ha) (rw_aspiration sd),
            apply_by_priority (g ge) (rw_gem_only sd), apply_by_priority all_consonants (rw_cons sd "rom" "brh" true true) with
      | Some (h1, mono_long), Some (h2, base1), Some (h3, base2), Some (h4, diph_base), Some (h5, sign1), Some (h6, sign2),
        Some (h7, cons_foreign), Some (h8, drop_asp), Some (h9, cons_asp), Some (h10, gem_only), Some (h11, cons_base) =>
          Some (Deromanizer (p_script p)
            ((h1 ++ h2 ++ h3 ++ h4 ++ h5 ++ h6 ++ h7 ++ h8 ++ h9 ++ h10 ++ h11) ++ anusvara ++ cons_foreign ++ drop_asp ++ cons_asp ++ gem_only ++ cons_base
             ++ mono_long ++ diph_base ++ (base1 ++ base2) ++ cluster_vir)
            (sign1 ++ sign2))
      | _, _, _, _, _, _, _, _, _, _, _ => None
      end
  | _, _, _, _, _, _, _, _ => None
  end.

(** nisaba/scripts/natural_translit/brahmic/grapheme_inventory.py:277-334 *)
Definition TO_BRAHMIC : list (string * (string * string)) :=
  [("vir", ("्", "்")); ("a", ("", "")); ("a_i", ("अ", "அ")); ("aa", ("ा", "ா")); ("aa_i", ("आ", "ஆ")); ("e", ("ॆ", "ெ")); ("e_i", ("ऎ", "எ"));
   ("ee", ("े", "ே")); ("ee_i", ("ए", "ஏ")); ("i", ("ि", "ி")); ("i_i", ("इ", "இ")); ("ii", ("ी", "ீ")); ("ii_i", ("ई", "ஈ")); ("o", ("ॊ", "ொ"));
   ("o_i", ("ऒ", "ஒ")); ("oo", ("ो", "ோ")); ("oo_i", ("ओ", "ஓ")); ("u", ("ु", "ு")); ("u_i", ("उ", "உ")); ("uu", ("ू", "ூ")); ("uu_i", ("ऊ", "ஊ"));
   ("ai", ("ै", "ை")); ("ai_i", ("ऐ", "ஐ")); ("au", ("ौ", "ௌ")); ("au_i", ("औ", "ஔ")); ("b", ("ब", "")); ("bh", ("भ", "")); ("c", ("च", "ச"));
   ("ch", ("छ", "")); ("d", ("द", "")); ("dh", ("ध", "")); ("g", ("ग", "")); ("gh", ("घ", "")); ("h", ("ह", "ஹ")); ("j", ("ज", "ஜ")); ("z", ("ज़", "ஃஜ"));
   ("jh", ("झ", "")); ("k", ("क", "க")); ("kh", ("ख", "")); ("l", ("ल", "ல")); ("lr", ("", "ழ")); ("m", ("म", "ம")); ("n", ("न", "ந")); ("na", ("", "ன"));
   ("p", ("प", "ப")); ("ph", ("फ", "")); ("f", ("फ़", "ஃப")); ("r", ("र", "ர")); ("rr", ("", "ற")); ("s", ("स", "ஸ")); ("sh", ("श", "ஶ")); ("t", ("त", "த"));
   ("th", ("थ", "")); ("v", ("व", "வ")); ("y", ("य", "ய")); ("ans", ("ं", ""))].
(** nisaba/scripts/natural_translit/brahmic/grapheme_inventory.py:337-354; a script that is not in the table has no characters *)
Definition get_brh (script : string) (e : string * string) : string :=
  if String.eqb script "deva" then fst e else if String.eqb script "taml" then snd e else "".
Definition ls_tr2brh (script : string) : list (str * str) :=
  map (fun r : string * (string * string) => (encs (trl (fst r)), bytes (get_brh script (snd r)))) TO_BRAHMIC.

(** nisaba/scripts/natural_translit/brahmic/deromanizer.py:314-316 *)
Definition ltn2typ : wt := read_glyph ASCII_LC.
(** 318-320 *)
Definition typ2brh (script : string) : wt := WStar (WPairs (ls_tr2brh script)).
(** 322-329 *)
Definition VOWEL_S_TR : list word := trs VOWEL_SIGN.
Definition typ2iso_ops (d : deromanizer) : list op :=
  [Insert (trl "a") (Some (false, SCH_CONS)) None; rw_ctx (trl "a") [] None (some_of (VOWEL_S_TR ++ [trl "vir"]))] ++ d_ind_to_sign d.
Definition print_chars : wt := print_glyph (map bchar_char CHARS).
(** 300-310 *)
Definition to_iso (d : deromanizer) : fst_t := fun s =>
  flat_map (fun t => map fst (outs print_chars t)) (flat_map (run_bytes (d_typ_ops d ++ typ2iso_ops d)) (map fst (outs ltn2typ s))).
Definition to_brahmic (d : deromanizer) : fst_t :=
  if String.eqb (d_script d) "deva" || String.eqb (d_script d) "taml"
  then fun s => flat_map (fun t => map fst (outs (typ2brh (d_script d)) t)) (flat_map (run_bytes (d_typ_ops d)) (map fst (outs ltn2typ s)))
  else to_iso d.

(** nisaba/scripts/natural_translit/language_params/hi.py:31-46 *)
Definition HI_PARAMS : params := Params "deva" true true ["a"; "e"; "i"; "o"; "u"] ["e"; "o"] ["ai"; "au"]
  ["b"; "ch"; "d"; "g"; "j"; "k"; "p"; "t"] [] ["c"; "h"; "l"; "m"; "n"; "q"; "r"; "s"; "sh"; "v"; "w"; "x"; "y"] [] ["f"; "z"] true true.
(** nisaba/scripts/natural_translit/language_params/ta.py:30-43 *)
Definition TA_PARAMS : params := Params "taml" false false ["a"; "e"; "i"; "o"; "u"] [] ["ai"; "au"; "ae_ee"; "oa_oo"]
  [] ["b_p"; "ch"; "d_t"; "g_k"; "j"; "k"; "p"; "t"] ["c"; "h"; "l"; "m"; "n"; "q"; "r"; "s"; "sh"; "v"; "w"; "x"; "y"; "zh_lr"] ["tr_rr"] ["f"; "z"] false true.

(** The exported grammars: nisaba/scripts/natural_translit/deromanization/hi_iso.py:21-26,
    hi_deva.py:21-26, ta_iso.py:21-26 and ta_taml.py:21-26.  None of the parameters is missing a mapping *)
Definition deromanize (p : params) (to : deromanizer -> fst_t) : fst_t := fun s => match make p with Some d => to d s | None => [] end.
Definition HI_ISO : fst_t := deromanize HI_PARAMS to_iso.
Definition HI_DEVA : fst_t := deromanize HI_PARAMS to_brahmic.
Definition TA_ISO : fst_t := deromanize TA_PARAMS to_iso.
Definition TA_TAML : fst_t := deromanize TA_PARAMS to_brahmic.
