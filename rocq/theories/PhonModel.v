(** Model of phons and the multilingual phoneme inventory:
    nisaba/scripts/natural_translit/phonology/phon.py, modify_phon.py and phoneme_inventory.py.
    A machine is the empty machine or a sequence of transliteration symbols, named as in the
    inventory.  The fst ph is the list of the texts between its braces.  None stands for an
    exception.  Phons are values: deepcopy needs no model. *)
From Coq Require Import String Ascii List NArith Bool.
From Verif Require Import PhonTables.
Import ListNotations.
Local Open Scope string_scope.
Local Open Scope list_scope.

Inductive machine := Empty | Text (l : list string).
Definition epsilon : machine := Text [].
Definition cat (a b : machine) : machine := match a, b with Text x, Text y => Text (x ++ y) | _, _ => Empty end.
(** Dictionaries: d[k] and d | {k: v} *)
Definition dict : Type := list (string * machine).
Fixpoint get (k : string) (d : dict) : option machine :=
  match d with [] => None | (k', v) :: d' => if String.eqb k k' then Some v else get k d' end.
Fixpoint put (k : string) (v : machine) (d : dict) : dict :=
  match d with [] => [(k, v)] | (k', v') :: d' => if String.eqb k k' then (k, v) :: d' else (k', v') :: put k v d' end.
Fixpoint union (d e : dict) : dict := match e with [] => d | (k, v) :: e' => union (put k v d) e' end.
(** str.upper for ASCII *)
Definition upper_ascii (c : ascii) : ascii :=
  let n := N_of_ascii c in if N.leb 97 n then if N.leb n 122 then ascii_of_N (n - 32) else c else c.
Fixpoint upper (s : string) : string := match s with EmptyString => EmptyString | String c s' => String (upper_ascii c) (upper s') end.

(** phon.py, lines 34-50: the fields but the components *)
Record part := Part { alias : string; txn : string; ftr : list string; ph : list string; ipa : list N; tr_dict : dict }.
(** cmp: not given, so the phon itself is its component, or a list of phons *)
Record phon := Phon { body : part; given : option (list part) }.
Definition cmp (p : phon) : list part := match given p with None => [body p] | Some l => l end.

(** phon.py, lines 99-108 *)
Definition new_tr (key : string) (new base : option machine) : dict :=
  match new with Some m => [(key, m)] | None => match base with Some m => [(key, m)] | None => [(key, epsilon)] end end.
(** phon.py, lines 53-93 *)
Definition base (txn : string) (ftr : list string) (ipa : list N) (base_tr : option machine) (alias : string) : phon :=
  Phon (Part (if String.eqb alias "" then upper txn else alias) txn ftr [txn] ipa (new_tr "base" base_tr (Some (Text ["DEL"])))) None.
(** phon.py, lines 167-181 *)
Definition import_phon (p : phon) (add_ftr : option (list string)) (alt : option dict) : phon :=
  let b := body p in
  Phon (Part (alias b) (txn b) (match add_ftr with Some l => ftr b ++ l | None => ftr b end) (ph b) (ipa b)
             (match alt with Some d => union (tr_dict b) d | None => tr_dict b end)) (Some (cmp p)).
(** phon.py, lines 187-193: the transliteration that is looked up *)
Definition translit_of (p : phon) (key : string) : option machine := get (if String.eqb key "" then "base" else key) (tr_dict (body p)).

(** modify_phon.py, lines 27-38 *)
Definition modifier_phon (alias txn : string) (ftr : list string) (ipa : list N) : phon := base txn ftr ipa None alias.
Definition qualified_modifier (modifier qualifier : phon) (ipa : list N) : phon :=
  modifier_phon (alias (body modifier) ++ upper (txn (body qualifier)))%string (txn (body modifier) ++ txn (body qualifier))%string
    (ftr (body modifier) ++ ftr (body qualifier)) ipa.
(** modify_phon.py, lines 83-126: the default of new_tr is an empty machine *)
Definition derive_with_suffix (p modifier : phon) (new : machine) : option phon :=
  let b := body p in let m := body modifier in let t := (txn b ++ txn m)%string in
  match get "base" (tr_dict b), ftr m with
  | Some bt, f :: _ =>
      Some (Phon (Part (alias b ++ upper (txn m))%string t (ftr b ++ ftr m) [t] (ipa b ++ ipa m) (union (tr_dict b) (new_tr f (Some new) (Some bt)))) None)
  | _, _ => None
  end.
(** list.remove *)
Fixpoint remove_first (x : string) (l : list string) : option (list string) :=
  match l with
  | [] => None
  | y :: l' => if String.eqb x y then Some l' else match remove_first x l' with Some r => Some (y :: r) | None => None end
  end.
Definition mod_phon (r : mod_row) : phon := let '(a, t, f, i) := r in modifier_phon a t f i.
Definition dvc : phon := modifier_phon "DVC" "o" ["devoiced"] [805%N].
Definition npl : phon := modifier_phon "NPL" "e" ["nonpulmonic"] [96%N].
Definition cmb : phon := modifier_phon "CMB" "+" ["composite"] [865%N].
(** modify_phon.py, lines 129-138 *)
Definition devoiced (p : phon) : option phon :=
  let b := body p in
  match remove_first "voiced" (ftr b) with
  | Some f => derive_with_suffix (Phon (Part (alias b) (txn b) f (ph b) (ipa b) (tr_dict b)) (given p)) dvc Empty
  | None => None
  end.
Definition nonpulmonic (p : phon) : option phon := derive_with_suffix p npl Empty.

(** modify_phon.py, lines 160-226 *)
Definition add_part (acc : option (part * machine)) (c : part) : option (part * machine) :=
  match acc, get "base" (tr_dict c) with
  | Some (a, b), Some bt =>
      Some (Part (alias a ++ "_" ++ alias c)%string (txn a ++ txn (body cmb) ++ txn c)%string (ftr a ++ ftr c) (ph a ++ ph (body cmb) ++ ph c)
                 (ipa a ++ ipa (body cmb) ++ ipa c) (tr_dict a), cat b bt)
  | _, _ => None
  end.
Definition compose (ps : list phon) (f : string) (new : option machine) (alt : option dict) : option phon :=
  match flat_map cmp ps with
  | [] => None
  | c :: cs =>
      match get "base" (tr_dict c) with
      | None => None
      | Some bt =>
          match fold_left add_part cs (Some (Part (alias c) (txn c) (f :: ftr c) (ph c) (ipa c) [], bt)) with
          | None => None
          | Some (a, b) =>
              let d := union [("base", b)] (new_tr f new (Some b)) in
              Some (Phon (Part (alias a) (txn a) (ftr a) (ph a) (ipa a) (match alt with Some e => union d e | None => d end)) (Some (c :: cs)))
          end
      end
  end.
(** modify_phon.py, lines 229-241 *)
Definition diphthong (ps : list phon) (diph : machine) (semi mono : option machine) : option phon :=
  compose ps "diphthong" (Some diph) (Some (match semi with Some m => [("semivowel", m)] | None => [] end ++
    match mono with Some m => [("monophthong", m)] | None => [] end)).
(** modify_phon.py, lines 244-246 *)
Definition affricate (ps : list phon) (affr : machine) : option phon := compose ps "affricate" (Some affr) None.
(** modify_phon.py, lines 249-259 *)
Fixpoint all_some {A} (l : list (option A)) : option (list A) :=
  match l with [] => Some [] | None :: _ => None | Some x :: l' => match all_some l' with Some r => Some (x :: r) | None => None end end.
Definition ls_affricate (stop : phon) (frics : list phon) (tr : machine) : option (list phon) :=
  all_some (flat_map (fun fric => affricate [stop; fric] tr ::
    if existsb (String.eqb "voiceless") (ftr (body fric)) then [match nonpulmonic fric with Some ejc => affricate [stop; ejc] tr | None => None end] else []) frics).
(** modify_phon.py, lines 262-272 *)
Definition click (stop release : phon) : option phon := compose [stop; release] "coarticulated" None None.
Definition ls_click (stops releases : list phon) : option (list phon) := all_some (flat_map (fun s => map (click s) releases) stops).

(** ** phoneme_inventory.py, lines 39-371 *)
Definition base_phon (r : base_row) : phon := let '(t, f, i, tr, a) := r in base t f i (Some (Text tr)) a.
Definition base_phons : list base_row -> list phon := map base_phon.
(** The phon with an alias *)
Definition find_phon (a : string) (l : list phon) : option phon := find (fun p => String.eqb (alias (body p)) a) l.
Definition phons_named (l : list phon) (names : list string) : option (list phon) := all_some (map (fun a => find_phon a l) names).
Definition bind {A B} (x : option A) (f : A -> option B) : option B := match x with Some a => f a | None => None end.

Definition simple_vowel : list phon := base_phons unassigned_vowel ++ base_phons base_vowel.
Definition nasal : option (list phon) :=
  bind (all_some (map devoiced (base_phons voiced_nasal))) (fun d => Some (base_phons voiced_nasal ++ d)).
Definition stop : option (list phon) :=
  bind (all_some (map nonpulmonic (base_phons voiceless_stop))) (fun ejective =>
  bind (all_some (map nonpulmonic (base_phons voiced_stop))) (fun implosive =>
  bind (all_some (map devoiced implosive)) (fun d =>
  Some (base_phons voiceless_stop ++ base_phons voiced_stop ++ ejective ++ implosive ++ d)))).
Definition fricative : option (list phon) :=
  bind (all_some (map nonpulmonic (base_phons voiceless_fricative))) (fun e =>
  Some (base_phons voiceless_fricative ++ base_phons voiced_fricative ++ e)).
Definition approximant : list phon := base_phons central_approximant ++ base_phons lateral_approximant.
Definition flap : option (list phon) := bind (all_some (map devoiced (base_phons voiced_flap))) (fun d => Some (base_phons voiced_flap ++ d)).
Definition trill : option (list phon) := bind (all_some (map devoiced (base_phons voiced_trill))) (fun d => Some (base_phons voiced_trill ++ d)).
Definition simple_cons : option (list phon) :=
  bind nasal (fun n => bind stop (fun s => bind fricative (fun f => bind flap (fun fl => bind trill (fun t =>
  Some (n ++ s ++ base_phons click_release ++ f ++ approximant ++ fl ++ t)))))).
Definition qualified (m : string) (rows : list (string * list N)) : option (list phon) :=
  let mods := map mod_phon (combiner ++ modifier_feature ++ feature_qualifier) in
  bind (find_phon m mods) (fun modifier => all_some (map (fun r : string * list N =>
    bind (find_phon (fst r) mods) (fun q => Some (qualified_modifier modifier q (snd r)))) rows)).
Definition diphthongs : option (list phon) :=
  bind (phons_named simple_vowel ["A"; "I"; "U"]) (fun l => match l with
  | [a; i; u] => bind (diphthong [a; i] (Text ["S_AI"]) None None) (fun ai => bind (diphthong [a; u] (Text ["S_AU"]) None None) (fun au => Some [ai; au]))
  | _ => None end).
Definition vowels : option (list phon) := bind diphthongs (fun d => Some (simple_vowel ++ d)).
Definition affricates : option (list phon) :=
  bind simple_cons (fun s =>
  bind (find_phon "T" s) (fun t => bind (phons_named s ["SH"; "SS"; "SY"]) (fun vl =>
  bind (ls_affricate t vl (Text ["S_CH"])) (fun a1 =>
  bind (find_phon "D" s) (fun d => bind (phons_named s ["ZH"; "ZZ"; "ZY"]) (fun vd =>
  bind (ls_affricate d vd (Text ["J"])) (fun a2 => Some (a1 ++ a2)))))))).
Definition consonants : option (list phon) :=
  bind simple_cons (fun s =>
  bind (phons_named s ["K"; "G"; "NG"; "Q"; "J"; "NJ"]) (fun stops =>
  bind (ls_click stops (base_phons click_release)) (fun clicks =>
  bind affricates (fun a => Some (s ++ clicks ++ a))))).
Definition suprasegmentals : option (list phon) :=
  bind (qualified "STR" stress_table) (fun a => bind (qualified "TPT" pitch_table) (fun b =>
  bind (qualified "TCN" contour_table) (fun c => bind (qualified "INT" intonation_table) (fun d => Some (a ++ b ++ c ++ d))))).
Definition phonemes : option (list phon) :=
  bind vowels (fun v => bind consonants (fun c => bind suprasegmentals (fun s =>
  Some (base_phons silence ++ base_phons standalone_feature ++ v ++ c ++ s)))).
(** phoneme_inventory.py, lines 368-371: with the modifiers *)
Definition combining_modifiers : option (list phon) :=
  bind (qualified "DUR" duration_table) (fun d => bind (find_phon "DURH" d) (fun x => Some (map mod_phon combiner ++ [x]))).
Definition inventory : option (list phon) := bind phonemes (fun p => bind combining_modifiers (fun m => Some (p ++ m))).
