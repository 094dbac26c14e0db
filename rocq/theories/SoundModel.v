(** Feature profiles of the phonemes of x_uni and of the Latin letters: the feature inventories of
    natural_translit/utils/symbol.py, phonology/features/descriptive.py and script/grapheme.py, and the building of
    phonology/inventories/x_uni.py, script/inventories/latn.py and language_params/en.py.  Symbols are named
    x_uni.a, latn.a, en.a; of a symbol only the features are kept (indices and dictionaries are in SymbolModel.v).
    Atomics (sync_atomics) are left out. *)
From Verif Require Import Base FeatureModel ProfileModel SoundTables.
From Coq Require Import String Ascii.
Local Open Scope string_scope.
Local Open Scope list_scope.

Definition chars (s : string) : str := map N_of_ascii (list_ascii_of_string s).

(** ** Inventories of features *)
(** symbol.py lines 262-279 *)
Definition symbol_aspects : list feature_tree :=
  [Vals "type" EQUIDISTANT 4 [Feat "abst" "abstract"; Feat "ctrl" "control"; Feat "imp" "implicit"; Feat "raw" "raw"]]%Z.
(** grapheme.py lines 60-79; the names of ISO scripts are those pycountry gives. *)
Definition grapheme_aspects : list feature_tree :=
  [Vals "script" EQUIDISTANT 4 [Feat "latn" "Latin"; Feat "deva" "Devanagari (Nagari)"; Feat "und" "Undefined script"; Feat "br" "Brahmic Parent"];
   Vals "gr_class" EQUIDISTANT 4 [Feat "letter" "letter"; Feat "number" "number"];
   Vals "case" EQUIDISTANT 4 [Feat "upper" "upper"; Feat "lower" "lower"]]%Z.
Definition inventories : list (string * list feature_tree) :=
  [("sym_features", symbol_aspects); ("descriptive", descriptive_aspects); ("gr_features", grapheme_aspects)].

(** Features and value lists are numbered in the order of the text; each aspect's any and n_a (feature.py lines 649-650)
    follow its features. *)
Fixpoint leaf_names (t : feature_tree) : list (string * string) :=
  match t with Feat a x => [(a, x)] | Vals _ _ _ items => flat_map leaf_names items end.
Fixpoint list_names (t : feature_tree) : list string :=
  match t with Feat _ _ => [] | Vals a _ _ items => a :: flat_map list_names items end.
Definition root_alias (t : feature_tree) : string := match t with Feat a _ => a | Vals a _ _ _ => a end.
Fixpoint numbered (t : feature_tree) (f l : nat) : value * (nat * nat) :=
  match t with
  | Feat _ _ => (Leaf f, (S f, l))
  | Vals _ ty step items =>
    let '(vs, c) := (fix go (items : list feature_tree) (f l : nat) : list value * (nat * nat) :=
      match items with
      | [] => ([], (f, l))
      | i :: r => let '(v, (f', l')) := numbered i f l in let '(vs, c) := go r f' l' in (v :: vs, c)
      end) items f (S l) in
    (VList l ty step vs, c)
  end.
Record entry := Entry { e_inventory : nat; e_alias : string; e_root : value; e_first : nat; e_any : nat }.
Fixpoint entries (ts : list (nat * feature_tree)) (f l : nat) : list entry :=
  match ts with
  | [] => []
  | (i, t) :: r => let '(v, (f', l')) := numbered t f l in Entry i (root_alias t) v f f' :: entries r (f' + 2) l'
  end.
Definition with_inventory (invs : list (string * list feature_tree)) : list (nat * feature_tree) :=
  flat_map (fun p => map (fun t => (fst p, t)) (snd (snd p))) (combine (seq 0 (List.length invs)) invs).
Definition all_entries : list entry := entries (with_inventory inventories) 0 0.
Definition feature_names : list (string * string) :=
  flat_map (fun p => leaf_names (snd p) ++ [("any", "any"); ("n_a", "not_applicable")]) (with_inventory inventories).
Definition value_list_names : list string := flat_map (fun p => list_names (snd p)) (with_inventory inventories).
Definition feature_alias (f : nat) : string := match nth_error feature_names f with Some (a, _) => a | None => "" end.
Definition feature_text (f : nat) : string := match nth_error feature_names f with Some (_, t) => t | None => "" end.
Definition value_list_alias (l : nat) : string := match nth_error value_list_names l with Some a => a | None => "" end.

(** Attributes of an Aspect before its features are added, and of a Profile and a MultiProfile before their items are:
    type_op.py, inventory.py lines 50-54, feature.py lines 558-564, 782-784 *)
Definition common_attributes : list string := ["alias"; "text"; "value"; "_items"; "_item_type"; "item_aliases"; "suppl_aliases"].
Definition aspect_attributes : list str := map chars (common_attributes ++ ["root_list"; "inventory"; "max_dist"; "distance_dict"]).
Definition sound_attributes : list str := map chars (common_attributes ++ ["inventory"; "max_dist"]).
Definition multi_attributes : list str := map chars common_attributes.

(** None: populating an aspect fails. *)
Fixpoint all_aspects (es : list entry) : option (list aspect) :=
  match es with
  | [] => Some []
  | e :: r =>
    match populated (fun f => chars (feature_alias f)) (fun l => chars (value_list_alias l)) aspect_attributes (e_root e), all_aspects r with
    | Some a, Some l => Some (a :: l)
    | _, _ => None
    end
  end.
Definition no_aspect : aspect := Aspect [] [] [] 0%Z.
Definition make_world (es : list entry) (table : list aspect) : world :=
  let aliases := map (fun e => chars (e_alias e)) es in
  let of_feature := flat_map (fun p => repeat (Some (fst p)) (e_any (snd p) + 2 - e_first (snd p))) (combine (seq 0 (List.length es)) es) in
  World (fun f => nth f of_feature None)
    (fun a => nth a table no_aspect)
    (fun a => match nth_error es a with Some e => e_any e | None => 0 end)
    (fun a => match nth_error es a with Some e => e_any e + 1 | None => 0 end)
    (fun a => nth a aliases [])
    (fun a => match nth_error es a with Some e => e_inventory e | None => 0 end)
    (fun i => filter (fun a => match nth_error es a with Some e => Nat.eqb (e_inventory e) i | None => false end) (seq 0 (List.length es))).
Definition inventory_alias (i : nat) : str := match nth_error inventories i with Some (a, _) => chars a | None => [] end.
Definition SYM : nat := 0.
Definition DESCRIPTIVE : nat := 1.
Definition GRAPHEME : nat := 2.

Section Sounds.
  Variable W : world.

  (** ** What features are called in the source text *)
  Definition env := list (string * list nat).
  Fixpoint find_ref (s : string) (e : env) : option (list nat) :=
    match e with [] => None | (t, fs) :: r => if String.eqb s t then Some fs else find_ref s r end.
  (** Inventory._add_field, inventory.py lines 70-74: an alias in use is kept. *)
  Definition bind (s : string) (fs : list nat) (e : env) : env :=
    match find_ref s e with Some _ => e | None => e ++ [(s, fs)] end.
  (** None: AttributeError *)
  Fixpoint refs (e : env) (l : list string) : option (list nat) :=
    match l with
    | [] => Some []
    | s :: r => match find_ref s e, refs e r with Some a, Some b => Some (a ++ b) | _, _ => None end
    end.
  Definition feature_env (es : list entry) : env :=
    fold_left (fun e x => fold_left (fun e f => bind (e_alias x ++ "." ++ feature_alias f)%string [f] e)
      (seq (e_first x) (e_any x + 2 - e_first x)) e) es [].
  (** Aspect.set, feature.py lines 602-617 *)
  Definition of_alias (s : string) (f : nat) : bool :=
    match aspect_of W f with Some a => str_eqb (aspect_alias W a) (chars s) | None => false end.
  Fixpoint bind_aspect_sets (l : list (string * string * list string)) (e : env) : option env :=
    match l with
    | [] => Some e
    | (asp, s, rs) :: r =>
      match refs e rs with
      | Some fs => bind_aspect_sets r (bind (asp ++ "." ++ s)%string (to_set (filter (of_alias asp) fs)) e)
      | None => None
      end
    end.
  (** Inventory.make_sets, feature.py lines 728-731 *)
  Fixpoint bind_sets (l : list (string * list string)) (e : env) : option env :=
    match l with
    | [] => Some e
    | (s, rs) :: r => match refs e rs with Some fs => bind_sets r (bind s (to_set fs) e) | None => None end
    end.
  (** Inventory.add_profile, feature.py lines 713-723: the features of the profile *)
  Definition profile_features (n_a : bool) (inv : nat) (fs : list nat) : list nat :=
    let (p, h) := new_profile W sound_attributes n_a inv fs [] in features_of p h.
  Fixpoint bind_profiles (l : list (string * list string)) (e : env) : option env :=
    match l with
    | [] => Some e
    | (s, rs) :: r =>
      match refs e rs with Some fs => bind_profiles r (bind s (profile_features false DESCRIPTIVE fs) e) | None => None end
    end.
  (** descriptive.py lines 26-316; not_applicable is added by Inventory.__init__, feature.py lines 695-701. *)
  Definition descriptive_env (es : list entry) : option env :=
    match bind_aspect_sets descriptive_aspect_sets (bind "not_applicable" (profile_features true DESCRIPTIVE []) (feature_env es)) with
    | Some e => match bind_sets descriptive_sets e with Some e' => bind_profiles descriptive_profiles e' | None => None end
    | None => None
    end.

  (** ** Symbols *)
  (** The features of a symbol: a MultiProfile and the store of its value sets.  Symbols share no value sets, since new_profile copies. *)
  Definition features := (list (str * profile) * list (list nat))%type.
  Definition symbols := list (string * features).
  Fixpoint find_symbol (s : string) (l : symbols) : option features :=
    match l with [] => None | (t, m) :: r => if String.eqb s t then Some m else find_symbol s r end.
  Fixpoint put_symbol (s : string) (x : features) (l : symbols) : symbols :=
    match l with [] => [] | (t, m) :: r => if String.eqb s t then (t, x) :: r else (t, m) :: put_symbol s x r end.
  (** Symbol.add_features, symbol.py lines 385-425; Feature.Set.replace, feature.py lines 257-264 *)
  Definition add_features (m : list (str * profile)) (fs : list nat) (h : list (list nat)) : list (list nat) :=
    fold_left (fun h p => fold_left (fun h d =>
      match lookup (aspect_alias W (fst d)) (p_items (snd p)) with
      | Some r => write h r (fold_left set_add (snd d) (filter (fun f => negb (Nat.eqb f (any_of W (fst d)))) (read h r)))
      | None => h
      end) (aspect_dict W (p_inventory (snd p)) fs) h) m h.
  (** MultiProfile.new_profile of a new profile *)
  Definition add_profile (inv : nat) (fs : list nat) (m : list (str * profile)) (h : list (list nat)) : option (list (str * profile) * list (list nat)) :=
    let (p, h1) := new_profile W sound_attributes false inv fs h in
    match multi_new W sound_attributes inventory_alias multi_attributes p m h1 with
    | Some (_, m', h2) => Some (m', h2)
    | None => None
    end.
  (** Symbol.__init__ (symbol.py lines 331-339), PhonologicalSymbol.__init__ (phonological_symbol.py lines 35-48), and
      Phon.__init__ (lines 129-145) or Grapheme.__init__ (grapheme.py lines 97-103) *)
  Definition make_symbol (type_ : list nat) (graph : bool) (fs : list nat) : option features :=
    match add_profile SYM type_ [] [] with
    | None => None
    | Some (m1, h1) =>
      match add_profile DESCRIPTIVE [] m1 h1 with
      | None => None
      | Some (m2, h2) =>
        match (if graph then add_profile GRAPHEME [] m2 h2 else Some (m2, h2)) with
        | None => None
        | Some (m, h3) => Some (m, add_features m fs h3)
        end
      end
    end.
  Definition all_features (x : features) : list nat := flat_map (fun p => features_of (snd p) (snd x)) (fst x).
  (** PhonologicalSymbol.descriptives, lines 50-51 *)
  Definition descriptives (x : features) : option profile := multi_lookup (inventory_alias DESCRIPTIVE) (fst x).

  (** Where features come from: names in the source text, the descriptive profile of a symbol, all features of it *)
  Inductive source := Ref (s : string) | Descriptives (s : string) | Features (s : string).
  Definition from_source (e : env) (st : symbols) (x : source) : option (list nat) :=
    match x with
    | Ref s => find_ref s e
    | Descriptives s =>
      match find_symbol s st with
      | Some m => option_map (fun p => features_of p (snd m)) (descriptives m)
      | None => None
      end
    | Features s => option_map all_features (find_symbol s st)
    end.
  Fixpoint from_sources (e : env) (st : symbols) (l : list source) : option (list nat) :=
    match l with
    | [] => Some []
    | x :: r => match from_source e st x, from_sources e st r with Some a, Some b => Some (a ++ b) | _, _ => None end
    end.
  (** Make a symbol and add it to its inventory; update_descriptives (phonological_symbol.py lines 53-65); add_features *)
  Inductive statement := Make (raw graph : bool) (s : string) (l : list source) | Describe (s : string) (l : list source) | AddTo (s : string) (l : list source).
  Definition execute (e : env) (st : symbols) (x : statement) : option symbols :=
    match x with
    | Make raw graph s l =>
      match from_sources e st l, find_ref (if raw then "type.raw" else "type.abst") e with
      | Some fs, Some t =>
        match make_symbol t graph fs with
        | Some x => Some (match find_symbol s st with Some _ => st | None => st ++ [(s, x)] end)
        | None => None
        end
      | _, _ => None
      end
    | Describe s l =>
      match from_sources e st l, find_symbol s st with
      | Some fs, Some m =>
        match descriptives m with
        | Some p => Some (put_symbol s (fst m, update_profile W p fs (snd m)) st)
        | None => None
        end
      | _, _ => None
      end
    | AddTo s l =>
      match from_sources e st l, find_symbol s st with
      | Some fs, Some m => Some (put_symbol s (fst m, add_features (fst m) fs (snd m)) st)
      | _, _ => None
      end
    end.
  Fixpoint execute_all (e : env) (st : symbols) (l : list statement) : option symbols :=
    match l with
    | [] => Some st
    | x :: r => match execute e st x with Some st' => execute_all e st' r | None => None end
    end.
End Sounds.

(** ** The inventories of symbols *)
Definition describe (prefix : string) (us : list (list string * list string)) : list statement :=
  flat_map (fun u => map (fun s => Describe (prefix ++ s)%string (map Ref (snd u))) (fst u)) us.
(** x_uni.py lines 20-440 *)
Definition x_uni_statements : list statement :=
  map (fun p => Make false false ("x_uni." ++ fst p)%string [Ref "vowel"]) x_uni_vowels ++ describe "x_uni." x_uni_vowel_updates ++
  map (fun p => Make false false ("x_uni." ++ fst p)%string [Ref "consonant"]) x_uni_consonants ++ describe "x_uni." x_uni_consonant_updates.
(** latn.py lines 20-202, with Grapheme.from_char (grapheme.py lines 105-144) and Symbol.feature_pair (symbol.py lines 503-519),
    of which only the added features are kept *)
Definition latn_letters : list string := latn_lowercase_vowels ++ latn_lowercase_consonants.
Definition latn_statements : list statement :=
  map (fun s => Make true true ("latn." ++ s)%string (map Ref ["type.raw"; "script.latn"; "gr_class.letter"; "vowel"])) latn_lowercase_vowels ++
  describe "latn." latn_vowel_updates ++
  map (fun s => Make true true ("latn." ++ s)%string (map Ref ["type.raw"; "script.latn"; "gr_class.letter"; "consonant"])) latn_lowercase_consonants ++
  describe "latn." latn_consonant_updates ++
  flat_map (fun s =>
    [Make true true ("latn." ++ s ++ "_upper")%string (map Ref ["type.raw"; "script.latn"; "gr_class.letter"; "case.upper"] ++ [Descriptives ("latn." ++ s)%string]);
     AddTo ("latn." ++ s)%string [Ref "case.lower"]; AddTo ("latn." ++ s ++ "_upper")%string [Ref "case.upper"]]) latn_letters ++
  map (fun s => Make true true ("latn." ++ s)%string (map Ref ["type.raw"; "script.latn"; "gr_class.number"; "not_applicable"])) latn_numbers.
(** en.py lines 25-233, with Grapheme.copy (grapheme.py lines 154-167), import_graphemes and import_as_feature_pairs
    (lines 201-226) *)
Definition import (s : string) : statement := Make true true ("en." ++ s)%string [Features ("latn." ++ s)%string].
Definition en_statements : list statement :=
  flat_map (fun s => [import s; import (s ++ "_upper")%string; AddTo ("en." ++ s)%string [Ref "case.lower"]; AddTo ("en." ++ s ++ "_upper")%string [Ref "case.upper"]]) en_lowercase ++
  map (fun p => Describe ("en." ++ fst p)%string (map Descriptives (snd p))) en_sounds ++
  map (fun s => Describe ("en." ++ s ++ "_upper")%string [Descriptives ("en." ++ s)%string]) en_lowercase ++
  map import latn_numbers.
Definition build_sounds (es : list entry) (W : world) : option symbols :=
  match descriptive_env W es with
  | Some e => execute_all W e [] (x_uni_statements ++ latn_statements ++ en_statements)
  | None => None
  end.
(** None: an exception while the modules are loaded *)
Definition sounds_of (es : list entry) : option (world * symbols) :=
  match all_aspects es with
  | Some table => let W := make_world es table in option_map (fun st => (W, st)) (build_sounds es W)
  | None => None
  end.
Notation sounds := (sounds_of all_entries).

(** ** Asking *)
Fixpoint insert (s : string) (l : list string) : list string :=
  match l with [] => [s] | t :: r => if String.leb s t then s :: l else t :: insert s r end.
Definition sorted (l : list string) : list string := fold_right insert [] l.
(** Profile.table_contents, feature.py lines 801-806, in MultiProfile.__str__, lines 940-951: the values of each aspect *)
Definition table_rows (st : symbols) (s : string) : option (list (str * list string)) :=
  option_map (fun x => flat_map (fun p => map (fun i => (fst i, sorted (map feature_text (read (snd x) (snd i))))) (p_items (snd p))) (fst x))
    (find_symbol s st).
(** Profile.compare of the descriptive profiles of two symbols: total distance (in quarters); None: an exception.  The second
    profile's store is put behind the first one's. *)
Definition moved (k : nat) (p : profile) : profile := Profile (p_inventory p) (map (fun i => (fst i, k + snd i)) (p_items p)).
Definition sound_distance (W : world) (st : symbols) (s t : string) : option Z :=
  match find_symbol s st, find_symbol t st with
  | Some m, Some n =>
    match descriptives m, descriptives n with
    | Some p, Some q =>
      option_map (fun r => (snd r - fst r)%Z) (ProfileModel.compare W p (moved (List.length (snd m)) q) (snd m ++ snd n) None)
    | _, _ => None
    end
  | _, _ => None
  end.
