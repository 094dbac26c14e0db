(** What the names of sounds say, and what sets of pairs are alike. *)
From Verif Require Import Base SoundTables SoundDocs.
From Coq Require Import String Ascii.
Local Open Scope string_scope.
Local Open Scope list_scope.

(** The words of a name; soft hyphens (bytes 194, 173) do not count. *)
Fixpoint words_from (word : string) (s : string) : list string :=
  match s with
  | EmptyString => [word]
  | String c r =>
    if Ascii.eqb c " " then word :: words_from EmptyString r
    else if (N.eqb (N_of_ascii c) 194 || N.eqb (N_of_ascii c) 173)%bool then words_from word r
    else words_from (word ++ String c EmptyString)%string r
  end.
Definition words : string -> list string := words_from EmptyString.
(** The first entry whose word is in the name *)
Fixpoint said (name : list string) (l : list (string * list string)) (otherwise : list string) : list string :=
  match l with
  | [] => otherwise
  | (w, v) :: r => if existsb (String.eqb w) name then v else said name r otherwise
  end.
Definition same (w : string) : string * list string := (w, [w]).
(** Each aspect and its values, sorted *)
Definition described (name : string) : list (string * list string) :=
  let n := words name in
  let is w := existsb (String.eqb w) n in
  let vowel (a b : list string) := if is "vowel" then a else b in
  let na := ["not_applicable"] in
  [("ph_class", vowel ["vowel"] ["consonant"]);
   ("airstream", ["pulmonic"]);
   ("manner", vowel na (said n [same "stop"; ("nasal", ["stop"]); same "sibilant"; ("fricative", ["non_sibilant"]); same "approximant"; ("flap", ["tap"]); same "trill"] ["any"]));
   ("place", vowel na (said n
      [("bilabial", ["labial"]); ("labiodental", ["dental"]); same "dental";
       ("alveolar", if is "sibilant" then ["alveolar"; "dental"] else ["alveolar"; "dental"; "postalveolar"]);
       same "postalveolar"; ("retroflex", ["palatal"; "postalveolar"]); same "palatal"; ("labial-palatal", ["palatal"]);
       same "velar"; ("labial-velar", ["velar"]); ("palatal-velar", ["velar"]); same "uvular"; same "epiglottal"; ("pharyngeal", ["epiglottal"]); same "glottal"] ["any"]));
   ("articulator", vowel na (said n
      [("bilabial", ["labial"]); ("labiodental", ["labial"]); ("dental", ["apical"]); ("alveolar", ["apical"; "laminal"]);
       ("postalveolar", ["laminal"]); ("retroflex", ["apical"]); ("palatal", ["apical"; "dorsal"; "laminal"]); ("labial-palatal", ["apical"; "dorsal"; "laminal"]);
       ("velar", ["dorsal"]); ("labial-velar", ["dorsal"]); ("palatal-velar", ["dorsal"]); ("uvular", ["dorsal"]);
       ("epiglottal", ["laryngeal"]); ("pharyngeal", ["laryngeal"]); ("glottal", ["laryngeal"])] ["any"]));
   ("height", vowel (said n (map same ["close"; "near_close"; "close_mid"; "mid"; "open_mid"; "near_open"; "open"]) ["any"]) na);
   ("backness", vowel (said n [same "front"; same "near_front"; ("center", ["central"]); same "near_back"; same "back"] ["any"]) na);
   ("breathiness", vowel ["none"] ["any"]);
   (* a stop is voiceless and a lateral voiced if nothing else is said *)
   ("voicing", said n [same "voiced"; same "voiceless"; ("vowel", ["voiced"]); ("lateral", ["voiced"]); ("stop", ["voiceless"])] ["any"]);
   ("labialization", said n [same "rounded"; same "unrounded"; ("bilabial", ["labialized"]); ("labiodental", ["labialized"]); ("labial-palatal", ["labialized"]); ("labial-velar", ["labialized"])] ["none"]);
   ("lateralization", vowel na (said n [same "lateral"] ["none"]));
   ("nasalization", said n [("nasal", ["nasalized"])] ["none"]);
   ("palatalization", said n [("postalveolar", ["light"]); ("palatal", ["heavy"]); ("labial-palatal", ["heavy"]); ("palatal-velar", ["heavy"])] ["none"]);
   ("rhoticization", ["none"]);
   ("duration", ["any"]);
   ("syllabicity", vowel ["syllabic"] ["none"])].

(** Phonemes that the features do not tell apart *)
Definition look_alikes : list (string * string) :=
  [("oi", "oe"); ("oi", "oa"); ("oi", "ui"); ("d", "dd"); ("hho", "hh"); ("l", "ll"); ("sl", "ssl"); ("n", "nn"); ("ru", "rru"); ("rd", "rt"); ("t", "tt")].

(** A table of aspects and their values has a value. *)
Definition has_value (rows : list (str * list string)) (aspect : str) (value : string) : Prop :=
  exists vs, In (aspect, vs) rows /\ In value vs.
(** All names in a list of pages *)
Definition page_names (pages : list (string * list (string * list (list string)))) : list string :=
  flat_map (fun p => map (fun r => (fst p ++ fst r)%string) (snd p)) pages.

(** The phonemes and their names, the documented symbols, and the aspects of sounds *)
Definition phonemes : list (string * string) := x_uni_vowels ++ x_uni_consonants.
Definition pages : list (string * list (string * list (list string))) :=
  [("x_uni.", x_uni_documented); ("latn.", latn_documented); ("en.", en_latn_documented)].
Definition sound_aspects : list string := map fst (described "").
(** Letters whose sounds are not those of the phoneme with the same name *)
Definition unlike_phoneme : list string := ["c"; "j"; "o"; "q"; "r"; "x"].
(** Two tables are the same but for [case]. *)
Definition same_but_case (case : str) (a b : list (str * list string)) : Prop :=
  Forall2 (fun x y => fst x = fst y /\ (if str_eqb (fst x) case then snd x = ["lower"] /\ snd y = ["upper"] else snd x = snd y)) a b.
(** Some distances, in quarters *)
Definition samples : list (string * string * Z) :=
  [("x_uni.t", "x_uni.tt", 0%Z); ("x_uni.tt", "x_uni.k", 4%Z); ("x_uni.t", "x_uni.k", 6%Z); ("x_uni.p", "x_uni.f", 6%Z);
   ("latn.o", "x_uni.o", 6%Z); ("latn.r", "x_uni.r", 4%Z); ("en.c", "x_uni.t", 0%Z); ("en.c", "x_uni.d", 4%Z)].
