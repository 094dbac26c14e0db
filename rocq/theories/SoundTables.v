(** Feature inventories and what is said about symbols, from the source text; written by gen/genfeatures.py.
    Sources, in nisaba/scripts/natural_translit: phonology/features/descriptive.py, phonology/inventories/x_uni.py,
    script/inventories/latn.py, language_params/en.py. *)
From Verif Require Import Base FeatureModel.
From Coq Require Import String.
Local Open Scope string_scope.
Local Open Scope list_scope.

(** A feature with its alias and text, or a value list with its alias, type, step (in quarters) and items *)
Inductive feature_tree := Feat (alias text : string) | Vals (alias : string) (t : list_type) (step : Z) (items : list feature_tree).
(** descriptive.py, the aspects *)
Definition descriptive_aspects : list feature_tree :=
  [Vals "ph_class" EQUIDISTANT 4 [Feat "vowel" "vowel"; Feat "consonant" "consonant"];
   Vals "airstream" EQUIDISTANT 4 [Feat "pulmonic" "pulmonic"; Vals "glottalic" EQUIDISTANT 0 [Feat "ejective" "ejective"; Feat "implosive" "implosive"]; Feat "click" "click"];
   Vals "manner" LINEAR 4 [Feat "stop" "stop"; Vals "fricatives" EQUIDISTANT 0 [Feat "fricative" "fricative"; Vals "amplitude" LINEAR 1 [Feat "sibilant" "sibilant"; Feat "strident" "strident"; Feat "non_sibilant" "non_sibilant"]]; Vals "approximant_like" EQUIDISTANT 4 [Feat "approximant" "approximant"; Vals "tap_flap_trill" EQUIDISTANT 2 [Vals "non_trill" EQUIDISTANT 0 [Feat "tap" "tap"; Feat "flap" "flap"]; Feat "trill" "trill"]]];
   Vals "place" LINEAR 2 [Feat "labial" "labial"; Feat "dental" "dental"; Feat "alveolar" "alveolar"; Feat "postalveolar" "postalveolar"; Feat "palatal" "palatal"; Feat "velar" "velar"; Feat "uvular" "uvular"; Feat "epiglottal" "epiglottal"; Feat "glottal" "glottal"];
   Vals "articulator" EQUIDISTANT 2 [Feat "labial" "labial"; Feat "apical" "apical"; Feat "laminal" "laminal"; Feat "dorsal" "dorsal"; Feat "laryngeal" "laryngeal"];
   Vals "height" LINEAR 2 [Feat "close" "close"; Feat "near_close" "near_close"; Feat "close_mid" "close_mid"; Feat "mid" "mid"; Feat "open_mid" "open_mid"; Feat "near_open" "near_open"; Feat "open" "open"];
   Vals "backness" LINEAR 2 [Feat "front" "front"; Feat "near_front" "near_front"; Feat "central" "central"; Feat "near_back" "near_back"; Feat "back" "back"];
   Vals "breathiness" EQUIDISTANT 4 [Vals "is_breathy" EQUIDISTANT 0 [Feat "aspirated" "aspirated"; Feat "breathy" "breathy"; Feat "murmured" "murmured"]; Vals "not_breathy" EQUIDISTANT 0 [Feat "unaspirated" "unaspirated"; Feat "none" "none"]];
   Vals "voicing" EQUIDISTANT 4 [Feat "voiced" "voiced"; Feat "voiceless" "voiceless"];
   Vals "labialization" EQUIDISTANT 4 [Vals "is_labialized" EQUIDISTANT 0 [Feat "labialized" "labialized"; Feat "rounded" "rounded"]; Vals "not_labialized" EQUIDISTANT 0 [Feat "none" "none"; Feat "unrounded" "unrounded"]];
   Vals "lateralization" EQUIDISTANT 4 [Feat "lateral" "lateral"; Feat "none" "none"];
   Vals "nasalization" EQUIDISTANT 4 [Feat "nasalized" "nasalized"; Feat "none" "none"];
   Vals "palatalization" LINEAR 2 [Feat "light" "light"; Feat "heavy" "heavy"; Feat "none" "none"];
   Vals "rhoticization" EQUIDISTANT 4 [Feat "rhotic" "rhotic"; Feat "none" "none"];
   Vals "duration" LINEAR 2 [Feat "extra_short" "extra_short"; Feat "short" "short"; Feat "half_long" "half_long"; Feat "long" "long"; Feat "extra_long" "extra_long"];
   Vals "syllabicity" EQUIDISTANT 4 [Feat "syllabic" "syllabic"; Feat "none" "none"]]%Z.
(** descriptive.py, sets of features of one aspect *)
Definition descriptive_aspect_sets : list (string * string * list string) :=
  [("height", "close_like", ["height.close"; "height.near_close"]);
   ("height", "mid_like", ["height.close_mid"; "height.mid"; "height.open_mid"]);
   ("height", "open_like", ["height.near_open"; "height.open"]);
   ("backness", "front_like", ["backness.front"; "backness.near_front"]);
   ("backness", "back_like", ["backness.near_back"; "backness.back"]);
   ("articulator", "coronal", ["articulator.apical"; "articulator.laminal"]);
   ("place", "para_alveolar", ["place.dental"; "place.alveolar"; "place.postalveolar"])].
(** descriptive.py, sets of features of several aspects *)
Definition descriptive_sets : list (string * list string) :=
  [("nasal", ["manner.stop"; "nasalization.nasalized"; "voicing.voiced"]);
   ("approximant", ["manner.approximant"; "voicing.voiced"]);
   ("lateral_fricative", ["manner.non_sibilant"; "lateralization.lateral"]);
   ("lateral_approximant", ["manner.approximant"; "voicing.voiced"; "lateralization.lateral"]);
   ("bilabial", ["articulator.labial"; "place.labial"; "labialization.labialized"]);
   ("labiodental", ["articulator.labial"; "place.dental"; "labialization.labialized"]);
   ("dental", ["articulator.apical"; "place.dental"]);
   ("alveolar", ["articulator.coronal"; "place.alveolar"]);
   ("para_alveolar", ["articulator.coronal"; "place.para_alveolar"]);
   ("postalveolar", ["articulator.laminal"; "place.postalveolar"; "palatalization.light"]);
   ("retroflex", ["articulator.apical"; "place.postalveolar"; "place.palatal"; "palatalization.none"]);
   ("palatal", ["articulator.coronal"; "articulator.dorsal"; "place.palatal"; "palatalization.heavy"]);
   ("velar", ["articulator.dorsal"; "place.velar"]);
   ("uvular", ["articulator.dorsal"; "place.uvular"]);
   ("epiglottal", ["articulator.laryngeal"; "place.epiglottal"]);
   ("glottal", ["articulator.laryngeal"; "place.glottal"])].
(** descriptive.py, profiles *)
Definition descriptive_profiles : list (string * list string) :=
  [("vowel", ["ph_class.vowel"; "airstream.pulmonic"; "manner.n_a"; "place.n_a"; "articulator.n_a"; "breathiness.none"; "voicing.voiced"; "lateralization.n_a"; "nasalization.none"; "palatalization.none"; "rhoticization.none"; "syllabicity.syllabic"]);
   ("consonant", ["ph_class.consonant"; "airstream.pulmonic"; "height.n_a"; "backness.n_a"; "labialization.none"; "lateralization.none"; "nasalization.none"; "palatalization.none"; "rhoticization.none"; "syllabicity.none"])].
(** x_uni.py, vowels: alias and name *)
Definition x_uni_vowels : list (string * string) :=
  [("a", "open front unrounded vowel");
   ("au", "open center unrounded vowel");
   ("ae", "near_open front unrounded vowel");
   ("av", "near_open center unrounded vowel");
   ("aw", "open back unrounded vowel");
   ("ow", "open back rounded vowel");
   ("e", "close_mid front unrounded vowel");
   ("ec", "mid center unrounded vowel");
   ("eh", "open_mid front unrounded vowel");
   ("el", "close_mid center unrounded vowel");
   ("ex", "open_mid center unrounded vowel");
   ("ox", "open_mid center rounded vowel");
   ("eo", "close_mid back unrounded vowel");
   ("i", "close front unrounded vowel");
   ("iy", "near_close near_front unrounded vowel");
   ("ic", "close center unrounded vowel");
   ("o", "close_mid back rounded vowel");
   ("oi", "close_mid front rounded vowel");
   ("oe", "open_mid front rounded vowel");
   ("oa", "open front rounded vowel");
   ("oh", "open_mid back rounded vowel");
   ("ol", "close_mid center rounded vowel");
   ("u", "close back rounded vowel");
   ("uc", "close center rounded vowel");
   ("iu", "close back unrounded vowel");
   ("uv", "near_close near_back rounded vowel");
   ("ah", "open_mid back unrounded vowel");
   ("ui", "close front rounded vowel");
   ("uy", "near_close near_front rounded vowel")].
(** x_uni.py, consonants: alias and name *)
Definition x_uni_consonants : list (string * string) :=
  [("b", "voiced bilabial stop");
   ("bb", "bilabial trill");
   ("ky", "voiceless palatal stop");
   ("hy", "voiceless palatal non-sibilant fricative");
   ("sy", "voiceless palatal sibilant fricative");
   ("d", "voiced alveolar stop");
   ("dh", "voiced dental non-sibilant fricative");
   ("dd", "voiced retro­flex stop");
   ("f", "voiceless labio­dental non-sibilant fricative");
   ("g", "voiced velar stop");
   ("j", "voiced uvular stop");
   ("gh", "voiced velar non-sibilant fricative");
   ("h", "voiceless glottal non-sibilant fricative");
   ("ch", "voiceless pharyngeal non-sibilant fricative");
   ("hho", "voiceless epiglottal trill");
   ("ha", "voiced glottal non-sibilant fricative");
   ("y", "palatal approximant");
   ("yy", "voiced palatal non-sibilant fricative");
   ("gy", "voiced palatal stop");
   ("k", "voiceless velar stop");
   ("l", "alveolar lateral approximant");
   ("lg", "velar lateral approximant");
   ("sl", "voiceless alveolar lateral fricative");
   ("ll", "retro­flex lateral approximant");
   ("ssl", "voiceless retro­flex lateral fricative");
   ("zl", "voiced alveolar lateral fricative");
   ("ly", "palatal lateral approximant");
   ("m", "voiced bilabial nasal");
   ("mi", "voiced labio­dental nasal");
   ("n", "voiced alveolar nasal");
   ("nj", "voiced uvular nasal");
   ("ny", "voiced palatal nasal");
   ("nn", "voiced retro­flex nasal");
   ("ng", "voiced velar nasal");
   ("p", "voiceless bilabial stop");
   ("ph", "voiceless bilabial non-sibilant fricative");
   ("q", "voiceless uvular stop");
   ("r", "alveolar trill");
   ("rj", "uvular trill");
   ("ru", "alveolar approximant");
   ("rl", "alveolar lateral flap");
   ("rru", "retro­flex approximant");
   ("rd", "retro­flex flap");
   ("rt", "alveolar flap");
   ("jh", "voiced uvular non-sibilant fricative");
   ("s", "voiceless alveolar sibilant fricative");
   ("ss", "voiceless retro­flex sibilant fricative");
   ("sh", "voiceless post­alveolar sibilant fricative");
   ("t", "voiceless alveolar stop");
   ("tt", "voiceless retro­flex stop");
   ("gu", "velar approximant");
   ("v", "voiced labio­dental non-sibilant fricative");
   ("vu", "labio­dental approximant");
   ("vt", "labio­dental flap");
   ("kh", "voiceless velar non-sibilant fricative");
   ("z", "voiced alveolar sibilant fricative");
   ("zz", "voiced retro­flex sibilant fricative");
   ("zy", "voiced palatal sibilant fricative");
   ("zh", "voiced post­alveolar sibilant fricative");
   ("x", "glottal stop");
   ("cha", "voiced pharyngeal non-sibilant fricative");
   ("c", "epiglottal stop");
   ("hh", "epiglottal trill");
   ("bh", "voiced bilabial non-sibilant fricative");
   ("th", "voiceless dental non-sibilant fricative");
   ("qh", "voiceless uvular non-sibilant fricative");
   ("yw", "labial-palatal approximant");
   ("hw", "voiceless labial-velar fricative");
   ("w", "labial-velar approximant");
   ("sj", "voiceless palatal-velar fricative");
   ("lw", "labial-velar lateral approximant")].
(** x_uni.py, updates of vowels *)
Definition x_uni_vowel_updates : list (list string * list string) :=
  [(["a"; "au"; "aw"; "ow"; "oa"], ["height.open"]);
   (["ae"; "av"], ["height.near_open"]);
   (["eh"; "ex"; "ox"; "oe"; "oh"; "ah"], ["height.open_mid"]);
   (["ec"], ["height.mid"]);
   (["e"; "el"; "eo"; "o"; "ol"], ["height.close_mid"]);
   (["iy"; "uv"; "uy"], ["height.near_close"]);
   (["i"; "ic"; "u"; "uc"; "iu"; "ui"], ["height.close"]);
   (["a"; "ae"; "e"; "eh"; "i"; "oi"; "oe"; "oa"; "ui"], ["backness.front"]);
   (["iy"; "av"; "iy"; "uy"], ["backness.near_front"]);
   (["au"; "av"; "ec"; "el"; "ex"; "ox"; "ic"; "ol"; "uc"], ["backness.central"]);
   (["uv"], ["backness.near_back"]);
   (["aw"; "ow"; "eo"; "o"; "oh"; "u"; "iu"; "ah"], ["backness.back"]);
   (["ow"; "ox"; "o"; "oi"; "oe"; "oa"; "oh"; "ol"; "u"; "uc"; "uv"; "ui"; "uy"], ["labialization.rounded"]);
   (["a"; "au"; "ae"; "av"; "aw"; "e"; "ec"; "eh"; "el"; "ex"; "eo"; "i"; "iy"; "ic"; "iu"; "ah"], ["labialization.unrounded"])].
(** x_uni.py, updates of consonants *)
Definition x_uni_consonant_updates : list (list string * list string) :=
  [(["m"; "mi"; "n"; "ng"; "nj"; "nn"; "ny"], ["nasal"]);
   (["b"; "c"; "d"; "dd"; "g"; "gy"; "j"; "k"; "ky"; "p"; "q"; "t"; "tt"; "x"], ["manner.stop"]);
   (["s"; "sh"; "ss"; "sy"; "z"; "zh"; "zy"; "zz"], ["manner.sibilant"]);
   (["bh"; "ch"; "cha"; "dh"; "f"; "gh"; "h"; "ha"; "hw"; "hy"; "jh"; "kh"; "ph"; "qh"; "sj"; "th"; "v"; "yy"], ["manner.non_sibilant"]);
   (["gu"; "rru"; "ru"; "vu"; "w"; "y"; "yw"], ["manner.approximant"]);
   (["rd"; "rt"; "vt"], ["manner.tap"]);
   (["bb"; "hh"; "hho"; "r"; "rj"], ["manner.trill"]);
   (["sl"; "ssl"; "zl"], ["lateral_fricative"]);
   (["l"; "lg"; "ll"; "lw"; "ly"], ["lateral_approximant"]);
   (["rl"], ["lateral_approximant"]);
   (["rl"], ["manner.tap"]);
   (["b"; "bb"; "bh"; "m"; "p"; "ph"], ["bilabial"]);
   (["f"; "mi"; "v"; "vt"; "vu"], ["labiodental"]);
   (["dh"; "th"], ["dental"]);
   (["s"; "z"], ["dental"; "alveolar"]);
   (["d"; "l"; "n"; "r"; "rl"; "rt"; "ru"; "sl"; "t"; "zl"], ["para_alveolar"]);
   (["sh"; "zh"], ["postalveolar"]);
   (["dd"; "ll"; "nn"; "rd"; "rru"; "ss"; "ssl"; "tt"; "zz"], ["retroflex"]);
   (["gy"; "hy"; "ky"; "ly"; "ny"; "sy"; "y"; "yw"; "yy"; "zy"], ["palatal"]);
   (["g"; "gh"; "gu"; "hw"; "k"; "kh"; "lg"; "lw"; "ng"; "sj"; "w"], ["velar"]);
   (["j"; "jh"; "nj"; "q"; "qh"; "rj"], ["uvular"]);
   (["c"; "ch"; "cha"; "hh"; "hho"], ["epiglottal"]);
   (["h"; "ha"; "x"], ["glottal"]);
   (["c"; "ch"; "f"; "h"; "hho"; "hw"; "hy"; "k"; "kh"; "ky"; "p"; "ph"; "q"; "qh"; "s"; "sh"; "sj"; "sl"; "ss"; "ssl"; "sy"; "t"; "th"; "tt"; "x"], ["voicing.voiceless"]);
   (["b"; "bh"; "cha"; "d"; "dd"; "dh"; "g"; "gh"; "gy"; "ha"; "j"; "jh"; "v"; "yy"; "z"; "zh"; "zl"; "zy"; "zz"], ["voicing.voiced"]);
   (["hw"; "lw"; "w"; "yw"], ["labialization.labialized"]);
   (["sj"], ["palatalization.heavy"])].
(** latn.py, lowercase_vowels *)
Definition latn_lowercase_vowels : list string := ["a"; "e"; "i"; "o"; "u"].
(** latn.py, lowercase_consonants *)
Definition latn_lowercase_consonants : list string := ["b"; "c"; "d"; "f"; "g"; "h"; "j"; "k"; "l"; "m"; "n"; "p"; "q"; "r"; "s"; "t"; "v"; "w"; "x"; "y"; "z"].
(** latn.py, numbers *)
Definition latn_numbers : list string := ["zero"; "one"; "two"; "three"; "four"; "five"; "six"; "seven"; "eight"; "nine"].
(** latn.py, updates of vowels *)
Definition latn_vowel_updates : list (list string * list string) :=
  [(["a"], ["height.open_like"; "backness.front_like"; "labialization.unrounded"]);
   (["e"], ["height.mid_like"; "backness.front_like"; "labialization.unrounded"]);
   (["i"], ["height.close_like"; "backness.front_like"; "labialization.unrounded"]);
   (["o"], ["height.open_like"; "backness.back_like"; "labialization.rounded"]);
   (["u"], ["height.close_like"; "backness.back_like"; "labialization.rounded"])].
(** latn.py, updates of consonants *)
Definition latn_consonant_updates : list (list string * list string) :=
  [(["b"; "m"; "p"], ["bilabial"]);
   (["f"; "v"], ["labiodental"]);
   (["c"; "d"; "j"; "l"; "n"; "r"; "s"; "t"; "z"], ["para_alveolar"; "retroflex"]);
   (["y"], ["palatal"]);
   (["g"; "k"; "q"], ["velar"]);
   (["w"], ["bilabial"; "velar"]);
   (["x"], ["alveolar"; "velar"]);
   (["h"], ["glottal"]);
   (["m"; "n"], ["nasal"]);
   (["b"; "d"; "g"; "k"; "p"; "t"], ["manner.stop"]);
   (["f"; "h"; "s"; "v"; "z"], ["manner.fricative"]);
   (["c"; "j"; "x"], ["manner.stop"; "manner.fricative"]);
   (["w"; "y"], ["approximant"]);
   (["l"], ["lateral_approximant"]);
   (["r"], ["rhoticization.rhotic"]);
   (["b"; "d"; "g"; "j"; "v"; "z"], ["voicing.voiced"]);
   (["c"; "f"; "k"; "p"; "q"; "s"; "t"; "x"], ["voicing.voiceless"])].
(** en.py, lowercase *)
Definition en_lowercase : list string := ["a"; "b"; "c"; "d"; "e"; "f"; "g"; "h"; "i"; "j"; "k"; "l"; "m"; "n"; "o"; "p"; "q"; "r"; "s"; "t"; "u"; "v"; "w"; "x"; "y"; "z"].
(** en.py, update_descriptives_from_symbol: a letter, and phonemes or letters *)
Definition en_sounds : list (string * list string) :=
  [("a", ["x_uni.ae"; "x_uni.e"; "x_uni.iy"; "x_uni.aw"; "x_uni.eh"; "x_uni.ec"]);
   ("e", ["x_uni.eh"; "x_uni.i"; "x_uni.ex"; "x_uni.iy"; "x_uni.ec"]);
   ("i", ["x_uni.iy"; "x_uni.a"; "x_uni.ex"; "x_uni.ec"]);
   ("o", ["x_uni.ow"; "x_uni.o"; "x_uni.uv"; "x_uni.oh"]);
   ("u", ["x_uni.ah"; "x_uni.uv"; "x_uni.u"; "x_uni.ec"]);
   ("b", ["x_uni.b"]);
   ("c", ["x_uni.s"; "x_uni.k"]);
   ("d", ["x_uni.d"]);
   ("f", ["x_uni.f"]);
   ("g", ["x_uni.g"; "x_uni.d"; "x_uni.zh"]);
   ("h", ["x_uni.h"]);
   ("j", ["x_uni.d"; "x_uni.zh"; "x_uni.y"; "x_uni.h"]);
   ("k", ["x_uni.k"]);
   ("l", ["x_uni.l"]);
   ("m", ["x_uni.m"]);
   ("n", ["x_uni.n"]);
   ("p", ["x_uni.p"]);
   ("q", ["x_uni.k"]);
   ("r", ["x_uni.r"]);
   ("s", ["x_uni.s"; "x_uni.z"; "x_uni.sh"; "x_uni.zh"]);
   ("t", ["x_uni.t"; "x_uni.sh"; "x_uni.zh"]);
   ("v", ["x_uni.v"]);
   ("w", ["x_uni.w"]);
   ("x", ["x_uni.k"; "x_uni.s"; "x_uni.g"; "x_uni.z"; "x_uni.zh"; "x_uni.sh"]);
   ("y", ["x_uni.y"; "en.i"]);
   ("z", ["x_uni.z"; "x_uni.zh"; "x_uni.t"; "x_uni.s"])].
