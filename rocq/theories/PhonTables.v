(** The multilingual phoneme inventory and the table of its documentation.
    Generated by rocq/gen/genphon.py, do not edit. *)
From Coq Require Import String List NArith.
Import ListNotations.
Local Open Scope string_scope.
Local Open Scope list_scope.

(** nisaba/scripts/natural_translit/phonology/feature.py, lines 36-106: features with categories *)
Definition feature_table : list (string * string) :=
  [("silent", "pronunciation"); ("syllabic", "syllabicity"); ("nonsyllabic", "syllabicity"); ("pulmonic", "airstream"); ("nonpulmonic", "airstream"); ("central", "airflow"); ("lateral", "airflow"); ("nasal", "airflow"); ("aspirated", "release"); ("click", "release"); ("labial", "place"); ("nonlabial", "place"); ("bilabial", "place"); ("labiodental", "place"); ("dental", "place"); ("alveolar", "place"); ("postalveolar", "place"); ("palatal", "place"); ("retroflex", "place"); ("velar", "place"); ("uvular", "place"); ("pharyngeal", "place"); ("epiglottal", "place"); ("glottal", "place"); ("rhotic", "rhoticity"); ("sibilant", "amplitude"); ("nonsibilant", "amplitude"); ("vowel", "class"); ("stop", "manner"); ("fricative", "manner"); ("approximant", "manner"); ("flap", "manner"); ("trill", "manner"); ("voiceless", "voicing"); ("voiced", "voicing"); ("partially_voiced", "voicing"); ("devoiced", "voicing"); ("composite", "composite"); ("diphthong", "composite"); ("affricate", "composite"); ("coarticulated", "composite"); ("close", "height"); ("near_close", "height"); ("close_mid", "height"); ("mid", "height"); ("open_mid", "height"); ("near_open", "height"); ("open", "height"); ("front", "backness"); ("near_front", "backness"); ("center", "backness"); ("near_back", "backness"); ("back", "backness"); ("duration", "suprasegmental"); ("stress", "suprasegmental"); ("pitch", "suprasegmental"); ("contour", "suprasegmental"); ("intonation", "suprasegmental"); ("top", "degree"); ("high", "degree"); ("middle", "degree"); ("low", "degree"); ("bottom", "degree"); ("rising", "change"); ("falling", "change"); ("interrupt", "change")].

(** nisaba/scripts/natural_translit/phonology/phoneme_inventory.py: transcription, features, IPA, transliteration, alias (if given).  The rows of features of
    feature.py, lines 111-144, are written out *)
Definition base_row : Type := string * list string * list N * list string * string.

(** lines 40-40 *)
Definition silence : list base_row :=
  [("sil", ["silent"], []%N, ["DEL"], "")].

(** lines 42-55 *)
Definition standalone_feature : list base_row :=
  [("S", ["syllabic"], [781]%N, ["U"], "SYL");
   ("Z", ["nonsyllabic"], [815]%N, ["DEL"], "NSY");
   ("N", ["nasal"], [126]%N, ["N"], "NSL");
   ("L", ["lateral"], [737]%N, ["L"], "LAT");
   ("H", ["aspirated"], [688]%N, ["H"], "ASP");
   ("W", ["labial"], [695]%N, ["W"], "LBL");
   ("Y", ["palatal"], [690]%N, ["Y"], "PLT");
   ("G", ["velar"], [736]%N, ["G"], "VLR");
   ("C", ["pharyngeal"], [740]%N, ["H"], "PHR");
   ("X", ["glottal"], [704]%N, ["H"], "GLT");
   ("R", ["rhotic"], [734]%N, ["R"], "RHT");
   (".", ["interrupt"], [46]%N, ["DEL"], "SYB")].

(** lines 57-60 *)
Definition unassigned_vowel : list base_row :=
  [("_", ["vowel"], []%N, ["DEL"], "V_TNT");
   ("V", ["vowel"], []%N, ["DEL"], "V_PRN")].

(** lines 62-133 *)
Definition base_vowel : list base_row :=
  [("i", ["vowel"; "close"; "front"; "nonlabial"], [105]%N, ["I"], "");
   ("ui", ["vowel"; "close"; "front"; "labial"], [121]%N, ["U"], "");
   ("im", ["vowel"; "close"; "near_front"; "nonlabial"], [239]%N, ["I"], "");
   ("um", ["vowel"; "close"; "near_front"; "labial"], [255]%N, ["U"], "");
   ("ic", ["vowel"; "close"; "center"; "nonlabial"], [616]%N, ["I"], "");
   ("uc", ["vowel"; "close"; "center"; "labial"], [649]%N, ["U"], "");
   ("in", ["vowel"; "close"; "near_back"; "nonlabial"], [623; 776]%N, ["U"], "");
   ("un", ["vowel"; "close"; "near_back"; "labial"], [252]%N, ["U"], "");
   ("iu", ["vowel"; "close"; "back"; "nonlabial"], [623]%N, ["U"], "");
   ("u", ["vowel"; "close"; "back"; "labial"], [117]%N, ["U"], "");
   ("ie", ["vowel"; "near_close"; "front"; "nonlabial"], [105; 798]%N, ["I"], "");
   ("ue", ["vowel"; "near_close"; "front"; "labial"], [121; 798]%N, ["U"], "");
   ("iy", ["vowel"; "near_close"; "near_front"; "nonlabial"], [618]%N, ["I"], "");
   ("uy", ["vowel"; "near_close"; "near_front"; "labial"], [655]%N, ["U"], "");
   ("ix", ["vowel"; "near_close"; "center"; "nonlabial"], [618; 776]%N, ["U"], "");
   ("ux", ["vowel"; "near_close"; "center"; "labial"], [650; 776]%N, ["U"], "");
   ("iv", ["vowel"; "near_close"; "near_back"; "nonlabial"], [623; 829]%N, ["U"], "");
   ("uv", ["vowel"; "near_close"; "near_back"; "labial"], [650]%N, ["U"], "");
   ("io", ["vowel"; "near_close"; "back"; "nonlabial"], [623; 798]%N, ["U"], "");
   ("uo", ["vowel"; "near_close"; "back"; "labial"], [117; 798]%N, ["U"], "");
   ("e", ["vowel"; "close_mid"; "front"; "nonlabial"], [101]%N, ["E"], "");
   ("oi", ["vowel"; "close_mid"; "front"; "labial"], [248]%N, ["O"], "");
   ("ey", ["vowel"; "close_mid"; "near_front"; "nonlabial"], [101; 776]%N, ["E"], "");
   ("oy", ["vowel"; "close_mid"; "near_front"; "labial"], [248; 776]%N, ["O"], "");
   ("el", ["vowel"; "close_mid"; "center"; "nonlabial"], [600]%N, ["U"], "");
   ("ol", ["vowel"; "close_mid"; "center"; "labial"], [629]%N, ["O"], "");
   ("en", ["vowel"; "close_mid"; "near_back"; "nonlabial"], [612; 776]%N, ["U"], "");
   ("on", ["vowel"; "close_mid"; "near_back"; "labial"], [111; 776]%N, ["O"], "");
   ("eo", ["vowel"; "close_mid"; "back"; "nonlabial"], [612]%N, ["U"], "");
   ("o", ["vowel"; "close_mid"; "back"; "labial"], [111]%N, ["O"], "");
   ("ee", ["vowel"; "mid"; "front"; "nonlabial"], [101; 798]%N, ["E"], "");
   ("oee", ["vowel"; "mid"; "front"; "labial"], [248; 798]%N, ["O"], "");
   ("eem", ["vowel"; "mid"; "near_front"; "nonlabial"], [101; 829]%N, ["E"], "");
   ("oem", ["vowel"; "mid"; "near_front"; "labial"], [248; 829]%N, ["O"], "");
   ("ec", ["vowel"; "mid"; "center"; "nonlabial"], [601]%N, ["U"], "");
   ("oc", ["vowel"; "mid"; "center"; "labial"], [629; 798]%N, ["O"], "");
   ("aan", ["vowel"; "mid"; "near_back"; "nonlabial"], [612; 829]%N, ["U"], "");
   ("oon", ["vowel"; "mid"; "near_back"; "labial"], [111; 829]%N, ["O"], "");
   ("aa", ["vowel"; "mid"; "back"; "nonlabial"], [612; 798]%N, ["U"], "");
   ("oo", ["vowel"; "mid"; "back"; "labial"], [111; 798]%N, ["O"], "");
   ("eh", ["vowel"; "open_mid"; "front"; "nonlabial"], [603]%N, ["E"], "");
   ("oe", ["vowel"; "open_mid"; "front"; "labial"], [339]%N, ["O"], "");
   ("em", ["vowel"; "open_mid"; "near_front"; "nonlabial"], [603; 776]%N, ["E"], "");
   ("om", ["vowel"; "open_mid"; "near_front"; "labial"], [339; 776]%N, ["O"], "");
   ("ex", ["vowel"; "open_mid"; "center"; "nonlabial"], [604]%N, ["E"], "");
   ("ox", ["vowel"; "open_mid"; "center"; "labial"], [606]%N, ["O"], "");
   ("ahn", ["vowel"; "open_mid"; "near_back"; "nonlabial"], [652; 776]%N, ["A"], "");
   ("ohn", ["vowel"; "open_mid"; "near_back"; "labial"], [596; 776]%N, ["O"], "");
   ("ah", ["vowel"; "open_mid"; "back"; "nonlabial"], [652]%N, ["A"], "");
   ("oh", ["vowel"; "open_mid"; "back"; "labial"], [596]%N, ["O"], "");
   ("ae", ["vowel"; "near_open"; "front"; "nonlabial"], [230]%N, ["A"], "");
   ("oae", ["vowel"; "near_open"; "front"; "labial"], [339; 798]%N, ["O"], "");
   ("al", ["vowel"; "near_open"; "near_front"; "nonlabial"], [97; 829]%N, ["A"], "");
   ("oal", ["vowel"; "near_open"; "near_front"; "labial"], [630; 829]%N, ["O"], "");
   ("av", ["vowel"; "near_open"; "center"; "nonlabial"], [592]%N, ["A"], "");
   ("ov", ["vowel"; "near_open"; "center"; "labial"], [606; 798]%N, ["O"], "");
   ("arn", ["vowel"; "near_open"; "near_back"; "nonlabial"], [593; 829]%N, ["A"], "");
   ("orn", ["vowel"; "near_open"; "near_back"; "labial"], [594; 829]%N, ["O"], "");
   ("ar", ["vowel"; "near_open"; "back"; "nonlabial"], [652; 798]%N, ["A"], "");
   ("or", ["vowel"; "near_open"; "back"; "labial"], [596; 798]%N, ["O"], "");
   ("a", ["vowel"; "open"; "front"; "nonlabial"], [97]%N, ["A"], "");
   ("oa", ["vowel"; "open"; "front"; "labial"], [630]%N, ["O"], "");
   ("am", ["vowel"; "open"; "near_front"; "nonlabial"], [230; 798]%N, ["A"], "");
   ("oam", ["vowel"; "open"; "near_front"; "labial"], [630; 776]%N, ["O"], "");
   ("au", ["vowel"; "open"; "center"; "nonlabial"], [228]%N, ["A"], "");
   ("ou", ["vowel"; "open"; "center"; "labial"], [594; 776]%N, ["O"], "");
   ("awn", ["vowel"; "open"; "near_back"; "nonlabial"], [593; 776]%N, ["O"], "");
   ("own", ["vowel"; "open"; "near_back"; "labial"], [594; 776]%N, ["O"], "");
   ("aw", ["vowel"; "open"; "back"; "nonlabial"], [593]%N, ["O"], "");
   ("ow", ["vowel"; "open"; "back"; "labial"], [594]%N, ["O"], "")].

(** lines 138-148 *)
Definition voiced_nasal : list base_row :=
  [("m", ["nasal"; "stop"; "voiced"; "bilabial"], [109]%N, ["M"], "");
   ("mi", ["nasal"; "stop"; "voiced"; "labiodental"], [625]%N, ["M"], "");
   ("ni", ["nasal"; "stop"; "voiced"; "dental"], [110; 810]%N, ["N"], "");
   ("n", ["nasal"; "stop"; "voiced"; "alveolar"], [110]%N, ["N"], "");
   ("nx", ["nasal"; "stop"; "voiced"; "postalveolar"], [110; 800]%N, ["N"], "");
   ("nn", ["nasal"; "stop"; "voiced"; "retroflex"], [627]%N, ["N"], "");
   ("ny", ["nasal"; "stop"; "voiced"; "palatal"], [626]%N, ["S_NY"], "");
   ("ng", ["nasal"; "stop"; "voiced"; "velar"], [331]%N, ["S_NG"], "");
   ("nj", ["nasal"; "stop"; "voiced"; "uvular"], [628]%N, ["S_NG"], "")].

(** lines 154-166 *)
Definition voiceless_stop : list base_row :=
  [("p", ["stop"; "voiceless"; "bilabial"], [112]%N, ["P"], "");
   ("pi", ["stop"; "voiceless"; "labiodental"], [112; 810]%N, ["P"], "");
   ("ti", ["stop"; "voiceless"; "dental"], [116; 810]%N, ["T"], "");
   ("t", ["stop"; "voiceless"; "alveolar"], [116]%N, ["T"], "");
   ("tx", ["stop"; "voiceless"; "postalveolar"], [116; 800]%N, ["T"], "");
   ("tt", ["stop"; "voiceless"; "retroflex"], [648]%N, ["T"], "");
   ("ky", ["stop"; "voiceless"; "palatal"], [99]%N, ["K"; "Y"], "");
   ("k", ["stop"; "voiceless"; "velar"], [107]%N, ["K"], "");
   ("q", ["stop"; "voiceless"; "uvular"], [113]%N, ["K"], "");
   ("c", ["stop"; "voiceless"; "epiglottal"], [673]%N, ["K"], "");
   ("x", ["stop"; "voiceless"; "glottal"], [660]%N, ["T"], "")].

(** lines 168-178 *)
Definition voiced_stop : list base_row :=
  [("b", ["stop"; "voiced"; "bilabial"], [98]%N, ["B"], "");
   ("bi", ["stop"; "voiced"; "labiodental"], [98; 810]%N, ["B"], "");
   ("di", ["stop"; "voiced"; "dental"], [100; 810]%N, ["D"], "");
   ("d", ["stop"; "voiced"; "alveolar"], [100]%N, ["D"], "");
   ("dx", ["stop"; "voiced"; "postalveolar"], [100; 800]%N, ["D"], "");
   ("dd", ["stop"; "voiced"; "retroflex"], [598]%N, ["D"], "");
   ("gy", ["stop"; "voiced"; "palatal"], [607]%N, ["G"; "Y"], "");
   ("g", ["stop"; "voiced"; "velar"], [609]%N, ["G"], "");
   ("j", ["stop"; "voiced"; "uvular"], [610]%N, ["G"], "")].

(** lines 186-213 *)
Definition voiceless_fricative : list base_row :=
  [("si", ["fricative"; "sibilant"; "voiceless"; "dental"], [115; 810]%N, ["S"], "");
   ("s", ["fricative"; "sibilant"; "voiceless"; "alveolar"], [115]%N, ["S"], "");
   ("sh", ["fricative"; "sibilant"; "voiceless"; "postalveolar"], [643]%N, ["S_SH"], "");
   ("ss", ["fricative"; "sibilant"; "voiceless"; "retroflex"], [642]%N, ["S_SH"], "");
   ("sy", ["fricative"; "sibilant"; "voiceless"; "palatal"], [597]%N, ["S_SH"; "Y"], "");
   ("ph", ["fricative"; "nonsibilant"; "voiceless"; "bilabial"], [632]%N, ["F"], "");
   ("f", ["fricative"; "nonsibilant"; "voiceless"; "labiodental"], [102]%N, ["F"], "");
   ("th", ["fricative"; "nonsibilant"; "voiceless"; "dental"], [952]%N, ["S_TH"], "");
   ("sf", ["fricative"; "nonsibilant"; "voiceless"; "alveolar"], [952; 800]%N, ["S_SH"], "");
   ("sx", ["fricative"; "nonsibilant"; "voiceless"; "postalveolar"], [633; 800; 778; 724]%N, ["S_SH"], "");
   ("sr", ["fricative"; "nonsibilant"; "voiceless"; "retroflex"], [635; 724; 778]%N, ["S_SH"], "");
   ("hy", ["fricative"; "nonsibilant"; "voiceless"; "palatal"], [231]%N, ["S_SH"; "Y"], "");
   ("kh", ["fricative"; "nonsibilant"; "voiceless"; "velar"], [120]%N, ["H"], "");
   ("qh", ["fricative"; "nonsibilant"; "voiceless"; "uvular"], [967]%N, ["H"], "");
   ("ch", ["fricative"; "nonsibilant"; "voiceless"; "pharyngeal"], [295]%N, ["H"], "");
   ("h", ["fricative"; "nonsibilant"; "voiceless"; "glottal"], [104]%N, ["H"], "");
   ("svl", ["fricative"; "lateral"; "voiceless"; "dental"], [620; 810]%N, ["S_SH"], "");
   ("sl", ["fricative"; "lateral"; "voiceless"; "alveolar"], [620]%N, ["S_SH"], "");
   ("shl", ["fricative"; "lateral"; "voiceless"; "postalveolar"], [620]%N, ["S_SH"], "");
   ("ssl", ["fricative"; "lateral"; "voiceless"; "retroflex"], [42894]%N, ["S_SH"], "");
   ("sly", ["fricative"; "lateral"; "voiceless"; "palatal"], [122630]%N, ["S_SH"], "");
   ("khl", ["fricative"; "lateral"; "voiceless"; "velar"], [122628]%N, ["H"], "");
   ("qhl", ["fricative"; "lateral"; "voiceless"; "uvular"], [122628; 800]%N, ["H"], "");
   ("fy", ["fricative"; "nonsibilant"; "voiceless"; "palatal"; "labial"], [613; 778]%N, ["F"; "Y"], "");
   ("hw", ["fricative"; "nonsibilant"; "voiceless"; "velar"; "labial"], [653]%N, ["W"], "");
   ("sj", ["fricative"; "nonsibilant"; "voiceless"; "velar"; "labial"; "palatal"], [615]%N, ["W"], "")].

(** lines 215-239 *)
Definition voiced_fricative : list base_row :=
  [("zi", ["fricative"; "sibilant"; "voiced"; "dental"], [122; 810]%N, ["Z"], "");
   ("z", ["fricative"; "sibilant"; "voiced"; "alveolar"], [122]%N, ["Z"], "");
   ("zh", ["fricative"; "sibilant"; "voiced"; "postalveolar"], [658]%N, ["S_ZH"], "");
   ("zz", ["fricative"; "sibilant"; "voiced"; "retroflex"], [656]%N, ["S_ZH"], "");
   ("zy", ["fricative"; "sibilant"; "voiced"; "palatal"], [657]%N, ["S_ZH"; "Y"], "");
   ("bh", ["fricative"; "nonsibilant"; "voiced"; "bilabial"], [946]%N, ["V"], "");
   ("v", ["fricative"; "nonsibilant"; "voiced"; "labiodental"], [118]%N, ["V"], "");
   ("dh", ["fricative"; "nonsibilant"; "voiced"; "dental"], [240]%N, ["S_DH"], "");
   ("zv", ["fricative"; "nonsibilant"; "voiced"; "alveolar"], [240; 800]%N, ["S_ZH"], "");
   ("zx", ["fricative"; "nonsibilant"; "voiced"; "postalveolar"], [633; 800; 724]%N, ["S_ZH"], "");
   ("zr", ["fricative"; "nonsibilant"; "voiced"; "retroflex"], [635; 724]%N, ["S_ZH"], "");
   ("yy", ["fricative"; "nonsibilant"; "voiced"; "palatal"], [669]%N, ["S_ZH"; "Y"], "");
   ("gh", ["fricative"; "nonsibilant"; "voiced"; "velar"], [611]%N, ["W"], "");
   ("jh", ["fricative"; "nonsibilant"; "voiced"; "uvular"], [641]%N, ["W"], "");
   ("cha", ["fricative"; "nonsibilant"; "voiced"; "pharyngeal"], [661]%N, ["W"], "");
   ("ha", ["fricative"; "nonsibilant"; "voiced"; "glottal"], [614]%N, ["H"], "");
   ("zvl", ["fricative"; "lateral"; "voiced"; "dental"], [622; 810]%N, ["S_ZH"], "");
   ("zl", ["fricative"; "lateral"; "voiced"; "alveolar"], [622]%N, ["S_ZH"], "");
   ("zhl", ["fricative"; "lateral"; "voiced"; "postalveolar"], [622]%N, ["S_ZH"], "");
   ("zzl", ["fricative"; "lateral"; "voiced"; "retroflex"], [621; 724]%N, ["S_ZH"], "");
   ("zly", ["fricative"; "lateral"; "voiced"; "palatal"], [654; 797]%N, ["S_ZH"], "");
   ("ghl", ["fricative"; "lateral"; "voiced"; "velar"], [671; 797]%N, ["W"], "");
   ("jhl", ["fricative"; "lateral"; "voiced"; "uvular"], [671; 800; 797]%N, ["W"], "")].

(** lines 244-259 *)
Definition central_approximant : list base_row :=
  [("bu", ["approximant"; "voiced"; "bilabial"], [946; 798]%N, ["W"], "");
   ("vu", ["approximant"; "voiced"; "labiodental"], [651]%N, ["V"], "");
   ("du", ["approximant"; "voiced"; "dental"], [633; 810]%N, ["R"], "");
   ("ru", ["approximant"; "voiced"; "alveolar"], [633]%N, ["R"], "");
   ("rxu", ["approximant"; "voiced"; "postalveolar"], [633; 800]%N, ["R"], "");
   ("rru", ["approximant"; "voiced"; "retroflex"], [635]%N, ["R"], "");
   ("y", ["approximant"; "voiced"; "palatal"], [106]%N, ["Y"], "");
   ("gu", ["approximant"; "voiced"; "palatal"], [624]%N, ["W"], "");
   ("ju", ["approximant"; "voiced"; "uvular"], [641; 798]%N, ["W"], "");
   ("hhu", ["approximant"; "voiced"; "pharyngeal"], [673; 798]%N, ["H"], "");
   ("hu", ["approximant"; "voiced"; "glottal"], [660; 798]%N, ["H"], "");
   ("yw", ["approximant"; "voiced"; "palatal"; "labial"], [613]%N, ["W"; "Y"], "");
   ("wy", ["approximant"; "voiced"; "velar"; "labial"; "palatal"], [613; 772]%N, ["W"; "Y"], "");
   ("w", ["approximant"; "voiced"; "velar"; "labial"], [119]%N, ["W"], "")].

(** lines 261-270 *)
Definition lateral_approximant : list base_row :=
  [("lv", ["approximant"; "voiced"; "lateral"; "dental"], [108; 810]%N, ["L"], "");
   ("l", ["approximant"; "voiced"; "lateral"; "alveolar"], [108]%N, ["L"], "");
   ("lx", ["approximant"; "voiced"; "lateral"; "postalveolar"], [108; 800]%N, ["L"], "");
   ("ll", ["approximant"; "voiced"; "lateral"; "retroflex"], [621]%N, ["L"], "");
   ("ly", ["approximant"; "voiced"; "lateral"; "palatal"], [654]%N, ["L"; "Y"], "");
   ("lg", ["approximant"; "voiced"; "lateral"; "velar"], [671]%N, ["W"], "");
   ("lj", ["approximant"; "voiced"; "lateral"; "uvular"], [671; 800]%N, ["W"], "");
   ("lw", ["approximant"; "voiced"; "lateral"; "velar"; "labial"], [619]%N, ["W"], "")].

(** lines 274-286 *)
Definition voiced_flap : list base_row :=
  [("bt", ["flap"; "voiced"; "bilabial"], [11377; 799]%N, ["B"], "");
   ("vt", ["flap"; "voiced"; "labiodental"], [11377]%N, ["V"], "");
   ("vr", ["flap"; "voiced"; "dental"], [638; 810]%N, ["R"], "");
   ("rt", ["flap"; "voiced"; "alveolar"], [638]%N, ["R"], "");
   ("xr", ["flap"; "voiced"; "postalveolar"], [638; 800]%N, ["R"], "");
   ("rd", ["flap"; "voiced"; "retroflex"], [637]%N, ["S_RD"], "");
   ("ht", ["flap"; "voiced"; "pharyngeal"], [673; 774]%N, ["H"], "");
   ("vl", ["flap"; "voiced"; "dental"; "lateral"], [634; 810]%N, ["R"], "");
   ("rl", ["flap"; "voiced"; "alveolar"; "lateral"], [634]%N, ["R"], "");
   ("xl", ["flap"; "voiced"; "postalveolar"; "lateral"], [634; 800]%N, ["R"], "");
   ("lr", ["flap"; "voiced"; "retroflex"; "lateral"], [122632]%N, ["R"], "")].

(** lines 291-300 *)
Definition voiced_trill : list base_row :=
  [("bb", ["trill"; "voiced"; "bilabial"], [665]%N, ["B"], "");
   ("vv", ["trill"; "voiced"; "labiodental"], [11377; 798]%N, ["V"], "");
   ("rv", ["trill"; "voiced"; "dental"], [114; 810]%N, ["R"], "");
   ("r", ["trill"; "voiced"; "alveolar"], [114]%N, ["R"], "");
   ("rx", ["trill"; "voiced"; "postalveolar"], [114; 800]%N, ["R"], "");
   ("rr", ["trill"; "voiced"; "retroflex"], [637; 114]%N, ["R"], "");
   ("rj", ["trill"; "voiced"; "uvular"], [640]%N, ["R"], "");
   ("hh", ["trill"; "voiced"; "epiglottal"], [674]%N, ["H"], "")].

(** lines 305-312 *)
Definition click_release : list base_row :=
  [("pk", ["click"; "nonpulmonic"; "bilabial"], [664]%N, ["P"], "");
   ("ck", ["click"; "nonpulmonic"; "dental"], [448]%N, ["C"], "");
   ("lk", ["click"; "nonpulmonic"; "alveolar"; "lateral"], [449]%N, ["X"], "");
   ("tk", ["click"; "nonpulmonic"; "alveolar"], [451]%N, ["Q"], "");
   ("yk", ["click"; "nonpulmonic"; "palatal"], [450]%N, ["T"], "");
   ("rk", ["click"; "nonpulmonic"; "retroflex"], [122634]%N, ["Q"], "")].

(** nisaba/scripts/natural_translit/phonology/modify_phon.py: alias, transcription, features, IPA *)
Definition mod_row : Type := string * string * list string * list N.

(** lines 40-40 *)
Definition combiner : list mod_row :=
  [("CMB", "+", ["composite"], [865]%N)].

(** lines 42-50 *)
Definition modifier_feature : list mod_row :=
  [("DVC", "o", ["devoiced"], [805]%N);
   ("NPL", "e", ["nonpulmonic"], [96]%N);
   ("DUR", ":", ["duration"], [720]%N);
   ("STR", "*", ["stress"], []%N);
   ("TPT", "^", ["pitch"], []%N);
   ("TCN", "&", ["contour"], []%N);
   ("INT", "!", ["intonation"], []%N)].

(** lines 53-62 *)
Definition feature_qualifier : list mod_row :=
  [("TOP", "t", ["top"], []%N);
   ("HGH", "h", ["high"], []%N);
   ("MDL", "m", ["middle"], []%N);
   ("LOW", "w", ["low"], []%N);
   ("BTM", "b", ["bottom"], []%N);
   ("RSN", "r", ["rising"], []%N);
   ("FLN", "f", ["falling"], []%N);
   ("TRP", "k", ["interrupt"], []%N)].

(** qualifiers with IPA *)
(** nisaba/scripts/natural_translit/phonology/modify_phon.py, lines 69-74 *)
Definition duration_table : list (string * list N) :=
  [("BTM", [774]%N); ("MDL", [721]%N); ("HGH", [720]%N); ("TOP", [720; 720]%N)].

(** nisaba/scripts/natural_translit/phonology/phoneme_inventory.py, lines 339-342 *)
Definition stress_table : list (string * list N) :=
  [("HGH", [712]%N); ("MDL", [716]%N)].

(** nisaba/scripts/natural_translit/phonology/phoneme_inventory.py, lines 344-350 *)
Definition pitch_table : list (string * list N) :=
  [("TOP", [779]%N); ("HGH", [769]%N); ("MDL", [772]%N); ("LOW", [768]%N); ("BTM", [783]%N)].

(** nisaba/scripts/natural_translit/phonology/phoneme_inventory.py, lines 352-355 *)
Definition contour_table : list (string * list N) :=
  [("RSN", [780]%N); ("FLN", [770]%N)].

(** nisaba/scripts/natural_translit/phonology/phoneme_inventory.py, lines 357-361 *)
Definition intonation_table : list (string * list N) :=
  [("RSN", [8599; 65038]%N); ("FLN", [8600; 65038]%N); ("TRP", [124]%N)].

(** nisaba/scripts/natural_translit/phonology/docs/phon_table.md: alias, transcription, ph without braces, IPA without backquotes, features *)
Definition phon_table : list (string * string * list string * list N * list string) :=
  [("SIL", "sil", ["sil"], []%N, ["silent"]);
   ("SYL", "S", ["S"], [781]%N, ["syllabic"]);
   ("NSY", "Z", ["Z"], [815]%N, ["nonsyllabic"]);
   ("NSL", "N", ["N"], [126]%N, ["nasal"]);
   ("LAT", "L", ["L"], [737]%N, ["lateral"]);
   ("ASP", "H", ["H"], [688]%N, ["aspirated"]);
   ("LBL", "W", ["W"], [695]%N, ["labial"]);
   ("PLT", "Y", ["Y"], [690]%N, ["palatal"]);
   ("VLR", "G", ["G"], [736]%N, ["velar"]);
   ("PHR", "C", ["C"], [740]%N, ["pharyngeal"]);
   ("GLT", "X", ["X"], [704]%N, ["glottal"]);
   ("RHT", "R", ["R"], [734]%N, ["rhotic"]);
   ("SYB", ".", ["."], [46]%N, ["interrupt"]);
   ("V_TNT", "_", ["_"], []%N, ["vowel"]);
   ("V_PRN", "V", ["V"], []%N, ["vowel"]);
   ("I", "i", ["i"], [105]%N, ["vowel"; "close"; "front"; "nonlabial"]);
   ("UI", "ui", ["ui"], [121]%N, ["vowel"; "close"; "front"; "labial"]);
   ("IM", "im", ["im"], [239]%N, ["vowel"; "close"; "near_front"; "nonlabial"]);
   ("UM", "um", ["um"], [255]%N, ["vowel"; "close"; "near_front"; "labial"]);
   ("IC", "ic", ["ic"], [616]%N, ["vowel"; "close"; "center"; "nonlabial"]);
   ("UC", "uc", ["uc"], [649]%N, ["vowel"; "close"; "center"; "labial"]);
   ("IN", "in", ["in"], [623; 776]%N, ["vowel"; "close"; "near_back"; "nonlabial"]);
   ("UN", "un", ["un"], [252]%N, ["vowel"; "close"; "near_back"; "labial"]);
   ("IU", "iu", ["iu"], [623]%N, ["vowel"; "close"; "back"; "nonlabial"]);
   ("U", "u", ["u"], [117]%N, ["vowel"; "close"; "back"; "labial"]);
   ("IE", "ie", ["ie"], [105; 798]%N, ["vowel"; "near_close"; "front"; "nonlabial"]);
   ("UE", "ue", ["ue"], [121; 798]%N, ["vowel"; "near_close"; "front"; "labial"]);
   ("IY", "iy", ["iy"], [618]%N, ["vowel"; "near_close"; "near_front"; "nonlabial"]);
   ("UY", "uy", ["uy"], [655]%N, ["vowel"; "near_close"; "near_front"; "labial"]);
   ("IX", "ix", ["ix"], [618; 776]%N, ["vowel"; "near_close"; "center"; "nonlabial"]);
   ("UX", "ux", ["ux"], [650; 776]%N, ["vowel"; "near_close"; "center"; "labial"]);
   ("IV", "iv", ["iv"], [623; 829]%N, ["vowel"; "near_close"; "near_back"; "nonlabial"]);
   ("UV", "uv", ["uv"], [650]%N, ["vowel"; "near_close"; "near_back"; "labial"]);
   ("IO", "io", ["io"], [623; 798]%N, ["vowel"; "near_close"; "back"; "nonlabial"]);
   ("UO", "uo", ["uo"], [117; 798]%N, ["vowel"; "near_close"; "back"; "labial"]);
   ("E", "e", ["e"], [101]%N, ["vowel"; "close_mid"; "front"; "nonlabial"]);
   ("OI", "oi", ["oi"], [248]%N, ["vowel"; "close_mid"; "front"; "labial"]);
   ("EY", "ey", ["ey"], [101; 776]%N, ["vowel"; "close_mid"; "near_front"; "nonlabial"]);
   ("OY", "oy", ["oy"], [248; 776]%N, ["vowel"; "close_mid"; "near_front"; "labial"]);
   ("EL", "el", ["el"], [600]%N, ["vowel"; "close_mid"; "center"; "nonlabial"]);
   ("OL", "ol", ["ol"], [629]%N, ["vowel"; "close_mid"; "center"; "labial"]);
   ("EN", "en", ["en"], [612; 776]%N, ["vowel"; "close_mid"; "near_back"; "nonlabial"]);
   ("ON", "on", ["on"], [111; 776]%N, ["vowel"; "close_mid"; "near_back"; "labial"]);
   ("EO", "eo", ["eo"], [612]%N, ["vowel"; "close_mid"; "back"; "nonlabial"]);
   ("O", "o", ["o"], [111]%N, ["vowel"; "close_mid"; "back"; "labial"]);
   ("EE", "ee", ["ee"], [101; 798]%N, ["vowel"; "mid"; "front"; "nonlabial"]);
   ("OEE", "oee", ["oee"], [248; 798]%N, ["vowel"; "mid"; "front"; "labial"]);
   ("EEM", "eem", ["eem"], [101; 829]%N, ["vowel"; "mid"; "near_front"; "nonlabial"]);
   ("OEM", "oem", ["oem"], [248; 829]%N, ["vowel"; "mid"; "near_front"; "labial"]);
   ("EC", "ec", ["ec"], [601]%N, ["vowel"; "mid"; "center"; "nonlabial"]);
   ("OC", "oc", ["oc"], [629; 798]%N, ["vowel"; "mid"; "center"; "labial"]);
   ("AAN", "aan", ["aan"], [612; 829]%N, ["vowel"; "mid"; "near_back"; "nonlabial"]);
   ("OON", "oon", ["oon"], [111; 829]%N, ["vowel"; "mid"; "near_back"; "labial"]);
   ("AA", "aa", ["aa"], [612; 798]%N, ["vowel"; "mid"; "back"; "nonlabial"]);
   ("OO", "oo", ["oo"], [111; 798]%N, ["vowel"; "mid"; "back"; "labial"]);
   ("EH", "eh", ["eh"], [603]%N, ["vowel"; "open_mid"; "front"; "nonlabial"]);
   ("OE", "oe", ["oe"], [339]%N, ["vowel"; "open_mid"; "front"; "labial"]);
   ("EM", "em", ["em"], [603; 776]%N, ["vowel"; "open_mid"; "near_front"; "nonlabial"]);
   ("OM", "om", ["om"], [339; 776]%N, ["vowel"; "open_mid"; "near_front"; "labial"]);
   ("EX", "ex", ["ex"], [604]%N, ["vowel"; "open_mid"; "center"; "nonlabial"]);
   ("OX", "ox", ["ox"], [606]%N, ["vowel"; "open_mid"; "center"; "labial"]);
   ("AHN", "ahn", ["ahn"], [652; 776]%N, ["vowel"; "open_mid"; "near_back"; "nonlabial"]);
   ("OHN", "ohn", ["ohn"], [596; 776]%N, ["vowel"; "open_mid"; "near_back"; "labial"]);
   ("AH", "ah", ["ah"], [652]%N, ["vowel"; "open_mid"; "back"; "nonlabial"]);
   ("OH", "oh", ["oh"], [596]%N, ["vowel"; "open_mid"; "back"; "labial"]);
   ("AE", "ae", ["ae"], [230]%N, ["vowel"; "near_open"; "front"; "nonlabial"]);
   ("OAE", "oae", ["oae"], [339; 798]%N, ["vowel"; "near_open"; "front"; "labial"]);
   ("AL", "al", ["al"], [97; 829]%N, ["vowel"; "near_open"; "near_front"; "nonlabial"]);
   ("OAL", "oal", ["oal"], [630; 829]%N, ["vowel"; "near_open"; "near_front"; "labial"]);
   ("AV", "av", ["av"], [592]%N, ["vowel"; "near_open"; "center"; "nonlabial"]);
   ("OV", "ov", ["ov"], [606; 798]%N, ["vowel"; "near_open"; "center"; "labial"]);
   ("ARN", "arn", ["arn"], [593; 829]%N, ["vowel"; "near_open"; "near_back"; "nonlabial"]);
   ("ORN", "orn", ["orn"], [594; 829]%N, ["vowel"; "near_open"; "near_back"; "labial"]);
   ("AR", "ar", ["ar"], [652; 798]%N, ["vowel"; "near_open"; "back"; "nonlabial"]);
   ("OR", "or", ["or"], [596; 798]%N, ["vowel"; "near_open"; "back"; "labial"]);
   ("A", "a", ["a"], [97]%N, ["vowel"; "open"; "front"; "nonlabial"]);
   ("OA", "oa", ["oa"], [630]%N, ["vowel"; "open"; "front"; "labial"]);
   ("AM", "am", ["am"], [230; 798]%N, ["vowel"; "open"; "near_front"; "nonlabial"]);
   ("OAM", "oam", ["oam"], [630; 776]%N, ["vowel"; "open"; "near_front"; "labial"]);
   ("AU", "au", ["au"], [228]%N, ["vowel"; "open"; "center"; "nonlabial"]);
   ("OU", "ou", ["ou"], [594; 776]%N, ["vowel"; "open"; "center"; "labial"]);
   ("AWN", "awn", ["awn"], [593; 776]%N, ["vowel"; "open"; "near_back"; "nonlabial"]);
   ("OWN", "own", ["own"], [594; 776]%N, ["vowel"; "open"; "near_back"; "labial"]);
   ("AW", "aw", ["aw"], [593]%N, ["vowel"; "open"; "back"; "nonlabial"]);
   ("OW", "ow", ["ow"], [594]%N, ["vowel"; "open"; "back"; "labial"]);
   ("A_I", "a+i", ["a"; "+"; "i"], [97; 865; 105]%N, ["diphthong"; "vowel"; "open"; "front"; "nonlabial"; "vowel"; "close"; "front"; "nonlabial"]);
   ("A_U", "a+u", ["a"; "+"; "u"], [97; 865; 117]%N, ["diphthong"; "vowel"; "open"; "front"; "nonlabial"; "vowel"; "close"; "back"; "labial"]);
   ("M", "m", ["m"], [109]%N, ["nasal"; "stop"; "voiced"; "bilabial"]);
   ("MI", "mi", ["mi"], [625]%N, ["nasal"; "stop"; "voiced"; "labiodental"]);
   ("NI", "ni", ["ni"], [110; 810]%N, ["nasal"; "stop"; "voiced"; "dental"]);
   ("N", "n", ["n"], [110]%N, ["nasal"; "stop"; "voiced"; "alveolar"]);
   ("NX", "nx", ["nx"], [110; 800]%N, ["nasal"; "stop"; "voiced"; "postalveolar"]);
   ("NN", "nn", ["nn"], [627]%N, ["nasal"; "stop"; "voiced"; "retroflex"]);
   ("NY", "ny", ["ny"], [626]%N, ["nasal"; "stop"; "voiced"; "palatal"]);
   ("NG", "ng", ["ng"], [331]%N, ["nasal"; "stop"; "voiced"; "velar"]);
   ("NJ", "nj", ["nj"], [628]%N, ["nasal"; "stop"; "voiced"; "uvular"]);
   ("MO", "mo", ["mo"], [109; 805]%N, ["nasal"; "stop"; "bilabial"; "devoiced"]);
   ("MIO", "mio", ["mio"], [625; 805]%N, ["nasal"; "stop"; "labiodental"; "devoiced"]);
   ("NIO", "nio", ["nio"], [110; 810; 805]%N, ["nasal"; "stop"; "dental"; "devoiced"]);
   ("NO", "no", ["no"], [110; 805]%N, ["nasal"; "stop"; "alveolar"; "devoiced"]);
   ("NXO", "nxo", ["nxo"], [110; 800; 805]%N, ["nasal"; "stop"; "postalveolar"; "devoiced"]);
   ("NNO", "nno", ["nno"], [627; 805]%N, ["nasal"; "stop"; "retroflex"; "devoiced"]);
   ("NYO", "nyo", ["nyo"], [626; 805]%N, ["nasal"; "stop"; "palatal"; "devoiced"]);
   ("NGO", "ngo", ["ngo"], [331; 805]%N, ["nasal"; "stop"; "velar"; "devoiced"]);
   ("NJO", "njo", ["njo"], [628; 805]%N, ["nasal"; "stop"; "uvular"; "devoiced"]);
   ("P", "p", ["p"], [112]%N, ["stop"; "voiceless"; "bilabial"]);
   ("PI", "pi", ["pi"], [112; 810]%N, ["stop"; "voiceless"; "labiodental"]);
   ("TI", "ti", ["ti"], [116; 810]%N, ["stop"; "voiceless"; "dental"]);
   ("T", "t", ["t"], [116]%N, ["stop"; "voiceless"; "alveolar"]);
   ("TX", "tx", ["tx"], [116; 800]%N, ["stop"; "voiceless"; "postalveolar"]);
   ("TT", "tt", ["tt"], [648]%N, ["stop"; "voiceless"; "retroflex"]);
   ("KY", "ky", ["ky"], [99]%N, ["stop"; "voiceless"; "palatal"]);
   ("K", "k", ["k"], [107]%N, ["stop"; "voiceless"; "velar"]);
   ("Q", "q", ["q"], [113]%N, ["stop"; "voiceless"; "uvular"]);
   ("C", "c", ["c"], [673]%N, ["stop"; "voiceless"; "epiglottal"]);
   ("X", "x", ["x"], [660]%N, ["stop"; "voiceless"; "glottal"]);
   ("B", "b", ["b"], [98]%N, ["stop"; "voiced"; "bilabial"]);
   ("BI", "bi", ["bi"], [98; 810]%N, ["stop"; "voiced"; "labiodental"]);
   ("DI", "di", ["di"], [100; 810]%N, ["stop"; "voiced"; "dental"]);
   ("D", "d", ["d"], [100]%N, ["stop"; "voiced"; "alveolar"]);
   ("DX", "dx", ["dx"], [100; 800]%N, ["stop"; "voiced"; "postalveolar"]);
   ("DD", "dd", ["dd"], [598]%N, ["stop"; "voiced"; "retroflex"]);
   ("GY", "gy", ["gy"], [607]%N, ["stop"; "voiced"; "palatal"]);
   ("G", "g", ["g"], [609]%N, ["stop"; "voiced"; "velar"]);
   ("J", "j", ["j"], [610]%N, ["stop"; "voiced"; "uvular"]);
   ("PE", "pe", ["pe"], [112; 96]%N, ["stop"; "voiceless"; "bilabial"; "nonpulmonic"]);
   ("PIE", "pie", ["pie"], [112; 810; 96]%N, ["stop"; "voiceless"; "labiodental"; "nonpulmonic"]);
   ("TIE", "tie", ["tie"], [116; 810; 96]%N, ["stop"; "voiceless"; "dental"; "nonpulmonic"]);
   ("TE", "te", ["te"], [116; 96]%N, ["stop"; "voiceless"; "alveolar"; "nonpulmonic"]);
   ("TXE", "txe", ["txe"], [116; 800; 96]%N, ["stop"; "voiceless"; "postalveolar"; "nonpulmonic"]);
   ("TTE", "tte", ["tte"], [648; 96]%N, ["stop"; "voiceless"; "retroflex"; "nonpulmonic"]);
   ("KYE", "kye", ["kye"], [99; 96]%N, ["stop"; "voiceless"; "palatal"; "nonpulmonic"]);
   ("KE", "ke", ["ke"], [107; 96]%N, ["stop"; "voiceless"; "velar"; "nonpulmonic"]);
   ("QE", "qe", ["qe"], [113; 96]%N, ["stop"; "voiceless"; "uvular"; "nonpulmonic"]);
   ("CE", "ce", ["ce"], [673; 96]%N, ["stop"; "voiceless"; "epiglottal"; "nonpulmonic"]);
   ("XE", "xe", ["xe"], [660; 96]%N, ["stop"; "voiceless"; "glottal"; "nonpulmonic"]);
   ("BE", "be", ["be"], [98; 96]%N, ["stop"; "voiced"; "bilabial"; "nonpulmonic"]);
   ("BIE", "bie", ["bie"], [98; 810; 96]%N, ["stop"; "voiced"; "labiodental"; "nonpulmonic"]);
   ("DIE", "die", ["die"], [100; 810; 96]%N, ["stop"; "voiced"; "dental"; "nonpulmonic"]);
   ("DE", "de", ["de"], [100; 96]%N, ["stop"; "voiced"; "alveolar"; "nonpulmonic"]);
   ("DXE", "dxe", ["dxe"], [100; 800; 96]%N, ["stop"; "voiced"; "postalveolar"; "nonpulmonic"]);
   ("DDE", "dde", ["dde"], [598; 96]%N, ["stop"; "voiced"; "retroflex"; "nonpulmonic"]);
   ("GYE", "gye", ["gye"], [607; 96]%N, ["stop"; "voiced"; "palatal"; "nonpulmonic"]);
   ("GE", "ge", ["ge"], [609; 96]%N, ["stop"; "voiced"; "velar"; "nonpulmonic"]);
   ("JE", "je", ["je"], [610; 96]%N, ["stop"; "voiced"; "uvular"; "nonpulmonic"]);
   ("BEO", "beo", ["beo"], [98; 96; 805]%N, ["stop"; "bilabial"; "nonpulmonic"; "devoiced"]);
   ("BIEO", "bieo", ["bieo"], [98; 810; 96; 805]%N, ["stop"; "labiodental"; "nonpulmonic"; "devoiced"]);
   ("DIEO", "dieo", ["dieo"], [100; 810; 96; 805]%N, ["stop"; "dental"; "nonpulmonic"; "devoiced"]);
   ("DEO", "deo", ["deo"], [100; 96; 805]%N, ["stop"; "alveolar"; "nonpulmonic"; "devoiced"]);
   ("DXEO", "dxeo", ["dxeo"], [100; 800; 96; 805]%N, ["stop"; "postalveolar"; "nonpulmonic"; "devoiced"]);
   ("DDEO", "ddeo", ["ddeo"], [598; 96; 805]%N, ["stop"; "retroflex"; "nonpulmonic"; "devoiced"]);
   ("GYEO", "gyeo", ["gyeo"], [607; 96; 805]%N, ["stop"; "palatal"; "nonpulmonic"; "devoiced"]);
   ("GEO", "geo", ["geo"], [609; 96; 805]%N, ["stop"; "velar"; "nonpulmonic"; "devoiced"]);
   ("JEO", "jeo", ["jeo"], [610; 96; 805]%N, ["stop"; "uvular"; "nonpulmonic"; "devoiced"]);
   ("PK", "pk", ["pk"], [664]%N, ["click"; "nonpulmonic"; "bilabial"]);
   ("CK", "ck", ["ck"], [448]%N, ["click"; "nonpulmonic"; "dental"]);
   ("LK", "lk", ["lk"], [449]%N, ["click"; "nonpulmonic"; "alveolar"; "lateral"]);
   ("TK", "tk", ["tk"], [451]%N, ["click"; "nonpulmonic"; "alveolar"]);
   ("YK", "yk", ["yk"], [450]%N, ["click"; "nonpulmonic"; "palatal"]);
   ("RK", "rk", ["rk"], [122634]%N, ["click"; "nonpulmonic"; "retroflex"]);
   ("SI", "si", ["si"], [115; 810]%N, ["fricative"; "sibilant"; "voiceless"; "dental"]);
   ("S", "s", ["s"], [115]%N, ["fricative"; "sibilant"; "voiceless"; "alveolar"]);
   ("SH", "sh", ["sh"], [643]%N, ["fricative"; "sibilant"; "voiceless"; "postalveolar"]);
   ("SS", "ss", ["ss"], [642]%N, ["fricative"; "sibilant"; "voiceless"; "retroflex"]);
   ("SY", "sy", ["sy"], [597]%N, ["fricative"; "sibilant"; "voiceless"; "palatal"]);
   ("PH", "ph", ["ph"], [632]%N, ["fricative"; "nonsibilant"; "voiceless"; "bilabial"]);
   ("F", "f", ["f"], [102]%N, ["fricative"; "nonsibilant"; "voiceless"; "labiodental"]);
   ("TH", "th", ["th"], [952]%N, ["fricative"; "nonsibilant"; "voiceless"; "dental"]);
   ("SF", "sf", ["sf"], [952; 800]%N, ["fricative"; "nonsibilant"; "voiceless"; "alveolar"]);
   ("SX", "sx", ["sx"], [633; 800; 778; 724]%N, ["fricative"; "nonsibilant"; "voiceless"; "postalveolar"]);
   ("SR", "sr", ["sr"], [635; 724; 778]%N, ["fricative"; "nonsibilant"; "voiceless"; "retroflex"]);
   ("HY", "hy", ["hy"], [231]%N, ["fricative"; "nonsibilant"; "voiceless"; "palatal"]);
   ("KH", "kh", ["kh"], [120]%N, ["fricative"; "nonsibilant"; "voiceless"; "velar"]);
   ("QH", "qh", ["qh"], [967]%N, ["fricative"; "nonsibilant"; "voiceless"; "uvular"]);
   ("CH", "ch", ["ch"], [295]%N, ["fricative"; "nonsibilant"; "voiceless"; "pharyngeal"]);
   ("H", "h", ["h"], [104]%N, ["fricative"; "nonsibilant"; "voiceless"; "glottal"]);
   ("SVL", "svl", ["svl"], [620; 810]%N, ["fricative"; "lateral"; "voiceless"; "dental"]);
   ("SL", "sl", ["sl"], [620]%N, ["fricative"; "lateral"; "voiceless"; "alveolar"]);
   ("SHL", "shl", ["shl"], [620]%N, ["fricative"; "lateral"; "voiceless"; "postalveolar"]);
   ("SSL", "ssl", ["ssl"], [42894]%N, ["fricative"; "lateral"; "voiceless"; "retroflex"]);
   ("SLY", "sly", ["sly"], [122630]%N, ["fricative"; "lateral"; "voiceless"; "palatal"]);
   ("KHL", "khl", ["khl"], [122628]%N, ["fricative"; "lateral"; "voiceless"; "velar"]);
   ("QHL", "qhl", ["qhl"], [122628; 800]%N, ["fricative"; "lateral"; "voiceless"; "uvular"]);
   ("FY", "fy", ["fy"], [613; 778]%N, ["fricative"; "nonsibilant"; "voiceless"; "palatal"; "labial"]);
   ("HW", "hw", ["hw"], [653]%N, ["fricative"; "nonsibilant"; "voiceless"; "velar"; "labial"]);
   ("SJ", "sj", ["sj"], [615]%N, ["fricative"; "nonsibilant"; "voiceless"; "velar"; "labial"; "palatal"]);
   ("ZI", "zi", ["zi"], [122; 810]%N, ["fricative"; "sibilant"; "voiced"; "dental"]);
   ("Z", "z", ["z"], [122]%N, ["fricative"; "sibilant"; "voiced"; "alveolar"]);
   ("ZH", "zh", ["zh"], [658]%N, ["fricative"; "sibilant"; "voiced"; "postalveolar"]);
   ("ZZ", "zz", ["zz"], [656]%N, ["fricative"; "sibilant"; "voiced"; "retroflex"]);
   ("ZY", "zy", ["zy"], [657]%N, ["fricative"; "sibilant"; "voiced"; "palatal"]);
   ("BH", "bh", ["bh"], [946]%N, ["fricative"; "nonsibilant"; "voiced"; "bilabial"]);
   ("V", "v", ["v"], [118]%N, ["fricative"; "nonsibilant"; "voiced"; "labiodental"]);
   ("DH", "dh", ["dh"], [240]%N, ["fricative"; "nonsibilant"; "voiced"; "dental"]);
   ("ZV", "zv", ["zv"], [240; 800]%N, ["fricative"; "nonsibilant"; "voiced"; "alveolar"]);
   ("ZX", "zx", ["zx"], [633; 800; 724]%N, ["fricative"; "nonsibilant"; "voiced"; "postalveolar"]);
   ("ZR", "zr", ["zr"], [635; 724]%N, ["fricative"; "nonsibilant"; "voiced"; "retroflex"]);
   ("YY", "yy", ["yy"], [669]%N, ["fricative"; "nonsibilant"; "voiced"; "palatal"]);
   ("GH", "gh", ["gh"], [611]%N, ["fricative"; "nonsibilant"; "voiced"; "velar"]);
   ("JH", "jh", ["jh"], [641]%N, ["fricative"; "nonsibilant"; "voiced"; "uvular"]);
   ("CHA", "cha", ["cha"], [661]%N, ["fricative"; "nonsibilant"; "voiced"; "pharyngeal"]);
   ("HA", "ha", ["ha"], [614]%N, ["fricative"; "nonsibilant"; "voiced"; "glottal"]);
   ("ZVL", "zvl", ["zvl"], [622; 810]%N, ["fricative"; "lateral"; "voiced"; "dental"]);
   ("ZL", "zl", ["zl"], [622]%N, ["fricative"; "lateral"; "voiced"; "alveolar"]);
   ("ZHL", "zhl", ["zhl"], [622]%N, ["fricative"; "lateral"; "voiced"; "postalveolar"]);
   ("ZZL", "zzl", ["zzl"], [621; 724]%N, ["fricative"; "lateral"; "voiced"; "retroflex"]);
   ("ZLY", "zly", ["zly"], [654; 797]%N, ["fricative"; "lateral"; "voiced"; "palatal"]);
   ("GHL", "ghl", ["ghl"], [671; 797]%N, ["fricative"; "lateral"; "voiced"; "velar"]);
   ("JHL", "jhl", ["jhl"], [671; 800; 797]%N, ["fricative"; "lateral"; "voiced"; "uvular"]);
   ("SIE", "sie", ["sie"], [115; 810; 96]%N, ["fricative"; "sibilant"; "voiceless"; "dental"; "nonpulmonic"]);
   ("SE", "se", ["se"], [115; 96]%N, ["fricative"; "sibilant"; "voiceless"; "alveolar"; "nonpulmonic"]);
   ("SHE", "she", ["she"], [643; 96]%N, ["fricative"; "sibilant"; "voiceless"; "postalveolar"; "nonpulmonic"]);
   ("SSE", "sse", ["sse"], [642; 96]%N, ["fricative"; "sibilant"; "voiceless"; "retroflex"; "nonpulmonic"]);
   ("SYE", "sye", ["sye"], [597; 96]%N, ["fricative"; "sibilant"; "voiceless"; "palatal"; "nonpulmonic"]);
   ("PHE", "phe", ["phe"], [632; 96]%N, ["fricative"; "nonsibilant"; "voiceless"; "bilabial"; "nonpulmonic"]);
   ("FE", "fe", ["fe"], [102; 96]%N, ["fricative"; "nonsibilant"; "voiceless"; "labiodental"; "nonpulmonic"]);
   ("THE", "the", ["the"], [952; 96]%N, ["fricative"; "nonsibilant"; "voiceless"; "dental"; "nonpulmonic"]);
   ("SFE", "sfe", ["sfe"], [952; 800; 96]%N, ["fricative"; "nonsibilant"; "voiceless"; "alveolar"; "nonpulmonic"]);
   ("SXE", "sxe", ["sxe"], [633; 800; 778; 724; 96]%N, ["fricative"; "nonsibilant"; "voiceless"; "postalveolar"; "nonpulmonic"]);
   ("SRE", "sre", ["sre"], [635; 724; 778; 96]%N, ["fricative"; "nonsibilant"; "voiceless"; "retroflex"; "nonpulmonic"]);
   ("HYE", "hye", ["hye"], [231; 96]%N, ["fricative"; "nonsibilant"; "voiceless"; "palatal"; "nonpulmonic"]);
   ("KHE", "khe", ["khe"], [120; 96]%N, ["fricative"; "nonsibilant"; "voiceless"; "velar"; "nonpulmonic"]);
   ("QHE", "qhe", ["qhe"], [967; 96]%N, ["fricative"; "nonsibilant"; "voiceless"; "uvular"; "nonpulmonic"]);
   ("CHE", "che", ["che"], [295; 96]%N, ["fricative"; "nonsibilant"; "voiceless"; "pharyngeal"; "nonpulmonic"]);
   ("HE", "he", ["he"], [104; 96]%N, ["fricative"; "nonsibilant"; "voiceless"; "glottal"; "nonpulmonic"]);
   ("SVLE", "svle", ["svle"], [620; 810; 96]%N, ["fricative"; "lateral"; "voiceless"; "dental"; "nonpulmonic"]);
   ("SLE", "sle", ["sle"], [620; 96]%N, ["fricative"; "lateral"; "voiceless"; "alveolar"; "nonpulmonic"]);
   ("SHLE", "shle", ["shle"], [620; 96]%N, ["fricative"; "lateral"; "voiceless"; "postalveolar"; "nonpulmonic"]);
   ("SSLE", "ssle", ["ssle"], [42894; 96]%N, ["fricative"; "lateral"; "voiceless"; "retroflex"; "nonpulmonic"]);
   ("SLYE", "slye", ["slye"], [122630; 96]%N, ["fricative"; "lateral"; "voiceless"; "palatal"; "nonpulmonic"]);
   ("KHLE", "khle", ["khle"], [122628; 96]%N, ["fricative"; "lateral"; "voiceless"; "velar"; "nonpulmonic"]);
   ("QHLE", "qhle", ["qhle"], [122628; 800; 96]%N, ["fricative"; "lateral"; "voiceless"; "uvular"; "nonpulmonic"]);
   ("FYE", "fye", ["fye"], [613; 778; 96]%N, ["fricative"; "nonsibilant"; "voiceless"; "palatal"; "labial"; "nonpulmonic"]);
   ("HWE", "hwe", ["hwe"], [653; 96]%N, ["fricative"; "nonsibilant"; "voiceless"; "velar"; "labial"; "nonpulmonic"]);
   ("SJE", "sje", ["sje"], [615; 96]%N, ["fricative"; "nonsibilant"; "voiceless"; "velar"; "labial"; "palatal"; "nonpulmonic"]);
   ("BU", "bu", ["bu"], [946; 798]%N, ["approximant"; "voiced"; "bilabial"]);
   ("VU", "vu", ["vu"], [651]%N, ["approximant"; "voiced"; "labiodental"]);
   ("DU", "du", ["du"], [633; 810]%N, ["approximant"; "voiced"; "dental"]);
   ("RU", "ru", ["ru"], [633]%N, ["approximant"; "voiced"; "alveolar"]);
   ("RXU", "rxu", ["rxu"], [633; 800]%N, ["approximant"; "voiced"; "postalveolar"]);
   ("RRU", "rru", ["rru"], [635]%N, ["approximant"; "voiced"; "retroflex"]);
   ("Y", "y", ["y"], [106]%N, ["approximant"; "voiced"; "palatal"]);
   ("GU", "gu", ["gu"], [624]%N, ["approximant"; "voiced"; "palatal"]);
   ("JU", "ju", ["ju"], [641; 798]%N, ["approximant"; "voiced"; "uvular"]);
   ("HHU", "hhu", ["hhu"], [673; 798]%N, ["approximant"; "voiced"; "pharyngeal"]);
   ("HU", "hu", ["hu"], [660; 798]%N, ["approximant"; "voiced"; "glottal"]);
   ("YW", "yw", ["yw"], [613]%N, ["approximant"; "voiced"; "palatal"; "labial"]);
   ("WY", "wy", ["wy"], [613; 772]%N, ["approximant"; "voiced"; "velar"; "labial"; "palatal"]);
   ("W", "w", ["w"], [119]%N, ["approximant"; "voiced"; "velar"; "labial"]);
   ("LV", "lv", ["lv"], [108; 810]%N, ["approximant"; "voiced"; "lateral"; "dental"]);
   ("L", "l", ["l"], [108]%N, ["approximant"; "voiced"; "lateral"; "alveolar"]);
   ("LX", "lx", ["lx"], [108; 800]%N, ["approximant"; "voiced"; "lateral"; "postalveolar"]);
   ("LL", "ll", ["ll"], [621]%N, ["approximant"; "voiced"; "lateral"; "retroflex"]);
   ("LY", "ly", ["ly"], [654]%N, ["approximant"; "voiced"; "lateral"; "palatal"]);
   ("LG", "lg", ["lg"], [671]%N, ["approximant"; "voiced"; "lateral"; "velar"]);
   ("LJ", "lj", ["lj"], [671; 800]%N, ["approximant"; "voiced"; "lateral"; "uvular"]);
   ("LW", "lw", ["lw"], [619]%N, ["approximant"; "voiced"; "lateral"; "velar"; "labial"]);
   ("BT", "bt", ["bt"], [11377; 799]%N, ["flap"; "voiced"; "bilabial"]);
   ("VT", "vt", ["vt"], [11377]%N, ["flap"; "voiced"; "labiodental"]);
   ("VR", "vr", ["vr"], [638; 810]%N, ["flap"; "voiced"; "dental"]);
   ("RT", "rt", ["rt"], [638]%N, ["flap"; "voiced"; "alveolar"]);
   ("XR", "xr", ["xr"], [638; 800]%N, ["flap"; "voiced"; "postalveolar"]);
   ("RD", "rd", ["rd"], [637]%N, ["flap"; "voiced"; "retroflex"]);
   ("HT", "ht", ["ht"], [673; 774]%N, ["flap"; "voiced"; "pharyngeal"]);
   ("VL", "vl", ["vl"], [634; 810]%N, ["flap"; "voiced"; "dental"; "lateral"]);
   ("RL", "rl", ["rl"], [634]%N, ["flap"; "voiced"; "alveolar"; "lateral"]);
   ("XL", "xl", ["xl"], [634; 800]%N, ["flap"; "voiced"; "postalveolar"; "lateral"]);
   ("LR", "lr", ["lr"], [122632]%N, ["flap"; "voiced"; "retroflex"; "lateral"]);
   ("BTO", "bto", ["bto"], [11377; 799; 805]%N, ["flap"; "bilabial"; "devoiced"]);
   ("VTO", "vto", ["vto"], [11377; 805]%N, ["flap"; "labiodental"; "devoiced"]);
   ("VRO", "vro", ["vro"], [638; 810; 805]%N, ["flap"; "dental"; "devoiced"]);
   ("RTO", "rto", ["rto"], [638; 805]%N, ["flap"; "alveolar"; "devoiced"]);
   ("XRO", "xro", ["xro"], [638; 800; 805]%N, ["flap"; "postalveolar"; "devoiced"]);
   ("RDO", "rdo", ["rdo"], [637; 805]%N, ["flap"; "retroflex"; "devoiced"]);
   ("HTO", "hto", ["hto"], [673; 774; 805]%N, ["flap"; "pharyngeal"; "devoiced"]);
   ("VLO", "vlo", ["vlo"], [634; 810; 805]%N, ["flap"; "dental"; "lateral"; "devoiced"]);
   ("RLO", "rlo", ["rlo"], [634; 805]%N, ["flap"; "alveolar"; "lateral"; "devoiced"]);
   ("XLO", "xlo", ["xlo"], [634; 800; 805]%N, ["flap"; "postalveolar"; "lateral"; "devoiced"]);
   ("LRO", "lro", ["lro"], [122632; 805]%N, ["flap"; "retroflex"; "lateral"; "devoiced"]);
   ("BB", "bb", ["bb"], [665]%N, ["trill"; "voiced"; "bilabial"]);
   ("VV", "vv", ["vv"], [11377; 798]%N, ["trill"; "voiced"; "labiodental"]);
   ("RV", "rv", ["rv"], [114; 810]%N, ["trill"; "voiced"; "dental"]);
   ("R", "r", ["r"], [114]%N, ["trill"; "voiced"; "alveolar"]);
   ("RX", "rx", ["rx"], [114; 800]%N, ["trill"; "voiced"; "postalveolar"]);
   ("RR", "rr", ["rr"], [637; 114]%N, ["trill"; "voiced"; "retroflex"]);
   ("RJ", "rj", ["rj"], [640]%N, ["trill"; "voiced"; "uvular"]);
   ("HH", "hh", ["hh"], [674]%N, ["trill"; "voiced"; "epiglottal"]);
   ("BBO", "bbo", ["bbo"], [665; 805]%N, ["trill"; "bilabial"; "devoiced"]);
   ("VVO", "vvo", ["vvo"], [11377; 798; 805]%N, ["trill"; "labiodental"; "devoiced"]);
   ("RVO", "rvo", ["rvo"], [114; 810; 805]%N, ["trill"; "dental"; "devoiced"]);
   ("RO", "ro", ["ro"], [114; 805]%N, ["trill"; "alveolar"; "devoiced"]);
   ("RXO", "rxo", ["rxo"], [114; 800; 805]%N, ["trill"; "postalveolar"; "devoiced"]);
   ("RRO", "rro", ["rro"], [637; 114; 805]%N, ["trill"; "retroflex"; "devoiced"]);
   ("RJO", "rjo", ["rjo"], [640; 805]%N, ["trill"; "uvular"; "devoiced"]);
   ("HHO", "hho", ["hho"], [674; 805]%N, ["trill"; "epiglottal"; "devoiced"]);
   ("K_PK", "k+pk", ["k"; "+"; "pk"], [107; 865; 664]%N, ["coarticulated"; "stop"; "voiceless"; "velar"; "click"; "nonpulmonic"; "bilabial"]);
   ("K_CK", "k+ck", ["k"; "+"; "ck"], [107; 865; 448]%N, ["coarticulated"; "stop"; "voiceless"; "velar"; "click"; "nonpulmonic"; "dental"]);
   ("K_LK", "k+lk", ["k"; "+"; "lk"], [107; 865; 449]%N, ["coarticulated"; "stop"; "voiceless"; "velar"; "click"; "nonpulmonic"; "alveolar"; "lateral"]);
   ("K_TK", "k+tk", ["k"; "+"; "tk"], [107; 865; 451]%N, ["coarticulated"; "stop"; "voiceless"; "velar"; "click"; "nonpulmonic"; "alveolar"]);
   ("K_YK", "k+yk", ["k"; "+"; "yk"], [107; 865; 450]%N, ["coarticulated"; "stop"; "voiceless"; "velar"; "click"; "nonpulmonic"; "palatal"]);
   ("K_RK", "k+rk", ["k"; "+"; "rk"], [107; 865; 122634]%N, ["coarticulated"; "stop"; "voiceless"; "velar"; "click"; "nonpulmonic"; "retroflex"]);
   ("G_PK", "g+pk", ["g"; "+"; "pk"], [609; 865; 664]%N, ["coarticulated"; "stop"; "voiced"; "velar"; "click"; "nonpulmonic"; "bilabial"]);
   ("G_CK", "g+ck", ["g"; "+"; "ck"], [609; 865; 448]%N, ["coarticulated"; "stop"; "voiced"; "velar"; "click"; "nonpulmonic"; "dental"]);
   ("G_LK", "g+lk", ["g"; "+"; "lk"], [609; 865; 449]%N, ["coarticulated"; "stop"; "voiced"; "velar"; "click"; "nonpulmonic"; "alveolar"; "lateral"]);
   ("G_TK", "g+tk", ["g"; "+"; "tk"], [609; 865; 451]%N, ["coarticulated"; "stop"; "voiced"; "velar"; "click"; "nonpulmonic"; "alveolar"]);
   ("G_YK", "g+yk", ["g"; "+"; "yk"], [609; 865; 450]%N, ["coarticulated"; "stop"; "voiced"; "velar"; "click"; "nonpulmonic"; "palatal"]);
   ("G_RK", "g+rk", ["g"; "+"; "rk"], [609; 865; 122634]%N, ["coarticulated"; "stop"; "voiced"; "velar"; "click"; "nonpulmonic"; "retroflex"]);
   ("NG_PK", "ng+pk", ["ng"; "+"; "pk"], [331; 865; 664]%N, ["coarticulated"; "nasal"; "stop"; "voiced"; "velar"; "click"; "nonpulmonic"; "bilabial"]);
   ("NG_CK", "ng+ck", ["ng"; "+"; "ck"], [331; 865; 448]%N, ["coarticulated"; "nasal"; "stop"; "voiced"; "velar"; "click"; "nonpulmonic"; "dental"]);
   ("NG_LK", "ng+lk", ["ng"; "+"; "lk"], [331; 865; 449]%N, ["coarticulated"; "nasal"; "stop"; "voiced"; "velar"; "click"; "nonpulmonic"; "alveolar"; "lateral"]);
   ("NG_TK", "ng+tk", ["ng"; "+"; "tk"], [331; 865; 451]%N, ["coarticulated"; "nasal"; "stop"; "voiced"; "velar"; "click"; "nonpulmonic"; "alveolar"]);
   ("NG_YK", "ng+yk", ["ng"; "+"; "yk"], [331; 865; 450]%N, ["coarticulated"; "nasal"; "stop"; "voiced"; "velar"; "click"; "nonpulmonic"; "palatal"]);
   ("NG_RK", "ng+rk", ["ng"; "+"; "rk"], [331; 865; 122634]%N, ["coarticulated"; "nasal"; "stop"; "voiced"; "velar"; "click"; "nonpulmonic"; "retroflex"]);
   ("Q_PK", "q+pk", ["q"; "+"; "pk"], [113; 865; 664]%N, ["coarticulated"; "stop"; "voiceless"; "uvular"; "click"; "nonpulmonic"; "bilabial"]);
   ("Q_CK", "q+ck", ["q"; "+"; "ck"], [113; 865; 448]%N, ["coarticulated"; "stop"; "voiceless"; "uvular"; "click"; "nonpulmonic"; "dental"]);
   ("Q_LK", "q+lk", ["q"; "+"; "lk"], [113; 865; 449]%N, ["coarticulated"; "stop"; "voiceless"; "uvular"; "click"; "nonpulmonic"; "alveolar"; "lateral"]);
   ("Q_TK", "q+tk", ["q"; "+"; "tk"], [113; 865; 451]%N, ["coarticulated"; "stop"; "voiceless"; "uvular"; "click"; "nonpulmonic"; "alveolar"]);
   ("Q_YK", "q+yk", ["q"; "+"; "yk"], [113; 865; 450]%N, ["coarticulated"; "stop"; "voiceless"; "uvular"; "click"; "nonpulmonic"; "palatal"]);
   ("Q_RK", "q+rk", ["q"; "+"; "rk"], [113; 865; 122634]%N, ["coarticulated"; "stop"; "voiceless"; "uvular"; "click"; "nonpulmonic"; "retroflex"]);
   ("J_PK", "j+pk", ["j"; "+"; "pk"], [610; 865; 664]%N, ["coarticulated"; "stop"; "voiced"; "uvular"; "click"; "nonpulmonic"; "bilabial"]);
   ("J_CK", "j+ck", ["j"; "+"; "ck"], [610; 865; 448]%N, ["coarticulated"; "stop"; "voiced"; "uvular"; "click"; "nonpulmonic"; "dental"]);
   ("J_LK", "j+lk", ["j"; "+"; "lk"], [610; 865; 449]%N, ["coarticulated"; "stop"; "voiced"; "uvular"; "click"; "nonpulmonic"; "alveolar"; "lateral"]);
   ("J_TK", "j+tk", ["j"; "+"; "tk"], [610; 865; 451]%N, ["coarticulated"; "stop"; "voiced"; "uvular"; "click"; "nonpulmonic"; "alveolar"]);
   ("J_YK", "j+yk", ["j"; "+"; "yk"], [610; 865; 450]%N, ["coarticulated"; "stop"; "voiced"; "uvular"; "click"; "nonpulmonic"; "palatal"]);
   ("J_RK", "j+rk", ["j"; "+"; "rk"], [610; 865; 122634]%N, ["coarticulated"; "stop"; "voiced"; "uvular"; "click"; "nonpulmonic"; "retroflex"]);
   ("NJ_PK", "nj+pk", ["nj"; "+"; "pk"], [628; 865; 664]%N, ["coarticulated"; "nasal"; "stop"; "voiced"; "uvular"; "click"; "nonpulmonic"; "bilabial"]);
   ("NJ_CK", "nj+ck", ["nj"; "+"; "ck"], [628; 865; 448]%N, ["coarticulated"; "nasal"; "stop"; "voiced"; "uvular"; "click"; "nonpulmonic"; "dental"]);
   ("NJ_LK", "nj+lk", ["nj"; "+"; "lk"], [628; 865; 449]%N, ["coarticulated"; "nasal"; "stop"; "voiced"; "uvular"; "click"; "nonpulmonic"; "alveolar"; "lateral"]);
   ("NJ_TK", "nj+tk", ["nj"; "+"; "tk"], [628; 865; 451]%N, ["coarticulated"; "nasal"; "stop"; "voiced"; "uvular"; "click"; "nonpulmonic"; "alveolar"]);
   ("NJ_YK", "nj+yk", ["nj"; "+"; "yk"], [628; 865; 450]%N, ["coarticulated"; "nasal"; "stop"; "voiced"; "uvular"; "click"; "nonpulmonic"; "palatal"]);
   ("NJ_RK", "nj+rk", ["nj"; "+"; "rk"], [628; 865; 122634]%N, ["coarticulated"; "nasal"; "stop"; "voiced"; "uvular"; "click"; "nonpulmonic"; "retroflex"]);
   ("T_SH", "t+sh", ["t"; "+"; "sh"], [116; 865; 643]%N, ["affricate"; "stop"; "voiceless"; "alveolar"; "fricative"; "sibilant"; "voiceless"; "postalveolar"]);
   ("T_SHE", "t+she", ["t"; "+"; "she"], [116; 865; 643; 96]%N, ["affricate"; "stop"; "voiceless"; "alveolar"; "fricative"; "sibilant"; "voiceless"; "postalveolar"; "nonpulmonic"]);
   ("T_SS", "t+ss", ["t"; "+"; "ss"], [116; 865; 642]%N, ["affricate"; "stop"; "voiceless"; "alveolar"; "fricative"; "sibilant"; "voiceless"; "retroflex"]);
   ("T_SSE", "t+sse", ["t"; "+"; "sse"], [116; 865; 642; 96]%N, ["affricate"; "stop"; "voiceless"; "alveolar"; "fricative"; "sibilant"; "voiceless"; "retroflex"; "nonpulmonic"]);
   ("T_SY", "t+sy", ["t"; "+"; "sy"], [116; 865; 597]%N, ["affricate"; "stop"; "voiceless"; "alveolar"; "fricative"; "sibilant"; "voiceless"; "palatal"]);
   ("T_SYE", "t+sye", ["t"; "+"; "sye"], [116; 865; 597; 96]%N, ["affricate"; "stop"; "voiceless"; "alveolar"; "fricative"; "sibilant"; "voiceless"; "palatal"; "nonpulmonic"]);
   ("D_ZH", "d+zh", ["d"; "+"; "zh"], [100; 865; 658]%N, ["affricate"; "stop"; "voiced"; "alveolar"; "fricative"; "sibilant"; "voiced"; "postalveolar"]);
   ("D_ZZ", "d+zz", ["d"; "+"; "zz"], [100; 865; 656]%N, ["affricate"; "stop"; "voiced"; "alveolar"; "fricative"; "sibilant"; "voiced"; "retroflex"]);
   ("D_ZY", "d+zy", ["d"; "+"; "zy"], [100; 865; 657]%N, ["affricate"; "stop"; "voiced"; "alveolar"; "fricative"; "sibilant"; "voiced"; "palatal"]);
   ("STRH", "*h", ["*h"], [712]%N, ["stress"; "high"]);
   ("STRM", "*m", ["*m"], [716]%N, ["stress"; "middle"]);
   ("TPTT", "^t", ["^t"], [779]%N, ["pitch"; "top"]);
   ("TPTH", "^h", ["^h"], [769]%N, ["pitch"; "high"]);
   ("TPTM", "^m", ["^m"], [772]%N, ["pitch"; "middle"]);
   ("TPTW", "^w", ["^w"], [768]%N, ["pitch"; "low"]);
   ("TPTB", "^b", ["^b"], [783]%N, ["pitch"; "bottom"]);
   ("TCNR", "&r", ["&r"], [780]%N, ["contour"; "rising"]);
   ("TCNF", "&f", ["&f"], [770]%N, ["contour"; "falling"]);
   ("INTR", "!r", ["!r"], [8599; 65038]%N, ["intonation"; "rising"]);
   ("INTF", "!f", ["!f"], [8600; 65038]%N, ["intonation"; "falling"]);
   ("INTK", "!k", ["!k"], [124]%N, ["intonation"; "interrupt"]);
   ("DURB", ":b", [":b"], [774]%N, ["long"; "bottom"]);
   ("DURM", ":m", [":m"], [721]%N, ["long"; "middle"]);
   ("DURH", ":h", [":h"], [720]%N, ["long"; "high"]);
   ("DURT", ":t", [":t"], [720; 720]%N, ["long"; "top"])].
