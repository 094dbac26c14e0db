(** What the generated documentation pages list; written by gen/genfeatures.py.  Sources, in nisaba/scripts/natural_translit:
    phonology/features/docs/descriptive.md, phonology/inventories/docs/x_uni.md, script/inventories/docs/latn.md and en_latn.md. *)
From Verif Require Import Base.
From Coq Require Import String.
Local Open Scope string_scope.
Local Open Scope list_scope.
Definition w_Latin : string := "Latin".
Definition w_abstract : string := "abstract".
Definition w_alveolar : string := "alveolar".
Definition w_any : string := "any".
Definition w_apical : string := "apical".
Definition w_approximant : string := "approximant".
Definition w_back : string := "back".
Definition w_central : string := "central".
Definition w_close : string := "close".
Definition w_close_mid : string := "close_mid".
Definition w_consonant : string := "consonant".
Definition w_dental : string := "dental".
Definition w_dorsal : string := "dorsal".
Definition w_epiglottal : string := "epiglottal".
Definition w_fricative : string := "fricative".
Definition w_front : string := "front".
Definition w_glottal : string := "glottal".
Definition w_heavy : string := "heavy".
Definition w_labial : string := "labial".
Definition w_labialized : string := "labialized".
Definition w_laminal : string := "laminal".
Definition w_laryngeal : string := "laryngeal".
Definition w_lateral : string := "lateral".
Definition w_letter : string := "letter".
Definition w_light : string := "light".
Definition w_lower : string := "lower".
Definition w_mid : string := "mid".
Definition w_nasalized : string := "nasalized".
Definition w_near_back : string := "near_back".
Definition w_near_close : string := "near_close".
Definition w_near_front : string := "near_front".
Definition w_near_open : string := "near_open".
Definition w_non_sibilant : string := "non_sibilant".
Definition w_none : string := "none".
Definition w_not_applicable : string := "not_applicable".
Definition w_number : string := "number".
Definition w_open : string := "open".
Definition w_open_mid : string := "open_mid".
Definition w_palatal : string := "palatal".
Definition w_postalveolar : string := "postalveolar".
Definition w_pulmonic : string := "pulmonic".
Definition w_raw : string := "raw".
Definition w_rhotic : string := "rhotic".
Definition w_rounded : string := "rounded".
Definition w_sibilant : string := "sibilant".
Definition w_stop : string := "stop".
Definition w_syllabic : string := "syllabic".
Definition w_tap : string := "tap".
Definition w_trill : string := "trill".
Definition w_unrounded : string := "unrounded".
Definition w_upper : string := "upper".
Definition w_uvular : string := "uvular".
Definition w_velar : string := "velar".
Definition w_voiced : string := "voiced".
Definition w_voiceless : string := "voiceless".
Definition w_vowel : string := "vowel".
(** x_uni.md: aspects, and each symbol with the values of these aspects *)
Definition x_uni_aspects_documented : list string := ["type"; "ph_class"; "airstream"; "manner"; "place"; "articulator"; "height"; "backness"; "breathiness"; "voicing"; "labialization"; "lateralization"; "nasalization"; "palatalization"; "rhoticization"; "duration"; "syllabicity"].
Definition x_uni_documented : list (string * list (list string)) :=
  [("a", [[w_abstract]; [w_vowel]; [w_pulmonic]; [w_not_applicable]; [w_not_applicable]; [w_not_applicable]; [w_open]; [w_front]; [w_none]; [w_voiced]; [w_unrounded]; [w_not_applicable]; [w_none]; [w_none]; [w_none]; [w_any]; [w_syllabic]]);
   ("au", [[w_abstract]; [w_vowel]; [w_pulmonic]; [w_not_applicable]; [w_not_applicable]; [w_not_applicable]; [w_open]; [w_central]; [w_none]; [w_voiced]; [w_unrounded]; [w_not_applicable]; [w_none]; [w_none]; [w_none]; [w_any]; [w_syllabic]]);
   ("ae", [[w_abstract]; [w_vowel]; [w_pulmonic]; [w_not_applicable]; [w_not_applicable]; [w_not_applicable]; [w_near_open]; [w_front]; [w_none]; [w_voiced]; [w_unrounded]; [w_not_applicable]; [w_none]; [w_none]; [w_none]; [w_any]; [w_syllabic]]);
   ("av", [[w_abstract]; [w_vowel]; [w_pulmonic]; [w_not_applicable]; [w_not_applicable]; [w_not_applicable]; [w_near_open]; [w_central]; [w_none]; [w_voiced]; [w_unrounded]; [w_not_applicable]; [w_none]; [w_none]; [w_none]; [w_any]; [w_syllabic]]);
   ("aw", [[w_abstract]; [w_vowel]; [w_pulmonic]; [w_not_applicable]; [w_not_applicable]; [w_not_applicable]; [w_open]; [w_back]; [w_none]; [w_voiced]; [w_unrounded]; [w_not_applicable]; [w_none]; [w_none]; [w_none]; [w_any]; [w_syllabic]]);
   ("ow", [[w_abstract]; [w_vowel]; [w_pulmonic]; [w_not_applicable]; [w_not_applicable]; [w_not_applicable]; [w_open]; [w_back]; [w_none]; [w_voiced]; [w_rounded]; [w_not_applicable]; [w_none]; [w_none]; [w_none]; [w_any]; [w_syllabic]]);
   ("e", [[w_abstract]; [w_vowel]; [w_pulmonic]; [w_not_applicable]; [w_not_applicable]; [w_not_applicable]; [w_close_mid]; [w_front]; [w_none]; [w_voiced]; [w_unrounded]; [w_not_applicable]; [w_none]; [w_none]; [w_none]; [w_any]; [w_syllabic]]);
   ("ec", [[w_abstract]; [w_vowel]; [w_pulmonic]; [w_not_applicable]; [w_not_applicable]; [w_not_applicable]; [w_mid]; [w_central]; [w_none]; [w_voiced]; [w_unrounded]; [w_not_applicable]; [w_none]; [w_none]; [w_none]; [w_any]; [w_syllabic]]);
   ("eh", [[w_abstract]; [w_vowel]; [w_pulmonic]; [w_not_applicable]; [w_not_applicable]; [w_not_applicable]; [w_open_mid]; [w_front]; [w_none]; [w_voiced]; [w_unrounded]; [w_not_applicable]; [w_none]; [w_none]; [w_none]; [w_any]; [w_syllabic]]);
   ("el", [[w_abstract]; [w_vowel]; [w_pulmonic]; [w_not_applicable]; [w_not_applicable]; [w_not_applicable]; [w_close_mid]; [w_central]; [w_none]; [w_voiced]; [w_unrounded]; [w_not_applicable]; [w_none]; [w_none]; [w_none]; [w_any]; [w_syllabic]]);
   ("ex", [[w_abstract]; [w_vowel]; [w_pulmonic]; [w_not_applicable]; [w_not_applicable]; [w_not_applicable]; [w_open_mid]; [w_central]; [w_none]; [w_voiced]; [w_unrounded]; [w_not_applicable]; [w_none]; [w_none]; [w_none]; [w_any]; [w_syllabic]]);
   ("ox", [[w_abstract]; [w_vowel]; [w_pulmonic]; [w_not_applicable]; [w_not_applicable]; [w_not_applicable]; [w_open_mid]; [w_central]; [w_none]; [w_voiced]; [w_rounded]; [w_not_applicable]; [w_none]; [w_none]; [w_none]; [w_any]; [w_syllabic]]);
   ("eo", [[w_abstract]; [w_vowel]; [w_pulmonic]; [w_not_applicable]; [w_not_applicable]; [w_not_applicable]; [w_close_mid]; [w_back]; [w_none]; [w_voiced]; [w_unrounded]; [w_not_applicable]; [w_none]; [w_none]; [w_none]; [w_any]; [w_syllabic]]);
   ("i", [[w_abstract]; [w_vowel]; [w_pulmonic]; [w_not_applicable]; [w_not_applicable]; [w_not_applicable]; [w_close]; [w_front]; [w_none]; [w_voiced]; [w_unrounded]; [w_not_applicable]; [w_none]; [w_none]; [w_none]; [w_any]; [w_syllabic]]);
   ("iy", [[w_abstract]; [w_vowel]; [w_pulmonic]; [w_not_applicable]; [w_not_applicable]; [w_not_applicable]; [w_near_close]; [w_near_front]; [w_none]; [w_voiced]; [w_unrounded]; [w_not_applicable]; [w_none]; [w_none]; [w_none]; [w_any]; [w_syllabic]]);
   ("ic", [[w_abstract]; [w_vowel]; [w_pulmonic]; [w_not_applicable]; [w_not_applicable]; [w_not_applicable]; [w_close]; [w_central]; [w_none]; [w_voiced]; [w_unrounded]; [w_not_applicable]; [w_none]; [w_none]; [w_none]; [w_any]; [w_syllabic]]);
   ("o", [[w_abstract]; [w_vowel]; [w_pulmonic]; [w_not_applicable]; [w_not_applicable]; [w_not_applicable]; [w_close_mid]; [w_back]; [w_none]; [w_voiced]; [w_rounded]; [w_not_applicable]; [w_none]; [w_none]; [w_none]; [w_any]; [w_syllabic]]);
   ("oi", [[w_abstract]; [w_vowel]; [w_pulmonic]; [w_not_applicable]; [w_not_applicable]; [w_not_applicable]; [w_any]; [w_front]; [w_none]; [w_voiced]; [w_rounded]; [w_not_applicable]; [w_none]; [w_none]; [w_none]; [w_any]; [w_syllabic]]);
   ("oe", [[w_abstract]; [w_vowel]; [w_pulmonic]; [w_not_applicable]; [w_not_applicable]; [w_not_applicable]; [w_open_mid]; [w_front]; [w_none]; [w_voiced]; [w_rounded]; [w_not_applicable]; [w_none]; [w_none]; [w_none]; [w_any]; [w_syllabic]]);
   ("oa", [[w_abstract]; [w_vowel]; [w_pulmonic]; [w_not_applicable]; [w_not_applicable]; [w_not_applicable]; [w_open]; [w_front]; [w_none]; [w_voiced]; [w_rounded]; [w_not_applicable]; [w_none]; [w_none]; [w_none]; [w_any]; [w_syllabic]]);
   ("oh", [[w_abstract]; [w_vowel]; [w_pulmonic]; [w_not_applicable]; [w_not_applicable]; [w_not_applicable]; [w_open_mid]; [w_back]; [w_none]; [w_voiced]; [w_rounded]; [w_not_applicable]; [w_none]; [w_none]; [w_none]; [w_any]; [w_syllabic]]);
   ("ol", [[w_abstract]; [w_vowel]; [w_pulmonic]; [w_not_applicable]; [w_not_applicable]; [w_not_applicable]; [w_close_mid]; [w_central]; [w_none]; [w_voiced]; [w_rounded]; [w_not_applicable]; [w_none]; [w_none]; [w_none]; [w_any]; [w_syllabic]]);
   ("u", [[w_abstract]; [w_vowel]; [w_pulmonic]; [w_not_applicable]; [w_not_applicable]; [w_not_applicable]; [w_close]; [w_back]; [w_none]; [w_voiced]; [w_rounded]; [w_not_applicable]; [w_none]; [w_none]; [w_none]; [w_any]; [w_syllabic]]);
   ("uc", [[w_abstract]; [w_vowel]; [w_pulmonic]; [w_not_applicable]; [w_not_applicable]; [w_not_applicable]; [w_close]; [w_central]; [w_none]; [w_voiced]; [w_rounded]; [w_not_applicable]; [w_none]; [w_none]; [w_none]; [w_any]; [w_syllabic]]);
   ("iu", [[w_abstract]; [w_vowel]; [w_pulmonic]; [w_not_applicable]; [w_not_applicable]; [w_not_applicable]; [w_close]; [w_back]; [w_none]; [w_voiced]; [w_unrounded]; [w_not_applicable]; [w_none]; [w_none]; [w_none]; [w_any]; [w_syllabic]]);
   ("uv", [[w_abstract]; [w_vowel]; [w_pulmonic]; [w_not_applicable]; [w_not_applicable]; [w_not_applicable]; [w_near_close]; [w_near_back]; [w_none]; [w_voiced]; [w_rounded]; [w_not_applicable]; [w_none]; [w_none]; [w_none]; [w_any]; [w_syllabic]]);
   ("ah", [[w_abstract]; [w_vowel]; [w_pulmonic]; [w_not_applicable]; [w_not_applicable]; [w_not_applicable]; [w_open_mid]; [w_back]; [w_none]; [w_voiced]; [w_unrounded]; [w_not_applicable]; [w_none]; [w_none]; [w_none]; [w_any]; [w_syllabic]]);
   ("ui", [[w_abstract]; [w_vowel]; [w_pulmonic]; [w_not_applicable]; [w_not_applicable]; [w_not_applicable]; [w_close]; [w_front]; [w_none]; [w_voiced]; [w_rounded]; [w_not_applicable]; [w_none]; [w_none]; [w_none]; [w_any]; [w_syllabic]]);
   ("uy", [[w_abstract]; [w_vowel]; [w_pulmonic]; [w_not_applicable]; [w_not_applicable]; [w_not_applicable]; [w_near_close]; [w_near_front]; [w_none]; [w_voiced]; [w_rounded]; [w_not_applicable]; [w_none]; [w_none]; [w_none]; [w_any]; [w_syllabic]]);
   ("b", [[w_abstract]; [w_consonant]; [w_pulmonic]; [w_stop]; [w_labial]; [w_labial]; [w_not_applicable]; [w_not_applicable]; [w_any]; [w_voiced]; [w_labialized]; [w_none]; [w_none]; [w_none]; [w_none]; [w_any]; [w_none]]);
   ("bb", [[w_abstract]; [w_consonant]; [w_pulmonic]; [w_trill]; [w_labial]; [w_labial]; [w_not_applicable]; [w_not_applicable]; [w_any]; [w_any]; [w_labialized]; [w_none]; [w_none]; [w_none]; [w_none]; [w_any]; [w_none]]);
   ("ky", [[w_abstract]; [w_consonant]; [w_pulmonic]; [w_stop]; [w_palatal]; [w_apical; w_dorsal; w_laminal]; [w_not_applicable]; [w_not_applicable]; [w_any]; [w_voiceless]; [w_none]; [w_none]; [w_none]; [w_heavy]; [w_none]; [w_any]; [w_none]]);
   ("hy", [[w_abstract]; [w_consonant]; [w_pulmonic]; [w_non_sibilant]; [w_palatal]; [w_apical; w_dorsal; w_laminal]; [w_not_applicable]; [w_not_applicable]; [w_any]; [w_voiceless]; [w_none]; [w_none]; [w_none]; [w_heavy]; [w_none]; [w_any]; [w_none]]);
   ("sy", [[w_abstract]; [w_consonant]; [w_pulmonic]; [w_sibilant]; [w_palatal]; [w_apical; w_dorsal; w_laminal]; [w_not_applicable]; [w_not_applicable]; [w_any]; [w_voiceless]; [w_none]; [w_none]; [w_none]; [w_heavy]; [w_none]; [w_any]; [w_none]]);
   ("d", [[w_abstract]; [w_consonant]; [w_pulmonic]; [w_stop]; [w_alveolar; w_dental; w_postalveolar]; [w_apical; w_laminal]; [w_not_applicable]; [w_not_applicable]; [w_any]; [w_voiced]; [w_none]; [w_none]; [w_none]; [w_none]; [w_none]; [w_any]; [w_none]]);
   ("dh", [[w_abstract]; [w_consonant]; [w_pulmonic]; [w_non_sibilant]; [w_dental]; [w_apical]; [w_not_applicable]; [w_not_applicable]; [w_any]; [w_voiced]; [w_none]; [w_none]; [w_none]; [w_none]; [w_none]; [w_any]; [w_none]]);
   ("dd", [[w_abstract]; [w_consonant]; [w_pulmonic]; [w_stop]; [w_palatal; w_postalveolar]; [w_apical]; [w_not_applicable]; [w_not_applicable]; [w_any]; [w_voiced]; [w_none]; [w_none]; [w_none]; [w_none]; [w_none]; [w_any]; [w_none]]);
   ("f", [[w_abstract]; [w_consonant]; [w_pulmonic]; [w_non_sibilant]; [w_dental]; [w_labial]; [w_not_applicable]; [w_not_applicable]; [w_any]; [w_voiceless]; [w_labialized]; [w_none]; [w_none]; [w_none]; [w_none]; [w_any]; [w_none]]);
   ("g", [[w_abstract]; [w_consonant]; [w_pulmonic]; [w_stop]; [w_velar]; [w_dorsal]; [w_not_applicable]; [w_not_applicable]; [w_any]; [w_voiced]; [w_none]; [w_none]; [w_none]; [w_none]; [w_none]; [w_any]; [w_none]]);
   ("j", [[w_abstract]; [w_consonant]; [w_pulmonic]; [w_stop]; [w_uvular]; [w_dorsal]; [w_not_applicable]; [w_not_applicable]; [w_any]; [w_voiced]; [w_none]; [w_none]; [w_none]; [w_none]; [w_none]; [w_any]; [w_none]]);
   ("gh", [[w_abstract]; [w_consonant]; [w_pulmonic]; [w_non_sibilant]; [w_velar]; [w_dorsal]; [w_not_applicable]; [w_not_applicable]; [w_any]; [w_voiced]; [w_none]; [w_none]; [w_none]; [w_none]; [w_none]; [w_any]; [w_none]]);
   ("h", [[w_abstract]; [w_consonant]; [w_pulmonic]; [w_non_sibilant]; [w_glottal]; [w_laryngeal]; [w_not_applicable]; [w_not_applicable]; [w_any]; [w_voiceless]; [w_none]; [w_none]; [w_none]; [w_none]; [w_none]; [w_any]; [w_none]]);
   ("ch", [[w_abstract]; [w_consonant]; [w_pulmonic]; [w_non_sibilant]; [w_epiglottal]; [w_laryngeal]; [w_not_applicable]; [w_not_applicable]; [w_any]; [w_voiceless]; [w_none]; [w_none]; [w_none]; [w_none]; [w_none]; [w_any]; [w_none]]);
   ("hho", [[w_abstract]; [w_consonant]; [w_pulmonic]; [w_trill]; [w_epiglottal]; [w_laryngeal]; [w_not_applicable]; [w_not_applicable]; [w_any]; [w_voiceless]; [w_none]; [w_none]; [w_none]; [w_none]; [w_none]; [w_any]; [w_none]]);
   ("ha", [[w_abstract]; [w_consonant]; [w_pulmonic]; [w_non_sibilant]; [w_glottal]; [w_laryngeal]; [w_not_applicable]; [w_not_applicable]; [w_any]; [w_voiced]; [w_none]; [w_none]; [w_none]; [w_none]; [w_none]; [w_any]; [w_none]]);
   ("y", [[w_abstract]; [w_consonant]; [w_pulmonic]; [w_approximant]; [w_palatal]; [w_apical; w_dorsal; w_laminal]; [w_not_applicable]; [w_not_applicable]; [w_any]; [w_any]; [w_none]; [w_none]; [w_none]; [w_heavy]; [w_none]; [w_any]; [w_none]]);
   ("yy", [[w_abstract]; [w_consonant]; [w_pulmonic]; [w_non_sibilant]; [w_palatal]; [w_apical; w_dorsal; w_laminal]; [w_not_applicable]; [w_not_applicable]; [w_any]; [w_voiced]; [w_none]; [w_none]; [w_none]; [w_heavy]; [w_none]; [w_any]; [w_none]]);
   ("gy", [[w_abstract]; [w_consonant]; [w_pulmonic]; [w_stop]; [w_palatal]; [w_apical; w_dorsal; w_laminal]; [w_not_applicable]; [w_not_applicable]; [w_any]; [w_voiced]; [w_none]; [w_none]; [w_none]; [w_heavy]; [w_none]; [w_any]; [w_none]]);
   ("k", [[w_abstract]; [w_consonant]; [w_pulmonic]; [w_stop]; [w_velar]; [w_dorsal]; [w_not_applicable]; [w_not_applicable]; [w_any]; [w_voiceless]; [w_none]; [w_none]; [w_none]; [w_none]; [w_none]; [w_any]; [w_none]]);
   ("l", [[w_abstract]; [w_consonant]; [w_pulmonic]; [w_approximant]; [w_alveolar; w_dental; w_postalveolar]; [w_apical; w_laminal]; [w_not_applicable]; [w_not_applicable]; [w_any]; [w_voiced]; [w_none]; [w_lateral]; [w_none]; [w_none]; [w_none]; [w_any]; [w_none]]);
   ("lg", [[w_abstract]; [w_consonant]; [w_pulmonic]; [w_approximant]; [w_velar]; [w_dorsal]; [w_not_applicable]; [w_not_applicable]; [w_any]; [w_voiced]; [w_none]; [w_lateral]; [w_none]; [w_none]; [w_none]; [w_any]; [w_none]]);
   ("sl", [[w_abstract]; [w_consonant]; [w_pulmonic]; [w_non_sibilant]; [w_alveolar; w_dental; w_postalveolar]; [w_apical; w_laminal]; [w_not_applicable]; [w_not_applicable]; [w_any]; [w_voiceless]; [w_none]; [w_lateral]; [w_none]; [w_none]; [w_none]; [w_any]; [w_none]]);
   ("ll", [[w_abstract]; [w_consonant]; [w_pulmonic]; [w_approximant]; [w_palatal; w_postalveolar]; [w_apical]; [w_not_applicable]; [w_not_applicable]; [w_any]; [w_voiced]; [w_none]; [w_lateral]; [w_none]; [w_none]; [w_none]; [w_any]; [w_none]]);
   ("ssl", [[w_abstract]; [w_consonant]; [w_pulmonic]; [w_non_sibilant]; [w_palatal; w_postalveolar]; [w_apical]; [w_not_applicable]; [w_not_applicable]; [w_any]; [w_voiceless]; [w_none]; [w_lateral]; [w_none]; [w_none]; [w_none]; [w_any]; [w_none]]);
   ("zl", [[w_abstract]; [w_consonant]; [w_pulmonic]; [w_non_sibilant]; [w_alveolar; w_dental; w_postalveolar]; [w_apical; w_laminal]; [w_not_applicable]; [w_not_applicable]; [w_any]; [w_voiced]; [w_none]; [w_lateral]; [w_none]; [w_none]; [w_none]; [w_any]; [w_none]]);
   ("ly", [[w_abstract]; [w_consonant]; [w_pulmonic]; [w_approximant]; [w_palatal]; [w_apical; w_dorsal; w_laminal]; [w_not_applicable]; [w_not_applicable]; [w_any]; [w_voiced]; [w_none]; [w_lateral]; [w_none]; [w_heavy]; [w_none]; [w_any]; [w_none]]);
   ("m", [[w_abstract]; [w_consonant]; [w_pulmonic]; [w_stop]; [w_labial]; [w_labial]; [w_not_applicable]; [w_not_applicable]; [w_any]; [w_voiced]; [w_labialized]; [w_none]; [w_nasalized]; [w_none]; [w_none]; [w_any]; [w_none]]);
   ("mi", [[w_abstract]; [w_consonant]; [w_pulmonic]; [w_stop]; [w_dental]; [w_labial]; [w_not_applicable]; [w_not_applicable]; [w_any]; [w_voiced]; [w_labialized]; [w_none]; [w_nasalized]; [w_none]; [w_none]; [w_any]; [w_none]]);
   ("n", [[w_abstract]; [w_consonant]; [w_pulmonic]; [w_stop]; [w_alveolar; w_dental; w_postalveolar]; [w_apical; w_laminal]; [w_not_applicable]; [w_not_applicable]; [w_any]; [w_voiced]; [w_none]; [w_none]; [w_nasalized]; [w_none]; [w_none]; [w_any]; [w_none]]);
   ("nj", [[w_abstract]; [w_consonant]; [w_pulmonic]; [w_stop]; [w_uvular]; [w_dorsal]; [w_not_applicable]; [w_not_applicable]; [w_any]; [w_voiced]; [w_none]; [w_none]; [w_nasalized]; [w_none]; [w_none]; [w_any]; [w_none]]);
   ("ny", [[w_abstract]; [w_consonant]; [w_pulmonic]; [w_stop]; [w_palatal]; [w_apical; w_dorsal; w_laminal]; [w_not_applicable]; [w_not_applicable]; [w_any]; [w_voiced]; [w_none]; [w_none]; [w_nasalized]; [w_heavy]; [w_none]; [w_any]; [w_none]]);
   ("nn", [[w_abstract]; [w_consonant]; [w_pulmonic]; [w_stop]; [w_palatal; w_postalveolar]; [w_apical]; [w_not_applicable]; [w_not_applicable]; [w_any]; [w_voiced]; [w_none]; [w_none]; [w_nasalized]; [w_none]; [w_none]; [w_any]; [w_none]]);
   ("ng", [[w_abstract]; [w_consonant]; [w_pulmonic]; [w_stop]; [w_velar]; [w_dorsal]; [w_not_applicable]; [w_not_applicable]; [w_any]; [w_voiced]; [w_none]; [w_none]; [w_nasalized]; [w_none]; [w_none]; [w_any]; [w_none]]);
   ("p", [[w_abstract]; [w_consonant]; [w_pulmonic]; [w_stop]; [w_labial]; [w_labial]; [w_not_applicable]; [w_not_applicable]; [w_any]; [w_voiceless]; [w_labialized]; [w_none]; [w_none]; [w_none]; [w_none]; [w_any]; [w_none]]);
   ("ph", [[w_abstract]; [w_consonant]; [w_pulmonic]; [w_non_sibilant]; [w_labial]; [w_labial]; [w_not_applicable]; [w_not_applicable]; [w_any]; [w_voiceless]; [w_labialized]; [w_none]; [w_none]; [w_none]; [w_none]; [w_any]; [w_none]]);
   ("q", [[w_abstract]; [w_consonant]; [w_pulmonic]; [w_stop]; [w_uvular]; [w_dorsal]; [w_not_applicable]; [w_not_applicable]; [w_any]; [w_voiceless]; [w_none]; [w_none]; [w_none]; [w_none]; [w_none]; [w_any]; [w_none]]);
   ("r", [[w_abstract]; [w_consonant]; [w_pulmonic]; [w_trill]; [w_alveolar; w_dental; w_postalveolar]; [w_apical; w_laminal]; [w_not_applicable]; [w_not_applicable]; [w_any]; [w_any]; [w_none]; [w_none]; [w_none]; [w_none]; [w_none]; [w_any]; [w_none]]);
   ("rj", [[w_abstract]; [w_consonant]; [w_pulmonic]; [w_trill]; [w_uvular]; [w_dorsal]; [w_not_applicable]; [w_not_applicable]; [w_any]; [w_any]; [w_none]; [w_none]; [w_none]; [w_none]; [w_none]; [w_any]; [w_none]]);
   ("ru", [[w_abstract]; [w_consonant]; [w_pulmonic]; [w_approximant]; [w_alveolar; w_dental; w_postalveolar]; [w_apical; w_laminal]; [w_not_applicable]; [w_not_applicable]; [w_any]; [w_any]; [w_none]; [w_none]; [w_none]; [w_none]; [w_none]; [w_any]; [w_none]]);
   ("rl", [[w_abstract]; [w_consonant]; [w_pulmonic]; [w_tap]; [w_alveolar; w_dental; w_postalveolar]; [w_apical; w_laminal]; [w_not_applicable]; [w_not_applicable]; [w_any]; [w_voiced]; [w_none]; [w_lateral]; [w_none]; [w_none]; [w_none]; [w_any]; [w_none]]);
   ("rru", [[w_abstract]; [w_consonant]; [w_pulmonic]; [w_approximant]; [w_palatal; w_postalveolar]; [w_apical]; [w_not_applicable]; [w_not_applicable]; [w_any]; [w_any]; [w_none]; [w_none]; [w_none]; [w_none]; [w_none]; [w_any]; [w_none]]);
   ("rd", [[w_abstract]; [w_consonant]; [w_pulmonic]; [w_tap]; [w_palatal; w_postalveolar]; [w_apical]; [w_not_applicable]; [w_not_applicable]; [w_any]; [w_any]; [w_none]; [w_none]; [w_none]; [w_none]; [w_none]; [w_any]; [w_none]]);
   ("rt", [[w_abstract]; [w_consonant]; [w_pulmonic]; [w_tap]; [w_alveolar; w_dental; w_postalveolar]; [w_apical; w_laminal]; [w_not_applicable]; [w_not_applicable]; [w_any]; [w_any]; [w_none]; [w_none]; [w_none]; [w_none]; [w_none]; [w_any]; [w_none]]);
   ("jh", [[w_abstract]; [w_consonant]; [w_pulmonic]; [w_non_sibilant]; [w_uvular]; [w_dorsal]; [w_not_applicable]; [w_not_applicable]; [w_any]; [w_voiced]; [w_none]; [w_none]; [w_none]; [w_none]; [w_none]; [w_any]; [w_none]]);
   ("s", [[w_abstract]; [w_consonant]; [w_pulmonic]; [w_sibilant]; [w_alveolar; w_dental]; [w_apical; w_laminal]; [w_not_applicable]; [w_not_applicable]; [w_any]; [w_voiceless]; [w_none]; [w_none]; [w_none]; [w_none]; [w_none]; [w_any]; [w_none]]);
   ("ss", [[w_abstract]; [w_consonant]; [w_pulmonic]; [w_sibilant]; [w_palatal; w_postalveolar]; [w_apical]; [w_not_applicable]; [w_not_applicable]; [w_any]; [w_voiceless]; [w_none]; [w_none]; [w_none]; [w_none]; [w_none]; [w_any]; [w_none]]);
   ("sh", [[w_abstract]; [w_consonant]; [w_pulmonic]; [w_sibilant]; [w_postalveolar]; [w_laminal]; [w_not_applicable]; [w_not_applicable]; [w_any]; [w_voiceless]; [w_none]; [w_none]; [w_none]; [w_light]; [w_none]; [w_any]; [w_none]]);
   ("t", [[w_abstract]; [w_consonant]; [w_pulmonic]; [w_stop]; [w_alveolar; w_dental; w_postalveolar]; [w_apical; w_laminal]; [w_not_applicable]; [w_not_applicable]; [w_any]; [w_voiceless]; [w_none]; [w_none]; [w_none]; [w_none]; [w_none]; [w_any]; [w_none]]);
   ("tt", [[w_abstract]; [w_consonant]; [w_pulmonic]; [w_stop]; [w_palatal; w_postalveolar]; [w_apical]; [w_not_applicable]; [w_not_applicable]; [w_any]; [w_voiceless]; [w_none]; [w_none]; [w_none]; [w_none]; [w_none]; [w_any]; [w_none]]);
   ("gu", [[w_abstract]; [w_consonant]; [w_pulmonic]; [w_approximant]; [w_velar]; [w_dorsal]; [w_not_applicable]; [w_not_applicable]; [w_any]; [w_any]; [w_none]; [w_none]; [w_none]; [w_none]; [w_none]; [w_any]; [w_none]]);
   ("v", [[w_abstract]; [w_consonant]; [w_pulmonic]; [w_non_sibilant]; [w_dental]; [w_labial]; [w_not_applicable]; [w_not_applicable]; [w_any]; [w_voiced]; [w_labialized]; [w_none]; [w_none]; [w_none]; [w_none]; [w_any]; [w_none]]);
   ("vu", [[w_abstract]; [w_consonant]; [w_pulmonic]; [w_approximant]; [w_dental]; [w_labial]; [w_not_applicable]; [w_not_applicable]; [w_any]; [w_any]; [w_labialized]; [w_none]; [w_none]; [w_none]; [w_none]; [w_any]; [w_none]]);
   ("vt", [[w_abstract]; [w_consonant]; [w_pulmonic]; [w_tap]; [w_dental]; [w_labial]; [w_not_applicable]; [w_not_applicable]; [w_any]; [w_any]; [w_labialized]; [w_none]; [w_none]; [w_none]; [w_none]; [w_any]; [w_none]]);
   ("kh", [[w_abstract]; [w_consonant]; [w_pulmonic]; [w_non_sibilant]; [w_velar]; [w_dorsal]; [w_not_applicable]; [w_not_applicable]; [w_any]; [w_voiceless]; [w_none]; [w_none]; [w_none]; [w_none]; [w_none]; [w_any]; [w_none]]);
   ("z", [[w_abstract]; [w_consonant]; [w_pulmonic]; [w_sibilant]; [w_alveolar; w_dental]; [w_apical; w_laminal]; [w_not_applicable]; [w_not_applicable]; [w_any]; [w_voiced]; [w_none]; [w_none]; [w_none]; [w_none]; [w_none]; [w_any]; [w_none]]);
   ("zz", [[w_abstract]; [w_consonant]; [w_pulmonic]; [w_sibilant]; [w_palatal; w_postalveolar]; [w_apical]; [w_not_applicable]; [w_not_applicable]; [w_any]; [w_voiced]; [w_none]; [w_none]; [w_none]; [w_none]; [w_none]; [w_any]; [w_none]]);
   ("zy", [[w_abstract]; [w_consonant]; [w_pulmonic]; [w_sibilant]; [w_palatal]; [w_apical; w_dorsal; w_laminal]; [w_not_applicable]; [w_not_applicable]; [w_any]; [w_voiced]; [w_none]; [w_none]; [w_none]; [w_heavy]; [w_none]; [w_any]; [w_none]]);
   ("zh", [[w_abstract]; [w_consonant]; [w_pulmonic]; [w_sibilant]; [w_postalveolar]; [w_laminal]; [w_not_applicable]; [w_not_applicable]; [w_any]; [w_voiced]; [w_none]; [w_none]; [w_none]; [w_light]; [w_none]; [w_any]; [w_none]]);
   ("x", [[w_abstract]; [w_consonant]; [w_pulmonic]; [w_stop]; [w_glottal]; [w_laryngeal]; [w_not_applicable]; [w_not_applicable]; [w_any]; [w_voiceless]; [w_none]; [w_none]; [w_none]; [w_none]; [w_none]; [w_any]; [w_none]]);
   ("cha", [[w_abstract]; [w_consonant]; [w_pulmonic]; [w_non_sibilant]; [w_epiglottal]; [w_laryngeal]; [w_not_applicable]; [w_not_applicable]; [w_any]; [w_voiced]; [w_none]; [w_none]; [w_none]; [w_none]; [w_none]; [w_any]; [w_none]]);
   ("c", [[w_abstract]; [w_consonant]; [w_pulmonic]; [w_stop]; [w_epiglottal]; [w_laryngeal]; [w_not_applicable]; [w_not_applicable]; [w_any]; [w_voiceless]; [w_none]; [w_none]; [w_none]; [w_none]; [w_none]; [w_any]; [w_none]]);
   ("hh", [[w_abstract]; [w_consonant]; [w_pulmonic]; [w_trill]; [w_epiglottal]; [w_laryngeal]; [w_not_applicable]; [w_not_applicable]; [w_any]; [w_any]; [w_none]; [w_none]; [w_none]; [w_none]; [w_none]; [w_any]; [w_none]]);
   ("bh", [[w_abstract]; [w_consonant]; [w_pulmonic]; [w_non_sibilant]; [w_labial]; [w_labial]; [w_not_applicable]; [w_not_applicable]; [w_any]; [w_voiced]; [w_labialized]; [w_none]; [w_none]; [w_none]; [w_none]; [w_any]; [w_none]]);
   ("th", [[w_abstract]; [w_consonant]; [w_pulmonic]; [w_non_sibilant]; [w_dental]; [w_apical]; [w_not_applicable]; [w_not_applicable]; [w_any]; [w_voiceless]; [w_none]; [w_none]; [w_none]; [w_none]; [w_none]; [w_any]; [w_none]]);
   ("qh", [[w_abstract]; [w_consonant]; [w_pulmonic]; [w_non_sibilant]; [w_uvular]; [w_dorsal]; [w_not_applicable]; [w_not_applicable]; [w_any]; [w_voiceless]; [w_none]; [w_none]; [w_none]; [w_none]; [w_none]; [w_any]; [w_none]]);
   ("yw", [[w_abstract]; [w_consonant]; [w_pulmonic]; [w_approximant]; [w_palatal]; [w_apical; w_dorsal; w_laminal]; [w_not_applicable]; [w_not_applicable]; [w_any]; [w_any]; [w_labialized]; [w_none]; [w_none]; [w_heavy]; [w_none]; [w_any]; [w_none]]);
   ("hw", [[w_abstract]; [w_consonant]; [w_pulmonic]; [w_non_sibilant]; [w_velar]; [w_dorsal]; [w_not_applicable]; [w_not_applicable]; [w_any]; [w_voiceless]; [w_labialized]; [w_none]; [w_none]; [w_none]; [w_none]; [w_any]; [w_none]]);
   ("w", [[w_abstract]; [w_consonant]; [w_pulmonic]; [w_approximant]; [w_velar]; [w_dorsal]; [w_not_applicable]; [w_not_applicable]; [w_any]; [w_any]; [w_labialized]; [w_none]; [w_none]; [w_none]; [w_none]; [w_any]; [w_none]]);
   ("sj", [[w_abstract]; [w_consonant]; [w_pulmonic]; [w_non_sibilant]; [w_velar]; [w_dorsal]; [w_not_applicable]; [w_not_applicable]; [w_any]; [w_voiceless]; [w_none]; [w_none]; [w_none]; [w_heavy]; [w_none]; [w_any]; [w_none]]);
   ("lw", [[w_abstract]; [w_consonant]; [w_pulmonic]; [w_approximant]; [w_velar]; [w_dorsal]; [w_not_applicable]; [w_not_applicable]; [w_any]; [w_voiced]; [w_labialized]; [w_lateral]; [w_none]; [w_none]; [w_none]; [w_any]; [w_none]])].
(** latn.md: aspects, and each symbol with the values of these aspects *)
Definition latn_aspects_documented : list string := ["type"; "ph_class"; "airstream"; "manner"; "place"; "articulator"; "height"; "backness"; "breathiness"; "voicing"; "labialization"; "lateralization"; "nasalization"; "palatalization"; "rhoticization"; "duration"; "syllabicity"; "script"; "gr_class"; "case"].
Definition latn_documented : list (string * list (list string)) :=
  [("zero", [[w_raw]; [w_not_applicable]; [w_not_applicable]; [w_not_applicable]; [w_not_applicable]; [w_not_applicable]; [w_not_applicable]; [w_not_applicable]; [w_not_applicable]; [w_not_applicable]; [w_not_applicable]; [w_not_applicable]; [w_not_applicable]; [w_not_applicable]; [w_not_applicable]; [w_not_applicable]; [w_not_applicable]; [w_Latin]; [w_number]; [w_any]]);
   ("one", [[w_raw]; [w_not_applicable]; [w_not_applicable]; [w_not_applicable]; [w_not_applicable]; [w_not_applicable]; [w_not_applicable]; [w_not_applicable]; [w_not_applicable]; [w_not_applicable]; [w_not_applicable]; [w_not_applicable]; [w_not_applicable]; [w_not_applicable]; [w_not_applicable]; [w_not_applicable]; [w_not_applicable]; [w_Latin]; [w_number]; [w_any]]);
   ("two", [[w_raw]; [w_not_applicable]; [w_not_applicable]; [w_not_applicable]; [w_not_applicable]; [w_not_applicable]; [w_not_applicable]; [w_not_applicable]; [w_not_applicable]; [w_not_applicable]; [w_not_applicable]; [w_not_applicable]; [w_not_applicable]; [w_not_applicable]; [w_not_applicable]; [w_not_applicable]; [w_not_applicable]; [w_Latin]; [w_number]; [w_any]]);
   ("three", [[w_raw]; [w_not_applicable]; [w_not_applicable]; [w_not_applicable]; [w_not_applicable]; [w_not_applicable]; [w_not_applicable]; [w_not_applicable]; [w_not_applicable]; [w_not_applicable]; [w_not_applicable]; [w_not_applicable]; [w_not_applicable]; [w_not_applicable]; [w_not_applicable]; [w_not_applicable]; [w_not_applicable]; [w_Latin]; [w_number]; [w_any]]);
   ("four", [[w_raw]; [w_not_applicable]; [w_not_applicable]; [w_not_applicable]; [w_not_applicable]; [w_not_applicable]; [w_not_applicable]; [w_not_applicable]; [w_not_applicable]; [w_not_applicable]; [w_not_applicable]; [w_not_applicable]; [w_not_applicable]; [w_not_applicable]; [w_not_applicable]; [w_not_applicable]; [w_not_applicable]; [w_Latin]; [w_number]; [w_any]]);
   ("five", [[w_raw]; [w_not_applicable]; [w_not_applicable]; [w_not_applicable]; [w_not_applicable]; [w_not_applicable]; [w_not_applicable]; [w_not_applicable]; [w_not_applicable]; [w_not_applicable]; [w_not_applicable]; [w_not_applicable]; [w_not_applicable]; [w_not_applicable]; [w_not_applicable]; [w_not_applicable]; [w_not_applicable]; [w_Latin]; [w_number]; [w_any]]);
   ("six", [[w_raw]; [w_not_applicable]; [w_not_applicable]; [w_not_applicable]; [w_not_applicable]; [w_not_applicable]; [w_not_applicable]; [w_not_applicable]; [w_not_applicable]; [w_not_applicable]; [w_not_applicable]; [w_not_applicable]; [w_not_applicable]; [w_not_applicable]; [w_not_applicable]; [w_not_applicable]; [w_not_applicable]; [w_Latin]; [w_number]; [w_any]]);
   ("seven", [[w_raw]; [w_not_applicable]; [w_not_applicable]; [w_not_applicable]; [w_not_applicable]; [w_not_applicable]; [w_not_applicable]; [w_not_applicable]; [w_not_applicable]; [w_not_applicable]; [w_not_applicable]; [w_not_applicable]; [w_not_applicable]; [w_not_applicable]; [w_not_applicable]; [w_not_applicable]; [w_not_applicable]; [w_Latin]; [w_number]; [w_any]]);
   ("eight", [[w_raw]; [w_not_applicable]; [w_not_applicable]; [w_not_applicable]; [w_not_applicable]; [w_not_applicable]; [w_not_applicable]; [w_not_applicable]; [w_not_applicable]; [w_not_applicable]; [w_not_applicable]; [w_not_applicable]; [w_not_applicable]; [w_not_applicable]; [w_not_applicable]; [w_not_applicable]; [w_not_applicable]; [w_Latin]; [w_number]; [w_any]]);
   ("nine", [[w_raw]; [w_not_applicable]; [w_not_applicable]; [w_not_applicable]; [w_not_applicable]; [w_not_applicable]; [w_not_applicable]; [w_not_applicable]; [w_not_applicable]; [w_not_applicable]; [w_not_applicable]; [w_not_applicable]; [w_not_applicable]; [w_not_applicable]; [w_not_applicable]; [w_not_applicable]; [w_not_applicable]; [w_Latin]; [w_number]; [w_any]]);
   ("a_upper", [[w_raw]; [w_vowel]; [w_pulmonic]; [w_not_applicable]; [w_not_applicable]; [w_not_applicable]; [w_near_open; w_open]; [w_front; w_near_front]; [w_none]; [w_voiced]; [w_unrounded]; [w_not_applicable]; [w_none]; [w_none]; [w_none]; [w_any]; [w_syllabic]; [w_Latin]; [w_letter]; [w_upper]]);
   ("b_upper", [[w_raw]; [w_consonant]; [w_pulmonic]; [w_stop]; [w_labial]; [w_labial]; [w_not_applicable]; [w_not_applicable]; [w_any]; [w_voiced]; [w_labialized]; [w_none]; [w_none]; [w_none]; [w_none]; [w_any]; [w_none]; [w_Latin]; [w_letter]; [w_upper]]);
   ("c_upper", [[w_raw]; [w_consonant]; [w_pulmonic]; [w_fricative; w_stop]; [w_alveolar; w_dental; w_palatal; w_postalveolar]; [w_apical; w_laminal]; [w_not_applicable]; [w_not_applicable]; [w_any]; [w_voiceless]; [w_none]; [w_none]; [w_none]; [w_none]; [w_none]; [w_any]; [w_none]; [w_Latin]; [w_letter]; [w_upper]]);
   ("d_upper", [[w_raw]; [w_consonant]; [w_pulmonic]; [w_stop]; [w_alveolar; w_dental; w_palatal; w_postalveolar]; [w_apical; w_laminal]; [w_not_applicable]; [w_not_applicable]; [w_any]; [w_voiced]; [w_none]; [w_none]; [w_none]; [w_none]; [w_none]; [w_any]; [w_none]; [w_Latin]; [w_letter]; [w_upper]]);
   ("e_upper", [[w_raw]; [w_vowel]; [w_pulmonic]; [w_not_applicable]; [w_not_applicable]; [w_not_applicable]; [w_close_mid; w_mid; w_open_mid]; [w_front; w_near_front]; [w_none]; [w_voiced]; [w_unrounded]; [w_not_applicable]; [w_none]; [w_none]; [w_none]; [w_any]; [w_syllabic]; [w_Latin]; [w_letter]; [w_upper]]);
   ("f_upper", [[w_raw]; [w_consonant]; [w_pulmonic]; [w_fricative]; [w_dental]; [w_labial]; [w_not_applicable]; [w_not_applicable]; [w_any]; [w_voiceless]; [w_labialized]; [w_none]; [w_none]; [w_none]; [w_none]; [w_any]; [w_none]; [w_Latin]; [w_letter]; [w_upper]]);
   ("g_upper", [[w_raw]; [w_consonant]; [w_pulmonic]; [w_stop]; [w_velar]; [w_dorsal]; [w_not_applicable]; [w_not_applicable]; [w_any]; [w_voiced]; [w_none]; [w_none]; [w_none]; [w_none]; [w_none]; [w_any]; [w_none]; [w_Latin]; [w_letter]; [w_upper]]);
   ("h_upper", [[w_raw]; [w_consonant]; [w_pulmonic]; [w_fricative]; [w_glottal]; [w_laryngeal]; [w_not_applicable]; [w_not_applicable]; [w_any]; [w_any]; [w_none]; [w_none]; [w_none]; [w_none]; [w_none]; [w_any]; [w_none]; [w_Latin]; [w_letter]; [w_upper]]);
   ("i_upper", [[w_raw]; [w_vowel]; [w_pulmonic]; [w_not_applicable]; [w_not_applicable]; [w_not_applicable]; [w_close; w_near_close]; [w_front; w_near_front]; [w_none]; [w_voiced]; [w_unrounded]; [w_not_applicable]; [w_none]; [w_none]; [w_none]; [w_any]; [w_syllabic]; [w_Latin]; [w_letter]; [w_upper]]);
   ("j_upper", [[w_raw]; [w_consonant]; [w_pulmonic]; [w_fricative; w_stop]; [w_alveolar; w_dental; w_palatal; w_postalveolar]; [w_apical; w_laminal]; [w_not_applicable]; [w_not_applicable]; [w_any]; [w_voiced]; [w_none]; [w_none]; [w_none]; [w_none]; [w_none]; [w_any]; [w_none]; [w_Latin]; [w_letter]; [w_upper]]);
   ("k_upper", [[w_raw]; [w_consonant]; [w_pulmonic]; [w_stop]; [w_velar]; [w_dorsal]; [w_not_applicable]; [w_not_applicable]; [w_any]; [w_voiceless]; [w_none]; [w_none]; [w_none]; [w_none]; [w_none]; [w_any]; [w_none]; [w_Latin]; [w_letter]; [w_upper]]);
   ("l_upper", [[w_raw]; [w_consonant]; [w_pulmonic]; [w_approximant]; [w_alveolar; w_dental; w_palatal; w_postalveolar]; [w_apical; w_laminal]; [w_not_applicable]; [w_not_applicable]; [w_any]; [w_voiced]; [w_none]; [w_lateral]; [w_none]; [w_none]; [w_none]; [w_any]; [w_none]; [w_Latin]; [w_letter]; [w_upper]]);
   ("m_upper", [[w_raw]; [w_consonant]; [w_pulmonic]; [w_stop]; [w_labial]; [w_labial]; [w_not_applicable]; [w_not_applicable]; [w_any]; [w_voiced]; [w_labialized]; [w_none]; [w_nasalized]; [w_none]; [w_none]; [w_any]; [w_none]; [w_Latin]; [w_letter]; [w_upper]]);
   ("n_upper", [[w_raw]; [w_consonant]; [w_pulmonic]; [w_stop]; [w_alveolar; w_dental; w_palatal; w_postalveolar]; [w_apical; w_laminal]; [w_not_applicable]; [w_not_applicable]; [w_any]; [w_voiced]; [w_none]; [w_none]; [w_nasalized]; [w_none]; [w_none]; [w_any]; [w_none]; [w_Latin]; [w_letter]; [w_upper]]);
   ("o_upper", [[w_raw]; [w_vowel]; [w_pulmonic]; [w_not_applicable]; [w_not_applicable]; [w_not_applicable]; [w_near_open; w_open]; [w_back; w_near_back]; [w_none]; [w_voiced]; [w_rounded]; [w_not_applicable]; [w_none]; [w_none]; [w_none]; [w_any]; [w_syllabic]; [w_Latin]; [w_letter]; [w_upper]]);
   ("p_upper", [[w_raw]; [w_consonant]; [w_pulmonic]; [w_stop]; [w_labial]; [w_labial]; [w_not_applicable]; [w_not_applicable]; [w_any]; [w_voiceless]; [w_labialized]; [w_none]; [w_none]; [w_none]; [w_none]; [w_any]; [w_none]; [w_Latin]; [w_letter]; [w_upper]]);
   ("q_upper", [[w_raw]; [w_consonant]; [w_pulmonic]; [w_any]; [w_velar]; [w_dorsal]; [w_not_applicable]; [w_not_applicable]; [w_any]; [w_voiceless]; [w_none]; [w_none]; [w_none]; [w_none]; [w_none]; [w_any]; [w_none]; [w_Latin]; [w_letter]; [w_upper]]);
   ("r_upper", [[w_raw]; [w_consonant]; [w_pulmonic]; [w_any]; [w_alveolar; w_dental; w_palatal; w_postalveolar]; [w_apical; w_laminal]; [w_not_applicable]; [w_not_applicable]; [w_any]; [w_any]; [w_none]; [w_none]; [w_none]; [w_none]; [w_rhotic]; [w_any]; [w_none]; [w_Latin]; [w_letter]; [w_upper]]);
   ("s_upper", [[w_raw]; [w_consonant]; [w_pulmonic]; [w_fricative]; [w_alveolar; w_dental; w_palatal; w_postalveolar]; [w_apical; w_laminal]; [w_not_applicable]; [w_not_applicable]; [w_any]; [w_voiceless]; [w_none]; [w_none]; [w_none]; [w_none]; [w_none]; [w_any]; [w_none]; [w_Latin]; [w_letter]; [w_upper]]);
   ("t_upper", [[w_raw]; [w_consonant]; [w_pulmonic]; [w_stop]; [w_alveolar; w_dental; w_palatal; w_postalveolar]; [w_apical; w_laminal]; [w_not_applicable]; [w_not_applicable]; [w_any]; [w_voiceless]; [w_none]; [w_none]; [w_none]; [w_none]; [w_none]; [w_any]; [w_none]; [w_Latin]; [w_letter]; [w_upper]]);
   ("u_upper", [[w_raw]; [w_vowel]; [w_pulmonic]; [w_not_applicable]; [w_not_applicable]; [w_not_applicable]; [w_close; w_near_close]; [w_back; w_near_back]; [w_none]; [w_voiced]; [w_rounded]; [w_not_applicable]; [w_none]; [w_none]; [w_none]; [w_any]; [w_syllabic]; [w_Latin]; [w_letter]; [w_upper]]);
   ("v_upper", [[w_raw]; [w_consonant]; [w_pulmonic]; [w_fricative]; [w_dental]; [w_labial]; [w_not_applicable]; [w_not_applicable]; [w_any]; [w_voiced]; [w_labialized]; [w_none]; [w_none]; [w_none]; [w_none]; [w_any]; [w_none]; [w_Latin]; [w_letter]; [w_upper]]);
   ("w_upper", [[w_raw]; [w_consonant]; [w_pulmonic]; [w_approximant]; [w_labial; w_velar]; [w_dorsal; w_labial]; [w_not_applicable]; [w_not_applicable]; [w_any]; [w_voiced]; [w_labialized]; [w_none]; [w_none]; [w_none]; [w_none]; [w_any]; [w_none]; [w_Latin]; [w_letter]; [w_upper]]);
   ("x_upper", [[w_raw]; [w_consonant]; [w_pulmonic]; [w_fricative; w_stop]; [w_alveolar; w_velar]; [w_apical; w_dorsal; w_laminal]; [w_not_applicable]; [w_not_applicable]; [w_any]; [w_voiceless]; [w_none]; [w_none]; [w_none]; [w_none]; [w_none]; [w_any]; [w_none]; [w_Latin]; [w_letter]; [w_upper]]);
   ("y_upper", [[w_raw]; [w_consonant]; [w_pulmonic]; [w_approximant]; [w_palatal]; [w_apical; w_dorsal; w_laminal]; [w_not_applicable]; [w_not_applicable]; [w_any]; [w_voiced]; [w_none]; [w_none]; [w_none]; [w_heavy]; [w_none]; [w_any]; [w_none]; [w_Latin]; [w_letter]; [w_upper]]);
   ("z_upper", [[w_raw]; [w_consonant]; [w_pulmonic]; [w_fricative]; [w_alveolar; w_dental; w_palatal; w_postalveolar]; [w_apical; w_laminal]; [w_not_applicable]; [w_not_applicable]; [w_any]; [w_voiced]; [w_none]; [w_none]; [w_none]; [w_none]; [w_none]; [w_any]; [w_none]; [w_Latin]; [w_letter]; [w_upper]]);
   ("a", [[w_raw]; [w_vowel]; [w_pulmonic]; [w_not_applicable]; [w_not_applicable]; [w_not_applicable]; [w_near_open; w_open]; [w_front; w_near_front]; [w_none]; [w_voiced]; [w_unrounded]; [w_not_applicable]; [w_none]; [w_none]; [w_none]; [w_any]; [w_syllabic]; [w_Latin]; [w_letter]; [w_lower]]);
   ("b", [[w_raw]; [w_consonant]; [w_pulmonic]; [w_stop]; [w_labial]; [w_labial]; [w_not_applicable]; [w_not_applicable]; [w_any]; [w_voiced]; [w_labialized]; [w_none]; [w_none]; [w_none]; [w_none]; [w_any]; [w_none]; [w_Latin]; [w_letter]; [w_lower]]);
   ("c", [[w_raw]; [w_consonant]; [w_pulmonic]; [w_fricative; w_stop]; [w_alveolar; w_dental; w_palatal; w_postalveolar]; [w_apical; w_laminal]; [w_not_applicable]; [w_not_applicable]; [w_any]; [w_voiceless]; [w_none]; [w_none]; [w_none]; [w_none]; [w_none]; [w_any]; [w_none]; [w_Latin]; [w_letter]; [w_lower]]);
   ("d", [[w_raw]; [w_consonant]; [w_pulmonic]; [w_stop]; [w_alveolar; w_dental; w_palatal; w_postalveolar]; [w_apical; w_laminal]; [w_not_applicable]; [w_not_applicable]; [w_any]; [w_voiced]; [w_none]; [w_none]; [w_none]; [w_none]; [w_none]; [w_any]; [w_none]; [w_Latin]; [w_letter]; [w_lower]]);
   ("e", [[w_raw]; [w_vowel]; [w_pulmonic]; [w_not_applicable]; [w_not_applicable]; [w_not_applicable]; [w_close_mid; w_mid; w_open_mid]; [w_front; w_near_front]; [w_none]; [w_voiced]; [w_unrounded]; [w_not_applicable]; [w_none]; [w_none]; [w_none]; [w_any]; [w_syllabic]; [w_Latin]; [w_letter]; [w_lower]]);
   ("f", [[w_raw]; [w_consonant]; [w_pulmonic]; [w_fricative]; [w_dental]; [w_labial]; [w_not_applicable]; [w_not_applicable]; [w_any]; [w_voiceless]; [w_labialized]; [w_none]; [w_none]; [w_none]; [w_none]; [w_any]; [w_none]; [w_Latin]; [w_letter]; [w_lower]]);
   ("g", [[w_raw]; [w_consonant]; [w_pulmonic]; [w_stop]; [w_velar]; [w_dorsal]; [w_not_applicable]; [w_not_applicable]; [w_any]; [w_voiced]; [w_none]; [w_none]; [w_none]; [w_none]; [w_none]; [w_any]; [w_none]; [w_Latin]; [w_letter]; [w_lower]]);
   ("h", [[w_raw]; [w_consonant]; [w_pulmonic]; [w_fricative]; [w_glottal]; [w_laryngeal]; [w_not_applicable]; [w_not_applicable]; [w_any]; [w_any]; [w_none]; [w_none]; [w_none]; [w_none]; [w_none]; [w_any]; [w_none]; [w_Latin]; [w_letter]; [w_lower]]);
   ("i", [[w_raw]; [w_vowel]; [w_pulmonic]; [w_not_applicable]; [w_not_applicable]; [w_not_applicable]; [w_close; w_near_close]; [w_front; w_near_front]; [w_none]; [w_voiced]; [w_unrounded]; [w_not_applicable]; [w_none]; [w_none]; [w_none]; [w_any]; [w_syllabic]; [w_Latin]; [w_letter]; [w_lower]]);
   ("j", [[w_raw]; [w_consonant]; [w_pulmonic]; [w_fricative; w_stop]; [w_alveolar; w_dental; w_palatal; w_postalveolar]; [w_apical; w_laminal]; [w_not_applicable]; [w_not_applicable]; [w_any]; [w_voiced]; [w_none]; [w_none]; [w_none]; [w_none]; [w_none]; [w_any]; [w_none]; [w_Latin]; [w_letter]; [w_lower]]);
   ("k", [[w_raw]; [w_consonant]; [w_pulmonic]; [w_stop]; [w_velar]; [w_dorsal]; [w_not_applicable]; [w_not_applicable]; [w_any]; [w_voiceless]; [w_none]; [w_none]; [w_none]; [w_none]; [w_none]; [w_any]; [w_none]; [w_Latin]; [w_letter]; [w_lower]]);
   ("l", [[w_raw]; [w_consonant]; [w_pulmonic]; [w_approximant]; [w_alveolar; w_dental; w_palatal; w_postalveolar]; [w_apical; w_laminal]; [w_not_applicable]; [w_not_applicable]; [w_any]; [w_voiced]; [w_none]; [w_lateral]; [w_none]; [w_none]; [w_none]; [w_any]; [w_none]; [w_Latin]; [w_letter]; [w_lower]]);
   ("m", [[w_raw]; [w_consonant]; [w_pulmonic]; [w_stop]; [w_labial]; [w_labial]; [w_not_applicable]; [w_not_applicable]; [w_any]; [w_voiced]; [w_labialized]; [w_none]; [w_nasalized]; [w_none]; [w_none]; [w_any]; [w_none]; [w_Latin]; [w_letter]; [w_lower]]);
   ("n", [[w_raw]; [w_consonant]; [w_pulmonic]; [w_stop]; [w_alveolar; w_dental; w_palatal; w_postalveolar]; [w_apical; w_laminal]; [w_not_applicable]; [w_not_applicable]; [w_any]; [w_voiced]; [w_none]; [w_none]; [w_nasalized]; [w_none]; [w_none]; [w_any]; [w_none]; [w_Latin]; [w_letter]; [w_lower]]);
   ("o", [[w_raw]; [w_vowel]; [w_pulmonic]; [w_not_applicable]; [w_not_applicable]; [w_not_applicable]; [w_near_open; w_open]; [w_back; w_near_back]; [w_none]; [w_voiced]; [w_rounded]; [w_not_applicable]; [w_none]; [w_none]; [w_none]; [w_any]; [w_syllabic]; [w_Latin]; [w_letter]; [w_lower]]);
   ("p", [[w_raw]; [w_consonant]; [w_pulmonic]; [w_stop]; [w_labial]; [w_labial]; [w_not_applicable]; [w_not_applicable]; [w_any]; [w_voiceless]; [w_labialized]; [w_none]; [w_none]; [w_none]; [w_none]; [w_any]; [w_none]; [w_Latin]; [w_letter]; [w_lower]]);
   ("q", [[w_raw]; [w_consonant]; [w_pulmonic]; [w_any]; [w_velar]; [w_dorsal]; [w_not_applicable]; [w_not_applicable]; [w_any]; [w_voiceless]; [w_none]; [w_none]; [w_none]; [w_none]; [w_none]; [w_any]; [w_none]; [w_Latin]; [w_letter]; [w_lower]]);
   ("r", [[w_raw]; [w_consonant]; [w_pulmonic]; [w_any]; [w_alveolar; w_dental; w_palatal; w_postalveolar]; [w_apical; w_laminal]; [w_not_applicable]; [w_not_applicable]; [w_any]; [w_any]; [w_none]; [w_none]; [w_none]; [w_none]; [w_rhotic]; [w_any]; [w_none]; [w_Latin]; [w_letter]; [w_lower]]);
   ("s", [[w_raw]; [w_consonant]; [w_pulmonic]; [w_fricative]; [w_alveolar; w_dental; w_palatal; w_postalveolar]; [w_apical; w_laminal]; [w_not_applicable]; [w_not_applicable]; [w_any]; [w_voiceless]; [w_none]; [w_none]; [w_none]; [w_none]; [w_none]; [w_any]; [w_none]; [w_Latin]; [w_letter]; [w_lower]]);
   ("t", [[w_raw]; [w_consonant]; [w_pulmonic]; [w_stop]; [w_alveolar; w_dental; w_palatal; w_postalveolar]; [w_apical; w_laminal]; [w_not_applicable]; [w_not_applicable]; [w_any]; [w_voiceless]; [w_none]; [w_none]; [w_none]; [w_none]; [w_none]; [w_any]; [w_none]; [w_Latin]; [w_letter]; [w_lower]]);
   ("u", [[w_raw]; [w_vowel]; [w_pulmonic]; [w_not_applicable]; [w_not_applicable]; [w_not_applicable]; [w_close; w_near_close]; [w_back; w_near_back]; [w_none]; [w_voiced]; [w_rounded]; [w_not_applicable]; [w_none]; [w_none]; [w_none]; [w_any]; [w_syllabic]; [w_Latin]; [w_letter]; [w_lower]]);
   ("v", [[w_raw]; [w_consonant]; [w_pulmonic]; [w_fricative]; [w_dental]; [w_labial]; [w_not_applicable]; [w_not_applicable]; [w_any]; [w_voiced]; [w_labialized]; [w_none]; [w_none]; [w_none]; [w_none]; [w_any]; [w_none]; [w_Latin]; [w_letter]; [w_lower]]);
   ("w", [[w_raw]; [w_consonant]; [w_pulmonic]; [w_approximant]; [w_labial; w_velar]; [w_dorsal; w_labial]; [w_not_applicable]; [w_not_applicable]; [w_any]; [w_voiced]; [w_labialized]; [w_none]; [w_none]; [w_none]; [w_none]; [w_any]; [w_none]; [w_Latin]; [w_letter]; [w_lower]]);
   ("x", [[w_raw]; [w_consonant]; [w_pulmonic]; [w_fricative; w_stop]; [w_alveolar; w_velar]; [w_apical; w_dorsal; w_laminal]; [w_not_applicable]; [w_not_applicable]; [w_any]; [w_voiceless]; [w_none]; [w_none]; [w_none]; [w_none]; [w_none]; [w_any]; [w_none]; [w_Latin]; [w_letter]; [w_lower]]);
   ("y", [[w_raw]; [w_consonant]; [w_pulmonic]; [w_approximant]; [w_palatal]; [w_apical; w_dorsal; w_laminal]; [w_not_applicable]; [w_not_applicable]; [w_any]; [w_voiced]; [w_none]; [w_none]; [w_none]; [w_heavy]; [w_none]; [w_any]; [w_none]; [w_Latin]; [w_letter]; [w_lower]]);
   ("z", [[w_raw]; [w_consonant]; [w_pulmonic]; [w_fricative]; [w_alveolar; w_dental; w_palatal; w_postalveolar]; [w_apical; w_laminal]; [w_not_applicable]; [w_not_applicable]; [w_any]; [w_voiced]; [w_none]; [w_none]; [w_none]; [w_none]; [w_none]; [w_any]; [w_none]; [w_Latin]; [w_letter]; [w_lower]])].
(** en_latn.md: aspects, and each symbol with the values of these aspects *)
Definition en_latn_aspects_documented : list string := ["type"; "ph_class"; "airstream"; "manner"; "place"; "articulator"; "height"; "backness"; "breathiness"; "voicing"; "labialization"; "lateralization"; "nasalization"; "palatalization"; "rhoticization"; "duration"; "syllabicity"; "script"; "gr_class"; "case"].
Definition en_latn_documented : list (string * list (list string)) :=
  [("zero", [[w_raw]; [w_not_applicable]; [w_not_applicable]; [w_not_applicable]; [w_not_applicable]; [w_not_applicable]; [w_not_applicable]; [w_not_applicable]; [w_not_applicable]; [w_not_applicable]; [w_not_applicable]; [w_not_applicable]; [w_not_applicable]; [w_not_applicable]; [w_not_applicable]; [w_not_applicable]; [w_not_applicable]; [w_Latin]; [w_number]; [w_any]]);
   ("one", [[w_raw]; [w_not_applicable]; [w_not_applicable]; [w_not_applicable]; [w_not_applicable]; [w_not_applicable]; [w_not_applicable]; [w_not_applicable]; [w_not_applicable]; [w_not_applicable]; [w_not_applicable]; [w_not_applicable]; [w_not_applicable]; [w_not_applicable]; [w_not_applicable]; [w_not_applicable]; [w_not_applicable]; [w_Latin]; [w_number]; [w_any]]);
   ("two", [[w_raw]; [w_not_applicable]; [w_not_applicable]; [w_not_applicable]; [w_not_applicable]; [w_not_applicable]; [w_not_applicable]; [w_not_applicable]; [w_not_applicable]; [w_not_applicable]; [w_not_applicable]; [w_not_applicable]; [w_not_applicable]; [w_not_applicable]; [w_not_applicable]; [w_not_applicable]; [w_not_applicable]; [w_Latin]; [w_number]; [w_any]]);
   ("three", [[w_raw]; [w_not_applicable]; [w_not_applicable]; [w_not_applicable]; [w_not_applicable]; [w_not_applicable]; [w_not_applicable]; [w_not_applicable]; [w_not_applicable]; [w_not_applicable]; [w_not_applicable]; [w_not_applicable]; [w_not_applicable]; [w_not_applicable]; [w_not_applicable]; [w_not_applicable]; [w_not_applicable]; [w_Latin]; [w_number]; [w_any]]);
   ("four", [[w_raw]; [w_not_applicable]; [w_not_applicable]; [w_not_applicable]; [w_not_applicable]; [w_not_applicable]; [w_not_applicable]; [w_not_applicable]; [w_not_applicable]; [w_not_applicable]; [w_not_applicable]; [w_not_applicable]; [w_not_applicable]; [w_not_applicable]; [w_not_applicable]; [w_not_applicable]; [w_not_applicable]; [w_Latin]; [w_number]; [w_any]]);
   ("five", [[w_raw]; [w_not_applicable]; [w_not_applicable]; [w_not_applicable]; [w_not_applicable]; [w_not_applicable]; [w_not_applicable]; [w_not_applicable]; [w_not_applicable]; [w_not_applicable]; [w_not_applicable]; [w_not_applicable]; [w_not_applicable]; [w_not_applicable]; [w_not_applicable]; [w_not_applicable]; [w_not_applicable]; [w_Latin]; [w_number]; [w_any]]);
   ("six", [[w_raw]; [w_not_applicable]; [w_not_applicable]; [w_not_applicable]; [w_not_applicable]; [w_not_applicable]; [w_not_applicable]; [w_not_applicable]; [w_not_applicable]; [w_not_applicable]; [w_not_applicable]; [w_not_applicable]; [w_not_applicable]; [w_not_applicable]; [w_not_applicable]; [w_not_applicable]; [w_not_applicable]; [w_Latin]; [w_number]; [w_any]]);
   ("seven", [[w_raw]; [w_not_applicable]; [w_not_applicable]; [w_not_applicable]; [w_not_applicable]; [w_not_applicable]; [w_not_applicable]; [w_not_applicable]; [w_not_applicable]; [w_not_applicable]; [w_not_applicable]; [w_not_applicable]; [w_not_applicable]; [w_not_applicable]; [w_not_applicable]; [w_not_applicable]; [w_not_applicable]; [w_Latin]; [w_number]; [w_any]]);
   ("eight", [[w_raw]; [w_not_applicable]; [w_not_applicable]; [w_not_applicable]; [w_not_applicable]; [w_not_applicable]; [w_not_applicable]; [w_not_applicable]; [w_not_applicable]; [w_not_applicable]; [w_not_applicable]; [w_not_applicable]; [w_not_applicable]; [w_not_applicable]; [w_not_applicable]; [w_not_applicable]; [w_not_applicable]; [w_Latin]; [w_number]; [w_any]]);
   ("nine", [[w_raw]; [w_not_applicable]; [w_not_applicable]; [w_not_applicable]; [w_not_applicable]; [w_not_applicable]; [w_not_applicable]; [w_not_applicable]; [w_not_applicable]; [w_not_applicable]; [w_not_applicable]; [w_not_applicable]; [w_not_applicable]; [w_not_applicable]; [w_not_applicable]; [w_not_applicable]; [w_not_applicable]; [w_Latin]; [w_number]; [w_any]]);
   ("a_upper", [[w_raw]; [w_vowel]; [w_pulmonic]; [w_not_applicable]; [w_not_applicable]; [w_not_applicable]; [w_close_mid; w_mid; w_near_close; w_near_open; w_open; w_open_mid]; [w_back; w_central; w_front; w_near_front]; [w_none]; [w_voiced]; [w_unrounded]; [w_not_applicable]; [w_none]; [w_none]; [w_none]; [w_any]; [w_syllabic]; [w_Latin]; [w_letter]; [w_upper]]);
   ("b_upper", [[w_raw]; [w_consonant]; [w_pulmonic]; [w_stop]; [w_labial]; [w_labial]; [w_not_applicable]; [w_not_applicable]; [w_any]; [w_voiced]; [w_labialized]; [w_none]; [w_none]; [w_none]; [w_none]; [w_any]; [w_none]; [w_Latin]; [w_letter]; [w_upper]]);
   ("c_upper", [[w_raw]; [w_consonant]; [w_pulmonic]; [w_sibilant; w_stop]; [w_alveolar; w_dental; w_velar]; [w_apical; w_dorsal; w_laminal]; [w_not_applicable]; [w_not_applicable]; [w_any]; [w_voiceless]; [w_none]; [w_none]; [w_none]; [w_none]; [w_none]; [w_any]; [w_none]; [w_Latin]; [w_letter]; [w_upper]]);
   ("d_upper", [[w_raw]; [w_consonant]; [w_pulmonic]; [w_stop]; [w_alveolar; w_dental; w_postalveolar]; [w_apical; w_laminal]; [w_not_applicable]; [w_not_applicable]; [w_any]; [w_voiced]; [w_none]; [w_none]; [w_none]; [w_none]; [w_none]; [w_any]; [w_none]; [w_Latin]; [w_letter]; [w_upper]]);
   ("e_upper", [[w_raw]; [w_vowel]; [w_pulmonic]; [w_not_applicable]; [w_not_applicable]; [w_not_applicable]; [w_close; w_mid; w_near_close; w_open_mid]; [w_central; w_front; w_near_front]; [w_none]; [w_voiced]; [w_unrounded]; [w_not_applicable]; [w_none]; [w_none]; [w_none]; [w_any]; [w_syllabic]; [w_Latin]; [w_letter]; [w_upper]]);
   ("f_upper", [[w_raw]; [w_consonant]; [w_pulmonic]; [w_non_sibilant]; [w_dental]; [w_labial]; [w_not_applicable]; [w_not_applicable]; [w_any]; [w_voiceless]; [w_labialized]; [w_none]; [w_none]; [w_none]; [w_none]; [w_any]; [w_none]; [w_Latin]; [w_letter]; [w_upper]]);
   ("g_upper", [[w_raw]; [w_consonant]; [w_pulmonic]; [w_sibilant; w_stop]; [w_alveolar; w_dental; w_postalveolar; w_velar]; [w_apical; w_dorsal; w_laminal]; [w_not_applicable]; [w_not_applicable]; [w_any]; [w_voiced]; [w_none]; [w_none]; [w_none]; [w_light; w_none]; [w_none]; [w_any]; [w_none]; [w_Latin]; [w_letter]; [w_upper]]);
   ("h_upper", [[w_raw]; [w_consonant]; [w_pulmonic]; [w_non_sibilant]; [w_glottal]; [w_laryngeal]; [w_not_applicable]; [w_not_applicable]; [w_any]; [w_voiceless]; [w_none]; [w_none]; [w_none]; [w_none]; [w_none]; [w_any]; [w_none]; [w_Latin]; [w_letter]; [w_upper]]);
   ("i_upper", [[w_raw]; [w_vowel]; [w_pulmonic]; [w_not_applicable]; [w_not_applicable]; [w_not_applicable]; [w_mid; w_near_close; w_open; w_open_mid]; [w_central; w_front; w_near_front]; [w_none]; [w_voiced]; [w_unrounded]; [w_not_applicable]; [w_none]; [w_none]; [w_none]; [w_any]; [w_syllabic]; [w_Latin]; [w_letter]; [w_upper]]);
   ("j_upper", [[w_raw]; [w_consonant]; [w_pulmonic]; [w_approximant; w_non_sibilant; w_sibilant; w_stop]; [w_alveolar; w_dental; w_glottal; w_palatal; w_postalveolar]; [w_apical; w_dorsal; w_laminal; w_laryngeal]; [w_not_applicable]; [w_not_applicable]; [w_any]; [w_any; w_voiced; w_voiceless]; [w_none]; [w_none]; [w_none]; [w_heavy; w_light; w_none]; [w_none]; [w_any]; [w_none]; [w_Latin]; [w_letter]; [w_upper]]);
   ("k_upper", [[w_raw]; [w_consonant]; [w_pulmonic]; [w_stop]; [w_velar]; [w_dorsal]; [w_not_applicable]; [w_not_applicable]; [w_any]; [w_voiceless]; [w_none]; [w_none]; [w_none]; [w_none]; [w_none]; [w_any]; [w_none]; [w_Latin]; [w_letter]; [w_upper]]);
   ("l_upper", [[w_raw]; [w_consonant]; [w_pulmonic]; [w_approximant]; [w_alveolar; w_dental; w_postalveolar]; [w_apical; w_laminal]; [w_not_applicable]; [w_not_applicable]; [w_any]; [w_voiced]; [w_none]; [w_lateral]; [w_none]; [w_none]; [w_none]; [w_any]; [w_none]; [w_Latin]; [w_letter]; [w_upper]]);
   ("m_upper", [[w_raw]; [w_consonant]; [w_pulmonic]; [w_stop]; [w_labial]; [w_labial]; [w_not_applicable]; [w_not_applicable]; [w_any]; [w_voiced]; [w_labialized]; [w_none]; [w_nasalized]; [w_none]; [w_none]; [w_any]; [w_none]; [w_Latin]; [w_letter]; [w_upper]]);
   ("n_upper", [[w_raw]; [w_consonant]; [w_pulmonic]; [w_stop]; [w_alveolar; w_dental; w_postalveolar]; [w_apical; w_laminal]; [w_not_applicable]; [w_not_applicable]; [w_any]; [w_voiced]; [w_none]; [w_none]; [w_nasalized]; [w_none]; [w_none]; [w_any]; [w_none]; [w_Latin]; [w_letter]; [w_upper]]);
   ("o_upper", [[w_raw]; [w_vowel]; [w_pulmonic]; [w_not_applicable]; [w_not_applicable]; [w_not_applicable]; [w_close_mid; w_near_close; w_open; w_open_mid]; [w_back; w_near_back]; [w_none]; [w_voiced]; [w_rounded]; [w_not_applicable]; [w_none]; [w_none]; [w_none]; [w_any]; [w_syllabic]; [w_Latin]; [w_letter]; [w_upper]]);
   ("p_upper", [[w_raw]; [w_consonant]; [w_pulmonic]; [w_stop]; [w_labial]; [w_labial]; [w_not_applicable]; [w_not_applicable]; [w_any]; [w_voiceless]; [w_labialized]; [w_none]; [w_none]; [w_none]; [w_none]; [w_any]; [w_none]; [w_Latin]; [w_letter]; [w_upper]]);
   ("q_upper", [[w_raw]; [w_consonant]; [w_pulmonic]; [w_stop]; [w_velar]; [w_dorsal]; [w_not_applicable]; [w_not_applicable]; [w_any]; [w_voiceless]; [w_none]; [w_none]; [w_none]; [w_none]; [w_none]; [w_any]; [w_none]; [w_Latin]; [w_letter]; [w_upper]]);
   ("r_upper", [[w_raw]; [w_consonant]; [w_pulmonic]; [w_trill]; [w_alveolar; w_dental; w_postalveolar]; [w_apical; w_laminal]; [w_not_applicable]; [w_not_applicable]; [w_any]; [w_any]; [w_none]; [w_none]; [w_none]; [w_none]; [w_none]; [w_any]; [w_none]; [w_Latin]; [w_letter]; [w_upper]]);
   ("s_upper", [[w_raw]; [w_consonant]; [w_pulmonic]; [w_sibilant]; [w_alveolar; w_dental; w_postalveolar]; [w_apical; w_laminal]; [w_not_applicable]; [w_not_applicable]; [w_any]; [w_voiced; w_voiceless]; [w_none]; [w_none]; [w_none]; [w_light; w_none]; [w_none]; [w_any]; [w_none]; [w_Latin]; [w_letter]; [w_upper]]);
   ("t_upper", [[w_raw]; [w_consonant]; [w_pulmonic]; [w_sibilant; w_stop]; [w_alveolar; w_dental; w_postalveolar]; [w_apical; w_laminal]; [w_not_applicable]; [w_not_applicable]; [w_any]; [w_voiced; w_voiceless]; [w_none]; [w_none]; [w_none]; [w_light; w_none]; [w_none]; [w_any]; [w_none]; [w_Latin]; [w_letter]; [w_upper]]);
   ("u_upper", [[w_raw]; [w_vowel]; [w_pulmonic]; [w_not_applicable]; [w_not_applicable]; [w_not_applicable]; [w_close; w_mid; w_near_close; w_open_mid]; [w_back; w_central; w_near_back]; [w_none]; [w_voiced]; [w_rounded; w_unrounded]; [w_not_applicable]; [w_none]; [w_none]; [w_none]; [w_any]; [w_syllabic]; [w_Latin]; [w_letter]; [w_upper]]);
   ("v_upper", [[w_raw]; [w_consonant]; [w_pulmonic]; [w_non_sibilant]; [w_dental]; [w_labial]; [w_not_applicable]; [w_not_applicable]; [w_any]; [w_voiced]; [w_labialized]; [w_none]; [w_none]; [w_none]; [w_none]; [w_any]; [w_none]; [w_Latin]; [w_letter]; [w_upper]]);
   ("w_upper", [[w_raw]; [w_consonant]; [w_pulmonic]; [w_approximant]; [w_velar]; [w_dorsal]; [w_not_applicable]; [w_not_applicable]; [w_any]; [w_any]; [w_labialized]; [w_none]; [w_none]; [w_none]; [w_none]; [w_any]; [w_none]; [w_Latin]; [w_letter]; [w_upper]]);
   ("x_upper", [[w_raw]; [w_consonant]; [w_pulmonic]; [w_sibilant; w_stop]; [w_alveolar; w_dental; w_postalveolar; w_velar]; [w_apical; w_dorsal; w_laminal]; [w_not_applicable]; [w_not_applicable]; [w_any]; [w_voiced; w_voiceless]; [w_none]; [w_none]; [w_none]; [w_light; w_none]; [w_none]; [w_any]; [w_none]; [w_Latin]; [w_letter]; [w_upper]]);
   ("y_upper", [[w_raw]; [w_consonant; w_vowel]; [w_pulmonic]; [w_approximant; w_not_applicable]; [w_not_applicable; w_palatal]; [w_apical; w_dorsal; w_laminal; w_not_applicable]; [w_mid; w_near_close; w_not_applicable; w_open; w_open_mid]; [w_central; w_front; w_near_front; w_not_applicable]; [w_any; w_none]; [w_any; w_voiced]; [w_none; w_unrounded]; [w_none; w_not_applicable]; [w_none]; [w_heavy; w_none]; [w_none]; [w_any]; [w_none; w_syllabic]; [w_Latin]; [w_letter]; [w_upper]]);
   ("z_upper", [[w_raw]; [w_consonant]; [w_pulmonic]; [w_sibilant; w_stop]; [w_alveolar; w_dental; w_postalveolar]; [w_apical; w_laminal]; [w_not_applicable]; [w_not_applicable]; [w_any]; [w_voiced; w_voiceless]; [w_none]; [w_none]; [w_none]; [w_light; w_none]; [w_none]; [w_any]; [w_none]; [w_Latin]; [w_letter]; [w_upper]]);
   ("a", [[w_raw]; [w_vowel]; [w_pulmonic]; [w_not_applicable]; [w_not_applicable]; [w_not_applicable]; [w_close_mid; w_mid; w_near_close; w_near_open; w_open; w_open_mid]; [w_back; w_central; w_front; w_near_front]; [w_none]; [w_voiced]; [w_unrounded]; [w_not_applicable]; [w_none]; [w_none]; [w_none]; [w_any]; [w_syllabic]; [w_Latin]; [w_letter]; [w_lower]]);
   ("b", [[w_raw]; [w_consonant]; [w_pulmonic]; [w_stop]; [w_labial]; [w_labial]; [w_not_applicable]; [w_not_applicable]; [w_any]; [w_voiced]; [w_labialized]; [w_none]; [w_none]; [w_none]; [w_none]; [w_any]; [w_none]; [w_Latin]; [w_letter]; [w_lower]]);
   ("c", [[w_raw]; [w_consonant]; [w_pulmonic]; [w_sibilant; w_stop]; [w_alveolar; w_dental; w_velar]; [w_apical; w_dorsal; w_laminal]; [w_not_applicable]; [w_not_applicable]; [w_any]; [w_voiceless]; [w_none]; [w_none]; [w_none]; [w_none]; [w_none]; [w_any]; [w_none]; [w_Latin]; [w_letter]; [w_lower]]);
   ("d", [[w_raw]; [w_consonant]; [w_pulmonic]; [w_stop]; [w_alveolar; w_dental; w_postalveolar]; [w_apical; w_laminal]; [w_not_applicable]; [w_not_applicable]; [w_any]; [w_voiced]; [w_none]; [w_none]; [w_none]; [w_none]; [w_none]; [w_any]; [w_none]; [w_Latin]; [w_letter]; [w_lower]]);
   ("e", [[w_raw]; [w_vowel]; [w_pulmonic]; [w_not_applicable]; [w_not_applicable]; [w_not_applicable]; [w_close; w_mid; w_near_close; w_open_mid]; [w_central; w_front; w_near_front]; [w_none]; [w_voiced]; [w_unrounded]; [w_not_applicable]; [w_none]; [w_none]; [w_none]; [w_any]; [w_syllabic]; [w_Latin]; [w_letter]; [w_lower]]);
   ("f", [[w_raw]; [w_consonant]; [w_pulmonic]; [w_non_sibilant]; [w_dental]; [w_labial]; [w_not_applicable]; [w_not_applicable]; [w_any]; [w_voiceless]; [w_labialized]; [w_none]; [w_none]; [w_none]; [w_none]; [w_any]; [w_none]; [w_Latin]; [w_letter]; [w_lower]]);
   ("g", [[w_raw]; [w_consonant]; [w_pulmonic]; [w_sibilant; w_stop]; [w_alveolar; w_dental; w_postalveolar; w_velar]; [w_apical; w_dorsal; w_laminal]; [w_not_applicable]; [w_not_applicable]; [w_any]; [w_voiced]; [w_none]; [w_none]; [w_none]; [w_light; w_none]; [w_none]; [w_any]; [w_none]; [w_Latin]; [w_letter]; [w_lower]]);
   ("h", [[w_raw]; [w_consonant]; [w_pulmonic]; [w_non_sibilant]; [w_glottal]; [w_laryngeal]; [w_not_applicable]; [w_not_applicable]; [w_any]; [w_voiceless]; [w_none]; [w_none]; [w_none]; [w_none]; [w_none]; [w_any]; [w_none]; [w_Latin]; [w_letter]; [w_lower]]);
   ("i", [[w_raw]; [w_vowel]; [w_pulmonic]; [w_not_applicable]; [w_not_applicable]; [w_not_applicable]; [w_mid; w_near_close; w_open; w_open_mid]; [w_central; w_front; w_near_front]; [w_none]; [w_voiced]; [w_unrounded]; [w_not_applicable]; [w_none]; [w_none]; [w_none]; [w_any]; [w_syllabic]; [w_Latin]; [w_letter]; [w_lower]]);
   ("j", [[w_raw]; [w_consonant]; [w_pulmonic]; [w_approximant; w_non_sibilant; w_sibilant; w_stop]; [w_alveolar; w_dental; w_glottal; w_palatal; w_postalveolar]; [w_apical; w_dorsal; w_laminal; w_laryngeal]; [w_not_applicable]; [w_not_applicable]; [w_any]; [w_any; w_voiced; w_voiceless]; [w_none]; [w_none]; [w_none]; [w_heavy; w_light; w_none]; [w_none]; [w_any]; [w_none]; [w_Latin]; [w_letter]; [w_lower]]);
   ("k", [[w_raw]; [w_consonant]; [w_pulmonic]; [w_stop]; [w_velar]; [w_dorsal]; [w_not_applicable]; [w_not_applicable]; [w_any]; [w_voiceless]; [w_none]; [w_none]; [w_none]; [w_none]; [w_none]; [w_any]; [w_none]; [w_Latin]; [w_letter]; [w_lower]]);
   ("l", [[w_raw]; [w_consonant]; [w_pulmonic]; [w_approximant]; [w_alveolar; w_dental; w_postalveolar]; [w_apical; w_laminal]; [w_not_applicable]; [w_not_applicable]; [w_any]; [w_voiced]; [w_none]; [w_lateral]; [w_none]; [w_none]; [w_none]; [w_any]; [w_none]; [w_Latin]; [w_letter]; [w_lower]]);
   ("m", [[w_raw]; [w_consonant]; [w_pulmonic]; [w_stop]; [w_labial]; [w_labial]; [w_not_applicable]; [w_not_applicable]; [w_any]; [w_voiced]; [w_labialized]; [w_none]; [w_nasalized]; [w_none]; [w_none]; [w_any]; [w_none]; [w_Latin]; [w_letter]; [w_lower]]);
   ("n", [[w_raw]; [w_consonant]; [w_pulmonic]; [w_stop]; [w_alveolar; w_dental; w_postalveolar]; [w_apical; w_laminal]; [w_not_applicable]; [w_not_applicable]; [w_any]; [w_voiced]; [w_none]; [w_none]; [w_nasalized]; [w_none]; [w_none]; [w_any]; [w_none]; [w_Latin]; [w_letter]; [w_lower]]);
   ("o", [[w_raw]; [w_vowel]; [w_pulmonic]; [w_not_applicable]; [w_not_applicable]; [w_not_applicable]; [w_close_mid; w_near_close; w_open; w_open_mid]; [w_back; w_near_back]; [w_none]; [w_voiced]; [w_rounded]; [w_not_applicable]; [w_none]; [w_none]; [w_none]; [w_any]; [w_syllabic]; [w_Latin]; [w_letter]; [w_lower]]);
   ("p", [[w_raw]; [w_consonant]; [w_pulmonic]; [w_stop]; [w_labial]; [w_labial]; [w_not_applicable]; [w_not_applicable]; [w_any]; [w_voiceless]; [w_labialized]; [w_none]; [w_none]; [w_none]; [w_none]; [w_any]; [w_none]; [w_Latin]; [w_letter]; [w_lower]]);
   ("q", [[w_raw]; [w_consonant]; [w_pulmonic]; [w_stop]; [w_velar]; [w_dorsal]; [w_not_applicable]; [w_not_applicable]; [w_any]; [w_voiceless]; [w_none]; [w_none]; [w_none]; [w_none]; [w_none]; [w_any]; [w_none]; [w_Latin]; [w_letter]; [w_lower]]);
   ("r", [[w_raw]; [w_consonant]; [w_pulmonic]; [w_trill]; [w_alveolar; w_dental; w_postalveolar]; [w_apical; w_laminal]; [w_not_applicable]; [w_not_applicable]; [w_any]; [w_any]; [w_none]; [w_none]; [w_none]; [w_none]; [w_none]; [w_any]; [w_none]; [w_Latin]; [w_letter]; [w_lower]]);
   ("s", [[w_raw]; [w_consonant]; [w_pulmonic]; [w_sibilant]; [w_alveolar; w_dental; w_postalveolar]; [w_apical; w_laminal]; [w_not_applicable]; [w_not_applicable]; [w_any]; [w_voiced; w_voiceless]; [w_none]; [w_none]; [w_none]; [w_light; w_none]; [w_none]; [w_any]; [w_none]; [w_Latin]; [w_letter]; [w_lower]]);
   ("t", [[w_raw]; [w_consonant]; [w_pulmonic]; [w_sibilant; w_stop]; [w_alveolar; w_dental; w_postalveolar]; [w_apical; w_laminal]; [w_not_applicable]; [w_not_applicable]; [w_any]; [w_voiced; w_voiceless]; [w_none]; [w_none]; [w_none]; [w_light; w_none]; [w_none]; [w_any]; [w_none]; [w_Latin]; [w_letter]; [w_lower]]);
   ("u", [[w_raw]; [w_vowel]; [w_pulmonic]; [w_not_applicable]; [w_not_applicable]; [w_not_applicable]; [w_close; w_mid; w_near_close; w_open_mid]; [w_back; w_central; w_near_back]; [w_none]; [w_voiced]; [w_rounded; w_unrounded]; [w_not_applicable]; [w_none]; [w_none]; [w_none]; [w_any]; [w_syllabic]; [w_Latin]; [w_letter]; [w_lower]]);
   ("v", [[w_raw]; [w_consonant]; [w_pulmonic]; [w_non_sibilant]; [w_dental]; [w_labial]; [w_not_applicable]; [w_not_applicable]; [w_any]; [w_voiced]; [w_labialized]; [w_none]; [w_none]; [w_none]; [w_none]; [w_any]; [w_none]; [w_Latin]; [w_letter]; [w_lower]]);
   ("w", [[w_raw]; [w_consonant]; [w_pulmonic]; [w_approximant]; [w_velar]; [w_dorsal]; [w_not_applicable]; [w_not_applicable]; [w_any]; [w_any]; [w_labialized]; [w_none]; [w_none]; [w_none]; [w_none]; [w_any]; [w_none]; [w_Latin]; [w_letter]; [w_lower]]);
   ("x", [[w_raw]; [w_consonant]; [w_pulmonic]; [w_sibilant; w_stop]; [w_alveolar; w_dental; w_postalveolar; w_velar]; [w_apical; w_dorsal; w_laminal]; [w_not_applicable]; [w_not_applicable]; [w_any]; [w_voiced; w_voiceless]; [w_none]; [w_none]; [w_none]; [w_light; w_none]; [w_none]; [w_any]; [w_none]; [w_Latin]; [w_letter]; [w_lower]]);
   ("y", [[w_raw]; [w_consonant; w_vowel]; [w_pulmonic]; [w_approximant; w_not_applicable]; [w_not_applicable; w_palatal]; [w_apical; w_dorsal; w_laminal; w_not_applicable]; [w_mid; w_near_close; w_not_applicable; w_open; w_open_mid]; [w_central; w_front; w_near_front; w_not_applicable]; [w_any; w_none]; [w_any; w_voiced]; [w_none; w_unrounded]; [w_none; w_not_applicable]; [w_none]; [w_heavy; w_none]; [w_none]; [w_any]; [w_none; w_syllabic]; [w_Latin]; [w_letter]; [w_lower]]);
   ("z", [[w_raw]; [w_consonant]; [w_pulmonic]; [w_sibilant; w_stop]; [w_alveolar; w_dental; w_postalveolar]; [w_apical; w_laminal]; [w_not_applicable]; [w_not_applicable]; [w_any]; [w_voiced; w_voiceless]; [w_none]; [w_none]; [w_none]; [w_light; w_none]; [w_none]; [w_any]; [w_none]; [w_Latin]; [w_letter]; [w_lower]])].
(** descriptive.md: each aspect, its greatest distance (in quarters), its features and their distances *)
Definition distances_documented : list (string * Z * list string * list (list Z)) :=
  [("ph_class", 4, ["vowel"; "consonant"],
     [[0; 4]; [4; 0]]);
   ("airstream", 4, ["pulmonic"; "ejective"; "implosive"; "click"],
     [[0; 4; 4; 4]; [4; 0; 0; 4]; [4; 0; 0; 4]; [4; 4; 4; 0]]);
   ("manner", 8, ["stop"; "fricative"; "sibilant"; "strident"; "non_sibilant"; "approximant"; "tap"; "flap"; "trill"],
     [[0; 4; 4; 4; 4; 8; 8; 8; 8]; [4; 0; 0; 0; 0; 4; 4; 4; 4]; [4; 0; 0; 1; 2; 4; 4; 4; 4]; [4; 0; 1; 0; 1; 4; 4; 4; 4]; [4; 0; 2; 1; 0; 4; 4; 4; 4]; [8; 4; 4; 4; 4; 0; 4; 4; 4]; [8; 4; 4; 4; 4; 4; 0; 0; 2]; [8; 4; 4; 4; 4; 4; 0; 0; 2]; [8; 4; 4; 4; 4; 4; 2; 2; 0]]);
   ("place", 16, ["labial"; "dental"; "alveolar"; "postalveolar"; "palatal"; "velar"; "uvular"; "epiglottal"; "glottal"],
     [[0; 2; 4; 6; 8; 10; 12; 14; 16]; [2; 0; 2; 4; 6; 8; 10; 12; 14]; [4; 2; 0; 2; 4; 6; 8; 10; 12]; [6; 4; 2; 0; 2; 4; 6; 8; 10]; [8; 6; 4; 2; 0; 2; 4; 6; 8]; [10; 8; 6; 4; 2; 0; 2; 4; 6]; [12; 10; 8; 6; 4; 2; 0; 2; 4]; [14; 12; 10; 8; 6; 4; 2; 0; 2]; [16; 14; 12; 10; 8; 6; 4; 2; 0]]);
   ("articulator", 2, ["labial"; "apical"; "laminal"; "dorsal"; "laryngeal"],
     [[0; 2; 2; 2; 2]; [2; 0; 2; 2; 2]; [2; 2; 0; 2; 2]; [2; 2; 2; 0; 2]; [2; 2; 2; 2; 0]]);
   ("height", 12, ["close"; "near_close"; "close_mid"; "mid"; "open_mid"; "near_open"; "open"],
     [[0; 2; 4; 6; 8; 10; 12]; [2; 0; 2; 4; 6; 8; 10]; [4; 2; 0; 2; 4; 6; 8]; [6; 4; 2; 0; 2; 4; 6]; [8; 6; 4; 2; 0; 2; 4]; [10; 8; 6; 4; 2; 0; 2]; [12; 10; 8; 6; 4; 2; 0]]);
   ("backness", 8, ["front"; "near_front"; "central"; "near_back"; "back"],
     [[0; 2; 4; 6; 8]; [2; 0; 2; 4; 6]; [4; 2; 0; 2; 4]; [6; 4; 2; 0; 2]; [8; 6; 4; 2; 0]]);
   ("breathiness", 4, ["aspirated"; "breathy"; "murmured"; "unaspirated"; "none"],
     [[0; 0; 0; 4; 4]; [0; 0; 0; 4; 4]; [0; 0; 0; 4; 4]; [4; 4; 4; 0; 0]; [4; 4; 4; 0; 0]]);
   ("voicing", 4, ["voiced"; "voiceless"],
     [[0; 4]; [4; 0]]);
   ("labialization", 4, ["labialized"; "rounded"; "none"; "unrounded"],
     [[0; 0; 4; 4]; [0; 0; 4; 4]; [4; 4; 0; 0]; [4; 4; 0; 0]]);
   ("lateralization", 4, ["lateral"; "none"],
     [[0; 4]; [4; 0]]);
   ("nasalization", 4, ["nasalized"; "none"],
     [[0; 4]; [4; 0]]);
   ("palatalization", 4, ["light"; "heavy"; "none"],
     [[0; 2; 4]; [2; 0; 2]; [4; 2; 0]]);
   ("rhoticization", 4, ["rhotic"; "none"],
     [[0; 4]; [4; 0]]);
   ("duration", 8, ["extra_short"; "short"; "half_long"; "long"; "extra_long"],
     [[0; 2; 4; 6; 8]; [2; 0; 2; 4; 6]; [4; 2; 0; 2; 4]; [6; 4; 2; 0; 2]; [8; 6; 4; 2; 0]]);
   ("syllabicity", 4, ["syllabic"; "none"],
     [[0; 4]; [4; 0]])]%Z.
