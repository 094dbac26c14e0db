(** How Malayalam is typed with Latin letters (Mozhi), letter by letter. *)
From Verif Require Import Base.
From Coq Require Import String Ascii.
Local Open Scope string_scope.
Local Open Scope list_scope.

Definition keys (s : string) : str := map N_of_ascii (list_ascii_of_string s).
(** vowel sign, independent vowel and keys; the inherent vowel has no sign *)
Definition vowels : list (str * N * string) :=
  [([], 3333, "a"); ([3390], 3334, "aa"); ([3391], 3335, "i"); ([3392], 3336, "ii"); ([3393], 3337, "u"); ([3394], 3338, "uu"); ([3395], 3339, "R"); ([3396], 3424, "RR");
   ([3398], 3342, "e"); ([3399], 3343, "E"); ([3402], 3346, "o"); ([3403], 3347, "O"); ([3400], 3344, "ai"); ([3415], 3348, "au")]%N.
(** consonants that are written the same wherever they stand *)
Definition firm : list (N * string) :=
  [(3349, "k"); (3350, "kh"); (3351, "g"); (3352, "gh"); (3353, "ng"); (3354, "ch"); (3355, "chh"); (3356, "j"); (3357, "jh"); (3358, "nj");
   (3359, "T"); (3360, "Th"); (3361, "D"); (3362, "Dh"); (3364, "th"); (3365, "thh"); (3366, "d"); (3367, "dh"); (3370, "p"); (3371, "ph"); (3372, "b"); (3373, "bh");
   (3375, "y"); (3381, "v"); (3382, "S"); (3383, "sh"); (3384, "s"); (3385, "h"); (3380, "zh"); (3377, "rr")]%N.
(** consonants that become a sign of their own at the end of a syllable: their keys, and that sign *)
Definition soft : list (N * string * N) :=
  [(3368, "n", 3451); (3363, "N", 3450); (3376, "r", 3406); (3378, "l", 3453); (3379, "L", 3454); (3374, "m", 3330)]%N.
(** clusters with such a consonant that are typed without a tilde *)
Definition soft_clusters : list (string * string) :=
  [("n", "th"); ("n", "thh"); ("n", "d"); ("n", "dh"); ("n", "n"); ("n", "m"); ("n", "y"); ("n", "r"); ("n", "l"); ("n", "v");
   ("N", "T"); ("N", "Th"); ("N", "D"); ("N", "Dh"); ("N", "N"); ("N", "m"); ("N", "y"); ("N", "r"); ("N", "l"); ("N", "v");
   ("r", "y"); ("r", "l"); ("r", "v"); ("l", "p"); ("l", "ph"); ("l", "m"); ("l", "y"); ("l", "r"); ("l", "l"); ("l", "v");
   ("L", "y"); ("L", "r"); ("L", "l"); ("L", "v"); ("L", "L"); ("m", "p"); ("m", "ph"); ("m", "m"); ("m", "y"); ("m", "r"); ("m", "l"); ("m", "v")].
Definition virama : N := 3405%N.

Definition consonants : list (N * string) := firm ++ map (fun s => (fst (fst s), snd (fst s))) soft.
Definition typed_as (k : string) : list N := map fst (filter (fun c => String.eqb (snd c) k) consonants).
Definition clusters : list (str * string) :=
  flat_map (fun '(a, b) => flat_map (fun x => map (fun y => ([x; virama; y], (a ++ b)%string)) (typed_as b)) (typed_as a)) soft_clusters ++
  [([3377; virama; 3377], "t"); ([3451; virama; 3377], "nt")]%N.
Definition onsets : list (str * string) := map (fun c => ([fst c], snd c)) consonants ++ clusters.

(** What a text is made of: native text and keys *)
Inductive kind := Syllable | Half | Joined | Mark | Quiet | Independent.
Definition unit := (kind * (str * str))%type.
Definition m_key (k : string) : bool := String.eqb k "m".
Definition units : list unit :=
  (* an onset and a vowel; m before O is typed wrongly *)
  flat_map (fun o => flat_map (fun v => if m_key (snd o) && String.eqb (snd v) "O" then [] else
    [(Syllable, (fst o ++ fst (fst v), keys (snd o) ++ keys (snd v)))]) vowels) onsets ++
  (* an onset without a vowel: with a tilde, or joined to the next one if it is firm *)
  flat_map (fun o => if m_key (snd o) then [] else [(Half, (fst o ++ [virama], keys (snd o) ++ keys "~"))]) onsets ++
  map (fun c => (Joined, ([fst c; virama], keys (snd c)))) firm ++
  (* anusvara and visarga *)
  [(Mark, ([3330%N], keys "m~")); (Mark, ([3331%N], keys "H"))] ++
  (* consonant signs at the end of a syllable *)
  map (fun s => (Quiet, ([snd s], keys (snd (fst s))))) soft ++
  map (fun v => (Independent, ([snd (fst v)], keys (snd v)))) vowels.
Definition starts (cs : str) (u : unit) : bool := match snd (snd u) with c :: _ => existsb (N.eqb c) cs | [] => false end.
(** which unit may follow which; anything may come last *)
Definition may_follow (u v : unit) : bool :=
  match fst u, fst v with
  | Quiet, (Syllable | Half | Joined) => starts (keys "kcbsShz") v
  | Quiet, _ => false
  | Joined, (Syllable | Half | Joined) => negb (starts (keys "h") v)
  | Joined, Independent => true
  | Joined, _ => false
  | _, _ => true
  end.
Inductive text : list unit -> Prop :=
| text_none : text []
| text_one u : In u units -> text [u]
| text_more u v w : In u units -> may_follow u v = true -> text (v :: w) -> text (u :: v :: w).
Definition native (w : list unit) : str := flat_map (fun u => fst (snd u)) w.
(** a dot is typed between two vowels, and between a half consonant and a vowel *)
Fixpoint typed (after : option kind) (w : list unit) : str :=
  match w with
  | [] => []
  | u :: w' =>
    (match fst u, after with
     | Independent, Some (Syllable | Half | Joined | Independent) => keys "."
     | _, _ => []
     end) ++ snd (snd u) ++ typed (Some (fst u)) w'
  end.
