(** What deromanization means: words of Latin letters are read as spellings of sounds, and
    sounds are written in syllables, in a Brahmic script or in ISO 15919. *)
From Coq Require Import String.
From Verif Require Import Base NatModel.
Local Open Scope string_scope.
Local Open Scope list_scope.

(** Consonants and vowels are called by names *)
Inductive sound := Cons (cs : list string) | Vow (v : string) | Nas.

(** ** Spellings *)
(** With the spelling doubled, or the first of its two letters *)
Definition single (l : list (string * list string)) : list (string * sound) := map (fun p : string * list string => (fst p, Cons (snd p))) l.
Definition twice (l : list (string * list string)) : list (string * list string) := map (fun p : string * list string => ((fst p ++ fst p)%string, snd p ++ snd p)) l.
Definition doubled (l : list (string * list string)) : list (string * list string) :=
  twice l ++ flat_map (fun p : string * list string => match fst p with String a (String b EmptyString) => [(String a (fst p), snd p ++ snd p)] | _ => [] end) l.
Definition with_h (l : list (string * list string)) : list (string * list string) := map (fun p : string * list string => ((fst p ++ "h")%string, snd p)) l.
Definition vowels_as (l : list (string * string)) : list (string * sound) := map (fun p : string * string => (fst p, Vow (snd p))) l.
Definition long_vowels : list (string * sound) := vowels_as [("aa", "aa"); ("ee", "ee"); ("ii", "ii"); ("oo", "oo"); ("uu", "uu")].

(** Stronger spellings come first.  In Tamil stops have no voice or aspiration *)
Definition tamil_stops : list (string * list string) := [("b", ["p"]); ("d", ["t"]); ("g", ["k"]); ("j", ["j"]); ("k", ["k"]); ("p", ["p"]); ("t", ["t"])].
Definition other_consonants : list (string * list string) :=
  [("c", ["c"]); ("h", ["h"]); ("l", ["l"]); ("m", ["m"]); ("n", ["n"]); ("q", ["k"]); ("r", ["r"]); ("s", ["s"]); ("v", ["v"]); ("w", ["v"]); ("x", ["k"; "s"]); ("y", ["y"])].
Definition tamil_digraphs : list (string * list string) := [("ch", ["c"]); ("sh", ["sh"]); ("tr", ["rr"])].
Definition tamil_spellings : list (list (string * sound)) :=
  [single (doubled [("zh", ["lr"])]); single [("zh", ["lr"])]; single (doubled [("f", ["f"]); ("z", ["z"])]); single [("f", ["f"]); ("z", ["z"])];
   single (twice [("chh", ["c"])]); single [("chh", ["c"])]; single (twice (with_h tamil_stops)); single (with_h tamil_stops);
   single (doubled tamil_digraphs); single tamil_digraphs; single (doubled (tamil_stops ++ other_consonants)); single (tamil_stops ++ other_consonants);
   long_vowels; vowels_as [("ai", "ai"); ("au", "au"); ("ae", "ee"); ("oa", "oo")]; vowels_as [("a", "a"); ("e", "e"); ("i", "i"); ("o", "o"); ("u", "u")]].
Definition hindi_stops : list (string * (list string * list string)) :=
  [("b", (["b"], ["bh"])); ("d", (["d"], ["dh"])); ("g", (["g"], ["gh"])); ("j", (["j"], ["jh"])); ("k", (["k"], ["kh"])); ("p", (["p"], ["ph"])); ("t", (["t"], ["th"]))].
Definition unaspirated (l : list (string * (list string * list string))) : list (string * list string) := map (fun p : string * (list string * list string) => (fst p, fst (snd p))) l.
Definition aspirated (l : list (string * (list string * list string))) : list (string * list string) := map (fun p : string * (list string * list string) => ((fst p ++ "h")%string, snd (snd p))) l.
Definition hindi_spellings : list (list (string * sound)) :=
  [single (doubled [("f", ["f"]); ("z", ["z"])]); single [("f", ["f"]); ("z", ["z"])];
   single [("chchh", ["c"; "ch"]); ("cchh", ["c"; "ch"])]; single (twice [("chh", ["ch"])]); single [("chh", ["ch"])];
   single (map (fun p : string * (list string * list string) => ((fst p ++ fst p ++ "h")%string, fst (snd p) ++ snd (snd p))) hindi_stops);
   single (twice (aspirated hindi_stops)); single (aspirated hindi_stops);
   single (doubled [("ch", ["c"]); ("sh", ["sh"])]); single [("ch", ["c"]); ("sh", ["sh"])];
   single (doubled (unaspirated hindi_stops ++ other_consonants)); single (unaspirated hindi_stops ++ other_consonants);
   long_vowels; vowels_as [("ai", "ai"); ("au", "au")]; vowels_as [("e", "ee"); ("o", "oo")]; vowels_as [("a", "a"); ("i", "i"); ("u", "u")]].

(** ** Readings *)
Definition reading := list (string * sound).
Definition typed (R : reading) : str := flat_map (fun p => bytes (fst p)) R.
Definition spelled (T : list (list (string * sound))) (rank : nat) (p : string * sound) : Prop := exists l, nth_error T rank = Some l /\ In p l.
(** Wherever a spelling stands in the word, a part of it was read as a spelling of at least
    its strength *)
Definition strongest (T : list (list (string * sound))) (R : reading) : Prop :=
  forall A X B a s b y rank, R = A ++ X ++ B -> typed X = a ++ bytes s ++ b -> spelled T rank (s, y) -> exists x, In x X /\ (snd x = Nas \/ exists rank', rank' <= rank /\ spelled T rank' x).
(** So that no two spellings next to each other are one *)
Definition unjoined (T : list (list (string * sound))) (R : reading) : Prop :=
  forall A x y B z rank, R = A ++ x :: y :: B -> ~ spelled T rank ((fst x ++ fst y)%string, z).
Definition is_vowel_letter (c : N) : Prop := In c (bytes "aeiou").
(** The nasals of Hindi: n before a consonant that is not n or m, or at the end; m before b
    and p; after a vowel *)
Definition nasal_place (before : str) (s : string) (after : str) : Prop :=
  (exists u v, before = u ++ [v] /\ is_vowel_letter v) /\
  ((s = "n" /\ (after = [] \/ exists c u, after = c :: u /\ ~ In c (bytes "aeiounm"))) \/ (s = "m" /\ exists c u, after = c :: u /\ In c (bytes "bp"))).
Definition tamil_reading (w : str) (R : reading) : Prop :=
  typed R = w /\ Forall (fun p => exists rank, spelled tamil_spellings rank p) R /\ strongest tamil_spellings R /\ unjoined tamil_spellings R.
Definition hindi_reading (w : str) (R : reading) : Prop :=
  typed R = w /\ Forall (fun p => snd p = Nas \/ exists rank, spelled hindi_spellings rank p) R /\ strongest hindi_spellings R /\ unjoined hindi_spellings R /\
  forall A s x B, R = A ++ (s, x) :: B -> (x = Nas <-> nasal_place (typed A) s (typed B)).

(** ** Writing *)
Inductive akshara := Ind (v : string) | Syl (c v : string) | Bare (c : string) | Dead (c : string) | Nasal.
Fixpoint cluster (last : string -> akshara) (cs : list string) : list akshara :=
  match cs with [] => [] | [c] => [last c] | c :: cs' => Dead c :: cluster last cs' end.
(** A vowel goes with the consonant before it; [final] is a consonant without a vowel *)
Fixpoint write (final : string -> akshara) (l : list sound) : list akshara :=
  match l with
  | [] => []
  | Cons cs :: Vow v :: l' => cluster (fun c => Syl c v) cs ++ write final l'
  | Cons cs :: l' => cluster final cs ++ write final l'
  | Vow v :: l' => Ind v :: write final l'
  | Nas :: l' => Nasal :: write final l'
  end.
Definition tamil_write : list sound -> list akshara := write Dead.
(** In Hindi a consonant can stand without a vowel, but two at the start or at the end of a
    word are joined, and a at the end is long *)
Definition join_start (l : list akshara) : list akshara :=
  match l with Bare c :: (Bare _ | Syl _ _ | Dead _) as x :: l' => Dead c :: x :: l' | _ => l end.
Fixpoint join_end (l : list akshara) : list akshara :=
  match l with [] => [] | [Bare c; Bare d] => [Dead c; Bare d] | x :: l' => x :: join_end l' end.
Fixpoint lengthen (l : list akshara) : list akshara :=
  match l with [] => [] | [Syl c "a"] => [Syl c "aa"] | x :: l' => x :: lengthen l' end.
Definition hindi_write (l : list sound) : list akshara := join_end (lengthen (join_start (write Bare l))).

(** ** Scripts *)
Record orthography := Orthography {
  o_consonants : list (string * (string * string)); (* name, ISO 15919, letter *)
  o_vowels : list (string * (string * (string * string))); (* name, ISO 15919, sign, letter *)
  o_virama : string; o_anusvara : option string }.
Definition hindi : orthography := Orthography
  [("k", ("k", "क")); ("kh", ("kʰ", "ख")); ("g", ("g", "ग")); ("gh", ("gʰ", "घ")); ("c", ("c", "च")); ("ch", ("cʰ", "छ")); ("j", ("j", "ज")); ("jh", ("jʰ", "झ"));
   ("t", ("t", "त")); ("th", ("tʰ", "थ")); ("d", ("d", "द")); ("dh", ("dʰ", "ध")); ("n", ("n", "न")); ("p", ("p", "प")); ("ph", ("pʰ", "फ")); ("b", ("b", "ब")); ("bh", ("bʰ", "भ")); ("m", ("m", "म"));
   ("y", ("y", "य")); ("r", ("r", "र")); ("l", ("l", "ल")); ("v", ("v", "व")); ("sh", ("ś", "श")); ("s", ("s", "स")); ("h", ("h", "ह")); ("f", ("f", "फ़")); ("z", ("z", "ज़"))]
  [("a", ("a", ("", "अ"))); ("aa", ("ā", ("ा", "आ"))); ("i", ("i", ("ि", "इ"))); ("ii", ("ī", ("ी", "ई"))); ("u", ("u", ("ु", "उ"))); ("uu", ("ū", ("ू", "ऊ")));
   ("ee", ("ē", ("े", "ए"))); ("ai", ("ai", ("ै", "ऐ"))); ("oo", ("ō", ("ो", "ओ"))); ("au", ("au", ("ौ", "औ")))] "्" (Some "ं").
Definition tamil : orthography := Orthography
  [("k", ("k", "க")); ("c", ("c", "ச")); ("j", ("j", "ஜ")); ("t", ("t", "த")); ("n", ("n", "ந")); ("p", ("p", "ப")); ("m", ("m", "ம"));
   ("y", ("y", "ய")); ("r", ("r", "ர")); ("l", ("l", "ல")); ("v", ("v", "வ")); ("lr", ("ḻ", "ழ")); ("rr", ("ṟ", "ற")); ("sh", ("ś", "ஶ")); ("s", ("s", "ஸ")); ("h", ("h", "ஹ")); ("f", ("f", "ஃப")); ("z", ("z", "ஃஜ"))]
  [("a", ("a", ("", "அ"))); ("aa", ("ā", ("ா", "ஆ"))); ("i", ("i", ("ி", "இ"))); ("ii", ("ī", ("ீ", "ஈ"))); ("u", ("u", ("ு", "உ"))); ("uu", ("ū", ("ூ", "ஊ")));
   ("e", ("e", ("ெ", "எ"))); ("ee", ("ē", ("ே", "ஏ"))); ("ai", ("ai", ("ை", "ஐ"))); ("o", ("o", ("ொ", "ஒ"))); ("oo", ("ō", ("ோ", "ஓ"))); ("au", ("au", ("ௌ", "ஔ")))] "்" None.
(** [None] if there is no such letter *)
Definition look {A} (l : list (string * A)) (n : string) : option A := option_map snd (find (fun p : string * A => String.eqb (fst p) n) l).
Definition both (a b : option string) : option string := match a, b with Some x, Some y => Some (x ++ y)%string | _, _ => None end.
Definition native_akshara (o : orthography) (x : akshara) : option string :=
  match x with
  | Ind v => option_map (fun p : string * (string * string) => snd (snd p)) (look (o_vowels o) v)
  | Syl c v => both (option_map snd (look (o_consonants o) c)) (option_map (fun p : string * (string * string) => fst (snd p)) (look (o_vowels o) v))
  | Bare c => option_map snd (look (o_consonants o) c)
  | Dead c => both (option_map snd (look (o_consonants o) c)) (Some (o_virama o))
  | Nasal => o_anusvara o
  end.
(** Vowels in a word have a dot before them if they are not after a consonant *)
Definition iso_akshara (o : orthography) (first : bool) (x : akshara) : option string :=
  match x with
  | Ind v => both (Some (if first then "" else ".")) (option_map fst (look (o_vowels o) v))
  | Syl c v => both (option_map fst (look (o_consonants o) c)) (option_map fst (look (o_vowels o) v))
  | Bare c => both (option_map fst (look (o_consonants o) c)) (Some "a")
  | Dead c => option_map fst (look (o_consonants o) c)
  | Nasal => Some "ṁ"
  end.
Fixpoint native (o : orthography) (l : list akshara) : option string :=
  match l with [] => Some "" | x :: l' => both (native_akshara o x) (native o l') end.
Definition iso (o : orthography) (l : list akshara) : option string :=
  match l with
  | [] => Some ""
  | x :: l' => both (iso_akshara o true x) (fold_right (fun y t => both (iso_akshara o false y) t) (Some "") l')
  end.
