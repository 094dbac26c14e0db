(** What the pronunciation grammars make of each character, and what Telugu and Kannada texts sound like. *)
From Coq Require Import String.
From Verif Require Import Base AlignSpec NatModel NatSpec.
Local Open Scope string_scope.
Local Open Scope list_scope.

(** ** The sounds of characters in each language *)

(** A character with its usual sound *)
Definition usual (c : bchar) : str := bytes "<" ++ bytes (btyp c) ++ bytes ">=" ++ encs (bph c).
(** Vocalic l and r *)
Definition vocalics : list string := ["vcl"; "lv"; "rv"; "llv"; "rrv"; "lv_i"; "rv_i"; "llv_i"; "rrv_i"].
Definition vocalic_sounds (v : string) : list string :=
  ["<vcl>={" ++ v ++ "}"; "<lv>={l}{" ++ v ++ "}"; "<rv>={r}{" ++ v ++ "}"; "<llv>={l}{" ++ v ++ "}{:h}"; "<rrv>={r}{" ++ v ++ "}{:h}";
   "<lv_i>={l}{" ++ v ++ "}"; "<rv_i>={r}{" ++ v ++ "}"; "<llv_i>={l}{" ++ v ++ "}{:h}"; "<rrv_i>={r}{" ++ v ++ "}{:h}"]%string.
Definition nasal_sounds (g : string) : list string := map (fun n => "<" ++ g ++ ">={" ++ n ++ "}")%string ["m"; "ni"; "ny"; "nn"; "ng"].
Definition short_a : list string := ["an"; "an_i"; "a_i"].
Definition short_a_sounds : list string := ["<an>={ec}"; "<an_i>={ec}"; "<a_i>={ec}"].
Definition diphthongs : list string := ["ai"; "au"; "ai_i"; "au_i"].
Definition diphthong_sounds : list string := ["<ai>={eh}{:h}"; "<ai_i>={eh}{:h}"; "<au>={oh}{:h}"; "<au_i>={oh}{:h}"].

(** The characters that never have their usual sound *)
Definition changed (l : lang) : list string :=
  ["a"] ++ vocalics ++
  match l with
  | Hi => short_a ++ diphthongs
  | Bn => ["a_i"; "ans"; "yy"; "ph"]
  | Ta | Te | Ml => ["ans"]
  | Gu => short_a ++ diphthongs ++ ["ans"; "ph"]
  | Kn => ["ans"; "r"; "reph"; "r_eye"]
  | Mr => short_a ++ diphthongs ++ ["ans"; "ph"]
  | Pa => short_a ++ diphthongs ++ ["ph"]
  end.
(** The gemination mark doubles the sound after it; doubled aspirates lose aspiration *)
Definition doubled : list string :=
  ["<b>={b}{b}"; "<c>={t}{+}{sh}{t}{+}{sh}"; "<c>={t}{t}{+}{sh}"; "<d>={di}{di}"; "<dd>={dd}{dd}"; "<f>={f}{f}"; "<g>={g}{g}"; "<gg>={gh}{gh}"; "<h>={h}{h}";
   "<j>={d}{+}{zh}{d}{+}{zh}"; "<k>={k}{k}"; "<l>={l}{l}"; "<ll>={ll}{ll}"; "<lr>={rru}{rru}"; "<m>={m}{m}"; "<n>={ni}{ni}"; "<ny>={ny}{ny}"; "<ng>={ng}{ng}";
   "<nn>={nn}{nn}"; "<na>={n}{n}"; "<p>={p}{p}"; "<q>={q}{q}"; "<r>={rt}{rt}"; "<rd>={rd}{rd}"; "<rr>={r}{r}"; "<s>={s}{s}"; "<sh>={sh}{sh}"; "<ss>={ss}{ss}";
   "<t>={ti}{ti}"; "<tt>={tt}{tt}"; "<ta>={t}{t}"; "<v>={vu}{vu}"; "<x>={kh}{kh}"; "<y>={y}{y}"; "<yy>={y}{y}{H}"; "<z>={z}{z}"; "<vis>={h}{h}"; "<vis_ta>={g}{g}";
   "<upadh>={h}{h}"; "<jihva>={h}{h}"; "<bh>={b}{b}{H}"; "<ch>={t}{+}{sh}{t}{+}{sh}{H}"; "<ch>={t}{t}{+}{sh}{H}"; "<dh>={di}{di}{H}"; "<ddh>={dd}{dd}{H}";
   "<gh>={g}{g}{H}"; "<jh>={d}{+}{zh}{d}{+}{zh}{H}"; "<kh>={k}{k}{H}"; "<ph>={p}{p}{H}"; "<rdh>={rd}{rd}{H}"; "<th>={ti}{ti}{H}"; "<tth>={tt}{tt}{H}"; "<k_chl>={k}{k}";
   "<l_chl>={l}{l}"; "<ll_chl>={ll}{ll}"; "<n_chl>={n}{n}"; "<nn_chl>={nn}{nn}"; "<rr_chl>={r}{r}"; "<reph>={rt}{rt}"; "<r_eye>={rt}{rt}"; "<lv>={l}{l}{i}"; "<rv>={r}{r}{i}";
   "<lv_i>={l}{l}{i}"; "<rv_i>={r}{r}{i}"; "<llv_i>={l}{l}{i}{:h}"; "<rrv_i>={r}{r}{i}{:h}"; "<llv>={l}{l}{i}{:h}"; "<rrv>={r}{r}{i}{:h}";
   "<bh>={b}{b}"; "<ch>={t}{+}{sh}{t}{+}{sh}"; "<ch>={t}{t}{+}{sh}"; "<dh>={di}{di}"; "<ddh>={dd}{dd}"; "<gh>={g}{g}"; "<jh>={d}{+}{zh}{d}{+}{zh}"; "<kh>={k}{k}"; "<ph>={p}{p}";
   "<rdh>={rd}{rd}"; "<th>={ti}{ti}"; "<tth>={tt}{tt}"; "<yy>={y}{y}"; "<ph>={f}{p}{H}"; "<ph>={f}{p}"].
Definition plain_stops : list string :=
  ["<bh>={b}"; "<asp>="; "<ch>={t}{+}{sh}"; "<dh>={di}"; "<ddh>={dd}"; "<gh>={g}"; "<jh>={d}{+}{zh}"; "<kh>={k}"; "<rdh>={rd}"; "<th>={ti}"; "<tth>={tt}"; "<yy>={y}"].
(** Other sounds *)
Definition special (l : lang) : list string :=
  match l with
  | Hi => short_a_sounds ++ diphthong_sounds ++ vocalic_sounds "i" ++ nasal_sounds "ans" ++ ["<a>={sil}"; "<a>={ec}"; "<j>={g}<ny>={y}"; "<ph>={f}<ph>={f}"]
  | Bn => ["<a_i>={ae}"] ++ vocalic_sounds "i" ++ ["<a>={sil}"; "<a>={oh}"; "<ans>={ng}"; "<j>={g}<ny>={g}"; "<yy>={y}"; "<oo_i><yy>={vu}"; "<bh>={vu}"; "<b>={vu}"; "<ph>={f}"]
  | Ta => vocalic_sounds "ec" ++ nasal_sounds "ans" ++ ["<a>={a}"; "<rr><rr>={t}{t}"; "<na><rr>={n}{d}{r}"; "<k>={g}"; "<p>={b}"; "<t>={di}"; "<tt>={dd}"; "<ta>={d}"; "<c>={s}"; "<c>={d}{+}{zh}";
      "<k_chl>={g}"; "<j>={sil}<ny>={ny}"]
  | Gu => short_a_sounds ++ ["<ai>={ec}{+}{i}"; "<ai_i>={ec}{+}{i}"; "<au>={ec}{+}{u}"; "<au_i>={ec}{+}{u}"] ++ vocalic_sounds "u" ++ nasal_sounds "ans" ++
      ["<a>={sil}"; "<a>={ec}"; "<j>={di}<ny>={ny}"; "<ph>={f}"]
  | Kn => vocalic_sounds "u" ++ nasal_sounds "ans" ++ ["<a>={a}"; "<j>={g}<ny>={ny}"; "<r>={r}"; "<reph>={r}"; "<r_eye>={r}"]
  | Te => vocalic_sounds "u" ++ nasal_sounds "ans" ++ ["<a>={a}"; "<j>={g}<ny>={ny}"]
  | Ml => vocalic_sounds "ec" ++ nasal_sounds "ans" ++ ["<a>={a}"; "<rr><rr>={t}{t}"; "<k>={g}"; "<p>={b}"; "<t>={di}"; "<tt>={dd}"; "<ta>={d}"; "<c>={d}{+}{zh}"; "<k_chl>={g}";
      "<kh>={g}{H}"; "<ph>={b}{H}"; "<th>={di}{H}"; "<tth>={dd}{H}"; "<ch>={d}{+}{zh}{H}"; "<j>={sil}<ny>={ny}"]
  | Mr => short_a_sounds ++ diphthong_sounds ++ vocalic_sounds "u" ++ ["<h>={H}"] ++ nasal_sounds "ans" ++ ["<a>={sil}"; "<a>={ec}"; "<j>={di}<ny>={ny}"; "<ph>={f}"]
  | Pa => doubled ++ plain_stops ++ short_a_sounds ++ diphthong_sounds ++ vocalic_sounds "i" ++ nasal_sounds "ans" ++ nasal_sounds "tip" ++
      ["<u_i>={o}"; "<oo><aa_i>={ec}{o}"; "<ans><v>={o}{N}"; "<a>={sil}"; "<a>={ec}"; "<ph>={f}"]
  end.
(** One or two characters with their sounds *)
Definition sound (l : lang) (p : str) : Prop :=
  In p (map bytes (special l)) \/ exists c, In c CHARS /\ ~ In (btyp c) (changed l) /\ p = usual c.
(** A silent aspiration mark in Bengali, which is not known to occur *)
Definition silent_mark (l : lang) (p : str) : Prop := l = Bn /\ p = bytes "<asp>=".

(** There is a text in whose pronunciation it occurs, at the end or before another one *)
Definition occurs (l : lang) (p : str) : Prop :=
  exists cs u v, letters cs /\ In (u ++ p ++ v) (pronounce l (text_of cs)) /\ (v = [] \/ exists v', v = bytes "<" ++ v').

(** ** Telugu and Kannada *)

(** The nasal of the place where the next sound is made, otherwise m; an anusvara before another one
    is ny if a sound with the tip of the tongue follows that *)
Definition named (c : bchar) (t : string) : bool := String.eqb (btyp c) t.
Definition among (x : tok) (l : list string) : bool := existsb (fun s => match x with Ph y => str_eqb y (bytes s) | _ => false end) l.
Definition starts_among (ds : list bchar) (l : list string) : bool := match ds with c :: _ => match bph c with x :: _ => among x l | [] => false end | [] => false end.
Definition nasal_before (ds : list bchar) : string :=
  if match ds with c :: _ => named c "ans" | [] => false end then if starts_among (tl ds) ["n"; "d"; "t"] then "ny" else "m"
  else if starts_among ds ["ni"; "di"; "ti"] then "ni" else if starts_among ds ["n"; "d"; "t"; "ny"; "y"] then "ny"
  else if starts_among ds ["nn"; "dd"; "tt"] then "nn" else if starts_among ds ["ng"; "g"; "k"] then "ng" else "m".
(** The inherent vowel is a, vocalic is u, Kannada does not tell two kinds of r apart *)
Definition southern (kannada : bool) (x : tok) : tok :=
  if among x ["_"] then Ph (bytes "a") else if among x ["S"] then Ph (bytes "u") else if kannada then if among x ["rt"] then Ph (bytes "r") else x else x.
Fixpoint southern_sounds (kannada : bool) (ds : list bchar) : list tok :=
  match ds with
  | [] => []
  | c :: rest =>
      let this := if named c "ans" then [Ph (bytes (nasal_before rest))]
                  else if named c "j" then match rest with d :: _ => if named d "ny" then [Ph (bytes "g")] else bph c | [] => bph c end
                  else map (southern kannada) (bph c) in
      symbol_of c :: Eq :: this ++ southern_sounds kannada rest
  end.
(** Letters: fine romanization and natural romanization *)
Definition southern_letters : list (string * (string * string)) :=
  let same := map (fun q : string * string => (fst q, (snd q, snd q))) in
  same [("a", "a"); ("ac", "ae"); ("an", "a"); ("e", "e"); ("ec", "ae"); ("i", "i"); ("o", "o"); ("oc", "o"); ("u", "u"); ("b", "b"); ("c", "ch"); ("d", "d"); ("dd", "d"); ("f", "f"); ("g", "g");
        ("gg", "g"); ("h", "h"); ("j", "j"); ("k", "k"); ("l", "l"); ("ll", "l"); ("lr", "zh"); ("m", "m"); ("n", "n"); ("ny", "ny"); ("ng", "ng"); ("nn", "n"); ("na", "n"); ("p", "p"); ("q", "k");
        ("r", "r"); ("rd", "rd"); ("rr", "r"); ("s", "s"); ("sh", "sh"); ("ss", "sh"); ("t", "t"); ("tt", "t"); ("ta", "t"); ("v", "v"); ("x", "kh"); ("y", "y"); ("yy", "yh"); ("z", "z"); ("avg", "");
        ("nkt", ""); ("vis", "h"); ("vis_ta", "g"); ("cnd_dia", ""); ("upadh", "h"); ("jihva", "h"); ("add", ""); ("tip", "n"); ("asp", "h"); ("vcl", "u"); ("long", ""); ("chl", ""); ("eye", "");
        ("ind", ""); ("sgn", ""); ("zwj", ""); ("zwn", ""); ("lv", "lu"); ("rv", "ru"); ("ai", "ai"); ("au", "au"); ("ac_i", "ae"); ("an_i", "a"); ("e_i", "e"); ("ec_i", "ae"); ("i_i", "i"); ("o_i", "o");
        ("oc_i", "o"); ("u_i", "u"); ("ai_i", "ai"); ("au_i", "au"); ("lv_i", "lu"); ("rv_i", "ru"); ("a_i", "a"); ("bh", "bh"); ("ch", "chh"); ("dh", "dh"); ("ddh", "dh"); ("gh", "gh"); ("jh", "jh");
        ("kh", "kh"); ("ph", "ph"); ("rdh", "dh"); ("th", "th"); ("tth", "th"); ("k_chl", "k"); ("l_chl", "l"); ("ll_chl", "l"); ("n_chl", "n"); ("nn_chl", "n"); ("rr_chl", "r"); ("reph", "r");
        ("r_eye", "r"); ("cnd", "n"); ("vir", "")] ++
  [("aa", ("aa", "a")); ("ee", ("ee", "e")); ("ii", ("ii", "i")); ("oo", ("oo", "o")); ("uu", ("uu", "u")); ("ot", ("oo", "o")); ("aan", ("aa", "a")); ("aa_i", ("aa", "a")); ("ee_i", ("ee", "e"));
   ("ii_i", ("ii", "i")); ("oo_i", ("oo", "o")); ("uu_i", ("uu", "u")); ("llv", ("luu", "lu")); ("rrv", ("ruu", "ru")); ("llv_i", ("luu", "lu")); ("rrv_i", ("ruu", "ru")); ("om", ("oom", "om"))].
(** Anusvara is m or n, jñ is gny *)
Fixpoint southern_spelling (fine : bool) (ds : list bchar) : str :=
  match ds with
  | [] => []
  | c :: rest =>
      let this := if named c "ans" then if String.eqb (nasal_before rest) "m" then "m" else "n"
                  else if named c "j" then match rest with d :: _ => if named d "ny" then "g" else "j" | [] => "j" end
                  else match find (fun q : string * (string * string) => named c (fst q)) southern_letters with
                       | Some (_, (a, b)) => if fine then a else b
                       | None => "?"
                       end in
      bytes this ++ southern_spelling fine rest
  end.
