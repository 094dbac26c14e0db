(** Model of the pronunciation and romanization grammars of
    nisaba/scripts/natural_translit: brahmic/{grapheme_inventory,phoneme_inventory,g2p,romanizer}.py,
    latin/ltn_inventory.py, phonology/{modify_phon,phoneme_inventory,phon}.py,
    phonology/operations/{syllable,voicing}.py and language_params.

    A grammar is a list of operations, each of which is compiled to an FST over bytes by
    rewrite_functions.py (AlignModel).  All texts between reading and printing are
    sequences of symbols (AlignSpec.tok), so the operations are also given on symbols.
    FstList.compose of operations is running them one after the other. *)
From Coq Require Import String Ascii.
From Verif Require Import Base RuleModel RegexModel IsoModel AlignModel AlignSpec.
Local Open Scope list_scope.

Definition bytes (s : string) : str := map N_of_ascii (list_ascii_of_string s).
Definition word := list tok.
(** [gr "a"], [ph "a"] and [tr "a"]: the fields of a Char or a Phon *)
Definition grs (s : string) : word := [Gr (bytes s)].
Definition ph (s : string) : word := [Ph (bytes s)].
Definition trl (s : string) : word := [Tr (bytes s)].

Definition tok_eqb (a b : tok) : bool :=
  match a, b with
  | Gr x, Gr y => str_eqb x y
  | Ph x, Ph y => str_eqb x y
  | Tr x, Tr y => str_eqb x y
  | Eq, Eq => true
  | _, _ => false
  end.
Fixpoint word_eqb (a b : word) : bool :=
  match a, b with
  | [], [] => true
  | x :: a', y :: b' => if tok_eqb x y then word_eqb a' b' else false
  | _, _ => false
  end.

(** ** Contexts *)

(** Regular expressions over symbols: pynini's union, concatenation, ques and star *)
Inductive tre :=
| TWords (l : list word)
| TGraphemes  (* al.GRAPHEMES *)
| TRights  (* al.R_SYMS *)
| TCat (a b : tre) | TAlt (a b : tre) | TQues (a : tre) | TStar (a : tre).
(** What they are on bytes *)
Fixpoint enc_re (r : tre) : re :=
  match r with
  | TWords l => Strs (map encs l)
  | TGraphemes => GRAPHEMES
  | TRights => R_SYMS
  | TCat a b => Cat (enc_re a) (enc_re b)
  | TAlt a b => Alt (enc_re a) (enc_re b)
  | TQues a => Ques (enc_re a)
  | TStar a => Star (enc_re a)
  end.
(** [None] is al.EPSILON itself, the flag stands for [BOS] or [EOS] *)
Definition tctx := option (bool * tre).
Definition enc_ctx (c : tctx) : context := match c with None => None | Some (b, r) => Some (b, enc_re r) end.

(** Matching, with derivatives *)
Fixpoint tnullable (r : tre) : bool :=
  match r with
  | TWords l => existsb (fun w => match w with [] => true | _ => false end) l
  | TGraphemes | TRights => true
  | TCat a b => if tnullable a then tnullable b else false
  | TAlt a b => if tnullable a then true else tnullable b
  | TQues _ | TStar _ => true
  end.
Fixpoint ttails (t : tok) (l : list word) : list word :=
  match l with
  | [] => []
  | [] :: l' => ttails t l'
  | (u :: w) :: l' => if tok_eqb u t then w :: ttails t l' else ttails t l'
  end.
Definition tnull (r : tre) : bool := match r with TWords [] => true | _ => false end.
Definition tcat (a b : tre) : tre := if tnull a then TWords [] else TCat a b.
Definition talt (a b : tre) : tre := if tnull a then b else if tnull b then a else TAlt a b.
Fixpoint tderiv (t : tok) (r : tre) : tre :=
  match r with
  | TWords l => TWords (ttails t l)
  | TGraphemes => if grapheme t then TGraphemes else TWords []
  | TRights => if right_symbol t then TRights else TWords []
  | TCat a b => if tnullable a then talt (tcat (tderiv t a) b) (tderiv t b) else tcat (tderiv t a) b
  | TAlt a b => talt (tderiv t a) (tderiv t b)
  | TQues a => tderiv t a
  | TStar a => tcat (tderiv t a) (TStar a)
  end.
Fixpoint trev (r : tre) : tre :=
  match r with
  | TWords l => TWords (map (@rev tok) l)
  | TGraphemes => TGraphemes
  | TRights => TRights
  | TCat a b => TCat (trev b) (trev a)
  | TAlt a b => TAlt (trev a) (trev b)
  | TQues a => TQues (trev a)
  | TStar a => TStar (trev a)
  end.
(** The whole text, or a part at the start of it *)
Fixpoint taccepts (r : tre) (s : word) : bool :=
  match s with [] => tnullable r | t :: s' => taccepts (tderiv t r) s' end.
Fixpoint tstarts (r : tre) (s : word) : bool :=
  if tnullable r then true else match s with [] => false | t :: s' => tstarts (tderiv t r) s' end.
Definition tctx_ok (c : tctx) (s : word) : bool :=
  match c with None => true | Some (true, r) => taccepts r s | Some (false, r) => tstarts r s end.

(** nisaba/scripts/natural_translit/utils/alignment.py:133-141 *)
Definition TSKIP_LEFT : tre := TQues (TCat TGraphemes (TWords [[Eq]])).
Definition TSKIP_RIGHT : tre := TQues (TCat (TWords [[Eq]]) TRights).
Definition TSKIP : tre := TAlt TSKIP_LEFT TSKIP_RIGHT.
(** nisaba/scripts/natural_translit/utils/rewrite_functions.py:54-59.  The left context is matched against reversed text *)
Definition skip_before (p : tctx) : tctx := match p with None => None | Some (b, r) => Some (b, trev (TCat r TSKIP)) end.
Definition skip_after (f : tctx) : tctx := match f with None => None | Some (b, r) => Some (b, TCat TSKIP r) end.
Definition TBOW : tctx := Some (true, TQues TSKIP_LEFT).
Definition TEOW : tctx := Some (true, TQues TSKIP_RIGHT).

(** ** Operations *)

Inductive op :=
| Rewrite (rs : list (word * word)) (p f : tctx)  (* rewrite_op of a union of pairs *)
| Insert (new : word) (p f : tctx)  (* rewrite_op of a pair with an empty first string *)
| Pairs (l : list (word * word)).  (* FstList.cross(...).union_star() *)

(** On bytes.  cdrewrite of an insertion writes [new] once wherever the contexts allow it *)
Fixpoint insert_scan (new : str) (lc rc : str -> bool) (outr : str) (s : str) : list str :=
  let outr' := if lc outr && rc s then rev new ++ outr else outr in
  match s with [] => [rev outr'] | c :: s' => insert_scan new lc rc (c :: outr') s' end.
Definition insert_op (new : str) (preceding following : context) : fst_t :=
  fun s => insert_scan new (left_ok (option_map (fun '(b, r) => (b, Cat r SKIP)) preceding))
                           (right_ok (option_map (fun '(b, r) => (b, Cat SKIP r)) following)) [] s.
Definition op_bytes (o : op) : fst_t :=
  match o with
  | Rewrite rs p f => rewrite_op (map rule_of rs) (enc_ctx p) (enc_ctx f)
  | Insert new p f => insert_op (encs new) (enc_ctx p) (enc_ctx f)
  | Pairs l => fun s => map fst (outs (WStar (WPairs (map (fun q : word * word => (encs (fst q), encs (snd q))) l))) s)
  end.
Fixpoint run_bytes (l : list op) (s : str) : list str :=
  match l with [] => [s] | o :: l' => flat_map (run_bytes l') (op_bytes o s) end.

(** On symbols *)
Fixpoint tprefix (l s : word) : bool :=
  match l, s with
  | [], _ => true
  | a :: l', b :: s' => if tok_eqb a b then tprefix l' s' else false
  | _, [] => false
  end.
Definition tapplicable (f : tctx) (s : word) (r : word * word) : bool :=
  if tprefix (fst r) s then tctx_ok f (skipn (List.length (fst r)) s) else false.
Fixpoint tscan (rs : list (word * word)) (p f : tctx) (outr : word) (skip : nat) (s : word) : list word :=
  match s with
  | [] => [rev outr]
  | t :: s' =>
      match skip with
      | S k => tscan rs p f outr k s'
      | 0 =>
          match filter (tapplicable f s) rs with
          | [] => tscan rs p f (t :: outr) 0 s'
          | ms => if tctx_ok p outr
                  then flat_map (fun r => tscan rs p f (rev (snd r) ++ outr) (List.length (fst r) - 1) s') ms
                  else tscan rs p f (t :: outr) 0 s'
          end
      end
  end.
Fixpoint tinsert (new : word) (p f : tctx) (outr : word) (s : word) : word :=
  let outr' := if tctx_ok p outr then if tctx_ok f s then rev new ++ outr else outr else outr in
  match s with [] => rev outr' | t :: s' => tinsert new p f (t :: outr') s' end.
Fixpoint tpairs (fuel : nat) (l : list (word * word)) (s : word) : list word :=
  match s, fuel with
  | [], _ => [[]]
  | _, 0 => []
  | _, S k => flat_map (fun q => if tprefix (fst q) s then map (app (snd q)) (tpairs k l (skipn (List.length (fst q)) s)) else []) l
  end.
Definition op_toks (o : op) (s : word) : list word :=
  match o with
  | Rewrite rs p f => tscan rs (skip_before p) (skip_after f) [] 0 s
  | Insert new p f => [tinsert new (skip_before p) (skip_after f) [] s]
  | Pairs l => tpairs (List.length s) l s
  end.
Fixpoint run (l : list op) (s : word) : list word :=
  match l with [] => [s] | o :: l' => flat_map (run l') (op_toks o s) end.

(** nisaba/scripts/natural_translit/utils/rewrite_functions.py:67-76, 139-177, 219-256, 259-320 and 336-345.  [merge] is only used with a new right side *)
Definition al (l r : word) : word := l ++ [Eq] ++ r.
Definition rw (old new : word) : op := Rewrite [(old, new)] None None.
Definition rw_ctx (old new : word) (p f : tctx) : op := Rewrite [(old, new)] p f.
Definition reassign_ctx (left old new : word) (p f : tctx) : op := Rewrite [(al left old, al left new)] p f.
Definition reassign_op (left old new : word) : op := reassign_ctx left old new None None.
Definition reassign_adjacent (l1 o1 n1 l2 o2 n2 : word) : op := rw (al l1 o1 ++ al l2 o2) (al l1 n1 ++ al l2 n2).
Definition merge_ctx (l1 r1 l2 r2 new : word) (p f : tctx) : op := rw_ctx (al l1 r1 ++ al l2 r2) (al (l1 ++ l2) new) p f.
Definition merge_repeated (l r new : word) : op := merge_ctx l r l r new None None.
(** Contexts made of given words *)
Definition some_of (l : list word) : tctx := Some (false, TWords l).
Definition some_re (r : tre) : tctx := Some (false, r).
(** nisaba/scripts/natural_translit/utils/concat.py:53 *)
Definition tconcat_r (a b : tre) : tre := TCat a (TCat (TQues TSKIP_LEFT) b).

(** ** Phonemes: nisaba/scripts/natural_translit/phonology/phoneme_inventory.py:40-332 and nisaba/scripts/natural_translit/phonology/modify_phon.py:40-74.
    Only those imported by brahmic/phoneme_inventory.py, and the combiner *)

Definition SIL := ph "sil". Definition SYL := ph "S". Definition NSY := ph "Z". Definition NSL := ph "N". Definition ASP := ph "H".
Definition V_TNT := ph "_". Definition V_PRN := ph "V". Definition CMB := ph "+". Definition DURH := ph ":h".
Definition pA := ph "a". Definition AE := ph "ae". Definition pE := ph "e". Definition EC := ph "ec". Definition EH := ph "eh".
Definition pI := ph "i". Definition pO := ph "o". Definition OH := ph "oh". Definition pU := ph "u".
Definition pM := ph "m". Definition NI := ph "ni". Definition pN := ph "n". Definition NN := ph "nn". Definition NY := ph "ny". Definition NG := ph "ng".
Definition pP := ph "p". Definition TI := ph "ti". Definition pT := ph "t". Definition TT := ph "tt". Definition pK := ph "k". Definition pQ := ph "q".
Definition pB := ph "b". Definition DI := ph "di". Definition pD := ph "d". Definition DD := ph "dd". Definition pG := ph "g".
Definition pF := ph "f". Definition pS := ph "s". Definition SH := ph "sh". Definition SS := ph "ss". Definition KH := ph "kh". Definition pH := ph "h".
Definition pZ := ph "z". Definition ZH := ph "zh". Definition GH := ph "gh".
Definition VU := ph "vu". Definition RRU := ph "rru". Definition pY := ph "y". Definition pL := ph "l". Definition LL := ph "ll".
Definition pR := ph "r". Definition RT := ph "rt". Definition RD := ph "rd".
(** nisaba/scripts/natural_translit/phonology/modify_phon.py:215-219: composition puts the combiner between the parts *)
Definition composed (a b : word) : word := a ++ CMB ++ b.
Definition A_I := composed pA pI. Definition A_U := composed pA pU.
Definition T_SH := composed pT SH. Definition D_ZH := composed pD ZH.

(** ** Transliterations: nisaba/scripts/natural_translit/latin/ltn_inventory.py:29-75 *)

Definition vowels := ["a"; "e"; "i"; "o"; "u"]%string.
Definition consonants := ["b"; "c"; "d"; "f"; "g"; "h"; "j"; "k"; "l"; "m"; "n"; "p"; "q"; "r"; "s"; "t"; "v"; "w"; "x"; "y"; "z"]%string.
Definition make_ascii_char (s : string) : char := Char (bytes s) (bytes s).
Definition ASCII_LC : list char := map make_ascii_char (vowels ++ consonants).
Definition upper (c : N) : N := if (N.leb 97 c && N.leb c 122)%bool then c - 32 else c.
(** nisaba/scripts/natural_translit/script/char.py:75-80 *)
Definition uppercase_list (l : list char) : list char := map (fun c => Char (map upper (typ c) ++ bytes "_uc") (map upper (glyph c))) l.
Definition ASCII_UC : list char := uppercase_list ASCII_LC.
(** nisaba/scripts/natural_translit/script/char.py:84-91 *)
Definition make_substring (s : string) : char := Char (bytes "s_" ++ bytes s) (bytes s).
Definition double_substring (c : char) : char := Char (bytes "s_" ++ typ c ++ typ c) (glyph c ++ glyph c).
Definition DOUBLE_SUBSTRING : list char := map double_substring ASCII_LC.
(** nisaba/scripts/natural_translit/latin/ltn_inventory.py:49-50 and nisaba/scripts/natural_translit/script/char.py:124-130: DOUBLE_DICT.get *)
Definition double_substring_tr (w : word) : word :=
  match find (fun c => word_eqb [Tr (typ c)] w) ASCII_LC with Some c => [Tr (typ (double_substring c))] | None => w end.
Definition OTHER_SUBSTRING : list char :=
  map make_substring ["ae"; "ai"; "au"; "ch"; "dh"; "kh"; "ng"; "ny"; "rd"; "sh"; "th"; "zh"]%string.
Definition DEL_CHAR : char := Char (bytes "DEL") [].
Definition LTN_CHARS : list char := ASCII_LC ++ ASCII_UC ++ DOUBLE_SUBSTRING ++ OTHER_SUBSTRING ++ [DEL_CHAR].
Definition DEL := trl "DEL".

(** ** Pan South Asian phonemes: nisaba/scripts/natural_translit/brahmic/phoneme_inventory.py:46-130 *)

(** The ph field and tr_dict['psa'] (30-44: the given one, or that of the class, or the base one) *)
Definition psa := (word * word)%type.
Definition SILENCE : list psa := [(SIL, DEL)].
Definition VOWEL_MOD : list psa := [(NSY, DEL); (NSL, trl "n"); (DURH, DEL)].
Definition CONS_MOD : list psa := [(ASP, trl "h")].
Definition PSA_VOWEL : list psa :=
  [(V_TNT, DEL); (V_PRN, DEL); (SYL, trl "i"); (pA, trl "a"); (AE, trl "s_ae"); (pE, trl "e"); (EC, trl "a"); (EH, trl "e");
   (pI, trl "i"); (pO, trl "o"); (OH, trl "o"); (pU, trl "u"); (A_I, trl "s_ai"); (A_U, trl "s_au")].
Definition PSA_NASAL : list psa := [(pM, trl "m"); (NI, trl "n"); (pN, trl "n"); (NN, trl "n"); (NY, trl "s_ny"); (NG, trl "s_ng")].
Definition VOICELESS_STOP : list psa := [(pP, trl "p"); (TI, trl "t"); (pT, trl "t"); (TT, trl "t"); (pK, trl "k"); (pQ, trl "k")].
Definition VOICED_STOP : list psa := [(pB, trl "b"); (DI, trl "d"); (pD, trl "d"); (DD, trl "d"); (pG, trl "g")].
Definition VOICELESS_FRICATIVE : list psa := [(pF, trl "f"); (pS, trl "s"); (SH, trl "s_sh"); (SS, trl "s_sh"); (KH, trl "s_kh"); (pH, trl "h")].
Definition VOICED_FRICATIVE : list psa := [(pZ, trl "z"); (ZH, trl "s_zh"); (GH, trl "g")].
Definition VOICELESS_AFFRICATE : list psa := [(T_SH, trl "s_ch")].
Definition VOICED_AFFRICATE : list psa := [(D_ZH, trl "j")].
Definition PSA_APPROXIMANT : list psa := [(VU, trl "v"); (RRU, trl "s_zh"); (pY, trl "y"); (pL, trl "l"); (LL, trl "l")].
Definition TAP_TRILL : list psa := [(pR, trl "r"); (RT, trl "r"); (RD, trl "s_rd")].
Definition PSA_CONSONANT : list psa :=
  PSA_NASAL ++ VOICELESS_STOP ++ VOICED_STOP ++ VOICELESS_FRICATIVE ++ VOICED_FRICATIVE ++ VOICELESS_AFFRICATE ++ VOICED_AFFRICATE ++ PSA_APPROXIMANT ++ TAP_TRILL.
Definition PSA_PHONEMES : list psa := SILENCE ++ VOWEL_MOD ++ CONS_MOD ++ PSA_VOWEL ++ PSA_CONSONANT.
(** nisaba/scripts/natural_translit/brahmic/phoneme_inventory.py:102-125, with nisaba/scripts/natural_translit/phonology/phon.py:126-152: p.thing_ph_union and p.thing_ph_modified *)
Definition ph_union (l : list psa) : tre := TWords (map fst l).
Definition ph_modified (l mods : list psa) : tre := TCat (ph_union l) (TStar (ph_union mods)).
Definition NASAL := ph_union PSA_NASAL.
Definition VOICED := ph_union (VOICED_STOP ++ VOICED_FRICATIVE ++ VOICED_AFFRICATE).
Definition APPROXIMANT := ph_union PSA_APPROXIMANT.
Definition RHOTIC := TWords (map fst TAP_TRILL ++ [RRU]).
Definition LIQUID := TWords (map fst TAP_TRILL ++ [RRU; pL; LL]).
Definition SIBILANT := TWords [pS; pZ; SH; ZH; SS].
Definition LABIAL := [pM; pB; pP]. Definition DENTAL := [NI; DI; TI]. Definition ALVEOLAR := [pN; pD; pT].
Definition PALATAL := [NY; pY]. Definition RETROFLEX := [NN; DD; TT]. Definition VELAR := [NG; pG; pK].
Definition VOWEL := ph_modified PSA_VOWEL VOWEL_MOD.
Definition STOP := ph_modified (VOICELESS_STOP ++ VOICED_STOP) CONS_MOD.
Definition AFFRICATE := ph_modified (VOICELESS_AFFRICATE ++ VOICED_AFFRICATE) CONS_MOD.
Definition CONSONANT := ph_modified PSA_CONSONANT CONS_MOD.
Definition ALL := ph_union PSA_PHONEMES.
(** FRICATIVE - H and NASAL - M in the cluster lists *)
Definition words_minus (l : list psa) (w : word) : tre := TWords (filter (fun v => negb (word_eqb v w)) (map fst l)).

(** ** Graphemes: nisaba/scripts/natural_translit/brahmic/grapheme_inventory.py:49-264 *)

(** A Char with its pronunciation and, for composite ones, its components *)
Record bchar := BChar { btyp : string; bglyph : str; bph : word; bcmp : list string }.
Definition single (t : string) (g : string) (p : word) : bchar := BChar t (bytes g) p [].
(** nisaba/scripts/natural_translit/script/char.py:133-162 make_composite_char *)
Definition composite (l : list bchar) (t : string) (p : word) : bchar := BChar t (flat_map bglyph l) p (map btyp l).
Definition bgr (c : bchar) : word := grs (btyp c).
Definition cmp (c : bchar) : word := map (fun t => Gr (bytes t)) (bcmp c).

(** nisaba/scripts/natural_translit/brahmic/grapheme_inventory.py:49-67 *)
Definition INHERENT_VOWEL := [single "a" "a" V_TNT].
Definition SIMPLE_VOWEL_SIGN := [
  single "aa" "ā" (pA ++ DURH); single "ac" "æ" AE; single "an" "ạ" pA; single "e" "e" pE; single "ee" "ē" (pE ++ DURH);
  single "ec" "ê" AE; single "i" "i" pI; single "ii" "ī" (pI ++ DURH); single "o" "o" pO; single "oo" "ō" (pO ++ DURH);
  single "oc" "ô" OH; single "u" "u" pU; single "uu" "ū" (pU ++ DURH)].
Definition SIMPLE_VOWEL := INHERENT_VOWEL ++ SIMPLE_VOWEL_SIGN.
(** nisaba/scripts/natural_translit/brahmic/grapheme_inventory.py:69-105 *)
Definition SIMPLE_CONSONANT := [
  single "b" "b" pB; single "c" "c" T_SH; single "d" "d" DI; single "dd" "ḍ" DD; single "f" "f" pF; single "g" "g" pG;
  single "gg" "ġ" GH; single "h" "h" pH; single "j" "j" D_ZH; single "k" "k" pK; single "l" "l" pL; single "ll" "ḷ" LL;
  single "lr" "ḻ" RRU; single "m" "m" pM; single "n" "n" NI; single "ny" "ñ" NY; single "ng" "ṅ" NG; single "nn" "ṇ" NN;
  single "na" "ṉ" pN; single "p" "p" pP; single "q" "q" pQ; single "r" "r" RT; single "rd" "ṛ" RD; single "rr" "ṟ" pR;
  single "s" "s" pS; single "sh" "ś" SH; single "ss" "ṣ" SS; single "t" "t" TI; single "tt" "ṭ" TT; single "ta" "ṯ" pT;
  single "v" "v" VU; single "x" "x" KH; single "y" "y" pY; single "yy" "ẏ" (pY ++ ASP); single "z" "z" pZ].
(** nisaba/scripts/natural_translit/brahmic/grapheme_inventory.py:107-118 *)
Definition SIMPLE_CODA := [
  single "avg" "’" SIL; single "nkt" "ˑ" SIL; single "vis" "ḥ" pH; single "vis_ta" "ḵ" pG; single "ans" "ṁ" NSL;
  single "cnd_dia" "̐" SIL; single "upadh" "ḫ" pH; single "jihva" "ẖ" pH; single "add" "˖" SIL; single "tip" "ṃ" NSL].
(** nisaba/scripts/natural_translit/brahmic/grapheme_inventory.py:120-137 *)
Definition OM_VOWEL := [single "ot" "õ" (pO ++ DURH)].
Definition MODIFIER := [single "asp" "ʰ" ASP; single "vcl" "̥" SYL; single "long" "̄" SIL; single "chl" "ⸯ" SIL; single "eye" "̆" SIL].
Definition VIRAMA := [single "vir" "" SIL].
Definition SYMBOL := [single "ind" "." SIL; single "sgn" "-" SIL; single "zwj" "+" SIL; single "zwn" "|" SIL].
(** nisaba/scripts/natural_translit/brahmic/grapheme_inventory.py:139-142 *)
Definition SINGLE_POINT := SIMPLE_VOWEL ++ SIMPLE_CONSONANT ++ SIMPLE_CODA ++ MODIFIER ++ SYMBOL ++ OM_VOWEL.
(** nisaba/scripts/natural_translit/brahmic/grapheme_inventory.py:143, the inventory sp: the first Char with the alias, which is the typ in capitals *)
Definition sp (t : string) : bchar := match find (fun c => String.eqb (btyp c) t) SINGLE_POINT with Some c => c | None => single t "" [] end.
(** nisaba/scripts/natural_translit/brahmic/grapheme_inventory.py:148-169 *)
Definition LONG_VOCALIC := [
  composite [sp "l"; sp "vcl"; sp "long"] "llv" (pL ++ SYL ++ DURH); composite [sp "r"; sp "vcl"; sp "long"] "rrv" (pR ++ SYL ++ DURH)].
Definition SHORT_VOCALIC := [composite [sp "l"; sp "vcl"] "lv" (pL ++ SYL); composite [sp "r"; sp "vcl"] "rv" (pR ++ SYL)].
Definition VOCALIC_SIGN := SHORT_VOCALIC ++ LONG_VOCALIC.
Definition DIPHTHONG_SIGN := [composite [sp "a"; sp "i"] "ai" A_I; composite [sp "a"; sp "u"] "au" A_U].
Definition SANTAL_AAN := [composite [sp "an"; sp "long"] "aan" (pA ++ DURH)].
Definition TWO_POINT_SIGN := SHORT_VOCALIC ++ DIPHTHONG_SIGN ++ SANTAL_AAN.
Definition VOWEL_SIGN := SIMPLE_VOWEL ++ TWO_POINT_SIGN ++ LONG_VOCALIC.
(** nisaba/scripts/natural_translit/brahmic/grapheme_inventory.py:174-188 *)
Definition independent (c : bchar) : bchar := composite [sp "ind"; c] (btyp c ++ "_i") (bph c).
Definition INDEPENDENT_NONVOCALIC := map independent (SIMPLE_VOWEL_SIGN ++ DIPHTHONG_SIGN).
Definition INDEPENDENT_VOCALIC := map independent VOCALIC_SIGN.
Definition INDEPENDENT_A := [composite [sp "ind"; sp "a"] "a_i" pA].
Definition INDEPENDENT_VOWEL := INDEPENDENT_NONVOCALIC ++ INDEPENDENT_VOCALIC ++ INDEPENDENT_A.
(** nisaba/scripts/natural_translit/brahmic/grapheme_inventory.py:196-235 *)
Definition make_aspirated (c : bchar) : bchar := composite [c; sp "asp"] (btyp c ++ "h") (bph c ++ ASP).
Definition ASPIRATED_CONSONANT := map (fun t => make_aspirated (sp t)) ["b"; "c"; "d"; "dd"; "g"; "j"; "k"; "p"; "rd"; "t"; "tt"]%string.
Definition DEAD_CONSONANT := [
  composite [sp "k"; sp "chl"] "k_chl" (bph (sp "k")); composite [sp "l"; sp "chl"] "l_chl" (bph (sp "l"));
  composite [sp "ll"; sp "chl"] "ll_chl" (bph (sp "ll")); composite [sp "n"; sp "chl"] "n_chl" pN;
  composite [sp "nn"; sp "chl"] "nn_chl" (bph (sp "nn")); composite [sp "rr"; sp "chl"] "rr_chl" (bph (sp "rr"));
  composite [sp "r"; sp "chl"] "reph" RT; composite [sp "r"; sp "eye"] "r_eye" RT].
Definition SCHWA_BEARING := SIMPLE_CONSONANT ++ ASPIRATED_CONSONANT.
Definition COMPOSITE_CONSONANT := ASPIRATED_CONSONANT ++ DEAD_CONSONANT.
Definition ONSET_CONSONANT := SIMPLE_CONSONANT ++ COMPOSITE_CONSONANT.
Definition CND := [composite [sp "m"; sp "cnd_dia"] "cnd" NSL].
Definition OM := [composite [sp "ot"; sp "m"] "om" (pO ++ DURH ++ pM)].
Definition TWO_POINT := TWO_POINT_SIGN ++ INDEPENDENT_VOWEL ++ COMPOSITE_CONSONANT ++ CND ++ OM.
Definition CHARS := SINGLE_POINT ++ TWO_POINT ++ LONG_VOCALIC ++ VIRAMA.
Definition gr_union (l : list bchar) : tre := TWords (map bgr l).

(** nisaba/scripts/natural_translit/brahmic/grapheme_inventory.py:247-264 iso_to_typ_rules, after reading *)
Definition compose_from_gr (l : list bchar) : op := Rewrite (map (fun c => (cmp c, bgr c)) l) None None.
Definition bchar_char (c : bchar) : char := Char (bytes (btyp c)) (bglyph c).
Definition read_iso : wt := read_glyph (map bchar_char SINGLE_POINT).
Definition initial_vowels : list word := filter (fun w => negb (word_eqb w (grs "aan"))) (map bgr VOWEL_SIGN).
Definition typ_ops : list op := [
  compose_from_gr LONG_VOCALIC; compose_from_gr TWO_POINT_SIGN; Insert (grs "ind") TBOW (some_of initial_vowels);
  compose_from_gr INDEPENDENT_VOWEL; compose_from_gr COMPOSITE_CONSONANT; compose_from_gr (OM ++ CND)].

(** ** Pronunciation: brahmic/g2p.py *)

(** nisaba/scripts/natural_translit/brahmic/g2p.py:27-29 *)
Definition TYP_TO_TXN : op := Pairs (map (fun c => (bgr c, al (bgr c) (bph c))) CHARS).
(** nisaba/scripts/natural_translit/brahmic/g2p.py:46-65 *)
Definition A_TO_EC : list op := [rw pA EC; rw (EC ++ DURH) (pA ++ DURH)].
Definition A_AE : list op := [reassign_op (grs "a_i") pA AE].
Definition AI_TO_EH_LONG : list op := [rw A_I (EH ++ DURH)].
Definition AU_TO_OH_LONG : list op := [rw A_U (OH ++ DURH)].
Definition vocalic (vcl vcl_l : word) : list op := [rw SYL vcl; rw (SYL ++ DURH) vcl_l].
Definition VOCALIC_I := vocalic pI (pI ++ DURH). Definition VOCALIC_U := vocalic pU (pU ++ DURH). Definition VOCALIC_EC := vocalic EC (EC ++ DURH).
(** nisaba/scripts/natural_translit/brahmic/g2p.py:70-133 *)
Definition default_schwa (schwa : word) : list op := [Rewrite [(V_TNT, schwa); (V_PRN, schwa)] None None].
Definition SCHWA_A := default_schwa pA. Definition SCHWA_EC := default_schwa EC. Definition SCHWA_OH := default_schwa OH.
Definition vocal_schwa (p f : tctx) : op := rw_ctx V_TNT V_PRN p f.
Definition silent_schwa (p f : tctx) : op := rw_ctx V_TNT SIL p f.
(** nisaba/scripts/natural_translit/phonology/operations/syllable.py:58 and 96 *)
Definition legal_onset (nucleic non_nucleic onset_cl : tre) : tre := tconcat_r (TAlt non_nucleic onset_cl) nucleic.
Definition legal_coda (nucleic non_nucleic coda_cl : tre) : tre := tconcat_r nucleic (TQues (TAlt non_nucleic coda_cl)).
Definition process_schwa (onset_cl coda_cl : tre) : list op := [
  vocal_schwa None (some_re (gr_union (SIMPLE_CODA ++ CND)));
  vocal_schwa None (some_re (gr_union INDEPENDENT_VOWEL));
  vocal_schwa (some_re (tconcat_r (TAlt (TWords [pI]) (TWords [pI ++ DURH])) (TWords [pY]))) None;
  silent_schwa (some_re (legal_coda VOWEL CONSONANT coda_cl)) (Some (true, TWords [[]]));
  silent_schwa (some_re (legal_coda VOWEL CONSONANT coda_cl)) (some_re (legal_onset VOWEL CONSONANT onset_cl))].
(** nisaba/scripts/natural_translit/brahmic/g2p.py:138-177 *)
Definition assign_nasal (nasal phoneme : word) (place : tctx) : op := reassign_ctx nasal NSL phoneme None place.
Definition DEFAULT_ANUSVARA_LABIAL := [assign_nasal (grs "ans") pM None].
Definition DEFAULT_ANUSVARA_DENTAL := [assign_nasal (grs "ans") NI None].
Definition DEFAULT_ANUSVARA_VELAR := [assign_nasal (grs "ans") NG None].
(** nisaba/scripts/natural_translit/brahmic/g2p.py:178: old is the union ph.NASAL *)
Definition FINAL_ANUSVARA_NASALIZATION : list op :=
  [Rewrite (map (fun q : psa => (al (grs "ans") (fst q), al (grs "ans") NSL)) PSA_NASAL) None TEOW].
(** nisaba/scripts/natural_translit/brahmic/g2p.py:181-193 *)
Definition assimilation (nasal : word) : list op := [
  assign_nasal nasal pM (some_of LABIAL); assign_nasal nasal NI (some_of DENTAL); assign_nasal nasal NY (some_of ALVEOLAR);
  assign_nasal nasal NY (some_of PALATAL); assign_nasal nasal NN (some_of RETROFLEX); assign_nasal nasal NG (some_of VELAR)].
Definition ANUSVARA_ASSIMILATION := assimilation (grs "ans").
Definition TIPPI_ASSIMILATION := assimilation (grs "tip").
(** nisaba/scripts/natural_translit/brahmic/g2p.py:199-239 *)
Definition rewrite_jny (j ny : word) : list op := [reassign_adjacent (grs "j") D_ZH j (grs "ny") NY ny].
Definition JNY_TO_GNY := rewrite_jny pG NY. Definition JNY_TO_GY := rewrite_jny pG pY. Definition JNY_TO_NY := rewrite_jny SIL NY.
Definition JNY_TO_DNY := rewrite_jny DI NY. Definition JNY_TO_GG := rewrite_jny pG pG.
Definition YY_Y : list op := [rw_ctx ASP [] (some_of [grs "yy"]) None].
Definition OOYY_V : list op := [
  merge_ctx (grs "oo_i") (pO ++ DURH) (grs "yy") pY VU None None;
  reassign_ctx (grs "a") OH SIL None (some_of [grs "oo_i" ++ grs "yy"])].
Definition PH_F : list op := [reassign_op (grs "ph") (pP ++ ASP) pF].
Definition BH_V : list op := [reassign_ctx (grs "bh") (pB ++ ASP) VU (some_re ALL) None].
Definition B_V : list op := [reassign_ctx (grs "b") pB VU (some_re CONSONANT) None].
Definition PHPH_TO_FF : list op := [reassign_adjacent (grs "ph") (pP ++ ASP) pF (grs "ph") (pP ++ ASP) pF].
Definition REMOVE_ASP_FROM_GEMINATE : list op := [rw_ctx ASP [] None (some_re (TCat ALL (TWords [ASP])))].
Definition RT_TO_R : list op := [rw RT pR].
Definition RR_TT : list op := [merge_repeated (grs "rr") pR (pT ++ pT)].
Definition NR_NDR : list op := [merge_ctx (grs "na") pN (grs "rr") pR (pN ++ pD ++ pR) None None].
Definition WF_VIRAMA_U : list op :=
  [Insert (al (grs "u") pU) (some_re (TCat (gr_union SCHWA_BEARING) (TCat (TWords [[Eq]]) (TStar ALL)))) TEOW].
Definition H_ASP : list op := [reassign_ctx (grs "h") pH ASP (some_of [pM; NI; VU; pL; pR]) None].
(** nisaba/scripts/natural_translit/brahmic/g2p.py:241-254 *)
Definition ADDAK : list op := [Rewrite (map (fun c => (bph c, bph c ++ bph c)) ONSET_CONSONANT) (some_of [SIL]) None].
Definition then_skip_eow (r : tre) : tctx := Some (true, TCat r (TCat TSKIP (TQues TSKIP_RIGHT))).
Definition AUM_AON : list op := [reassign_ctx (grs "u_i") pU pO None (then_skip_eow (TWords [grs "ans"]))].
Definition OAM_AON : list op := [merge_ctx (grs "oo") (pO ++ DURH) (grs "aa_i") (pA ++ DURH) (EC ++ pO) None (then_skip_eow (TWords [grs "ans"]))].
Definition ANSVA_AON : list op := [merge_ctx (grs "ans") NSL (grs "v") VU (pO ++ NSL) None (then_skip_eow (TWords [grs "a"]))].
(** nisaba/scripts/natural_translit/phonology/operations/voicing.py:26-41 *)
Definition voicing (ops : list (word * word)) (p f : tctx) : list op := [Rewrite ops p f].
Definition K_G := (pK, pG). Definition P_B := (pP, pB). Definition T_D := (pT, pD). Definition TI_DI := (TI, DI). Definition TT_DD := (TT, DD).
Definition TSH_DZH := (T_SH, D_ZH). Definition TSH_S := (T_SH, pS).

(** ** Romanization: brahmic/romanizer.py *)

(** nisaba/scripts/natural_translit/brahmic/romanizer.py:33-68 *)
Definition SIBV_TO_SIBW : list op := [rw_ctx VU (trl "w") (some_re SIBILANT) None].
Definition NON_LABIAL_ANUSVARA : list op :=
  [Rewrite [(al (grs "ans") NG, al (grs "ans") (trl "n")); (al (grs "ans") NY, al (grs "ans") (trl "n"))] None None].
Definition NYJ_NJ : list op := [rw_ctx NY (trl "n") None (some_of [D_ZH])].
Definition GAAV_GAON : list op := [merge_ctx (grs "aa") (pA ++ DURH) (grs "v") VU (trl "a" ++ trl "o" ++ trl "n") (some_of [grs "g"]) None].
Definition OO_AO_BEFORE_ANUSVARA : list op := [reassign_ctx (grs "oo") (pO ++ DURH) (trl "a" ++ trl "o") None (some_of [grs "ans"])].
Definition AE_A : list op := [rw AE (trl "a")].
Definition OH_A : list op := [reassign_op (grs "a") OH (trl "a")].
Definition AA_AO_CND : list op :=
  [reassign_ctx (grs "aa") (pA ++ DURH) (trl "a" ++ trl "o") None
     (then_skip_eow (TCat (TWords [grs "cnd"]) (TQues (TCat TSKIP (TWords [grs "oo"])))))].
Definition WF_CND_OO : list op := [reassign_ctx (grs "oo") (pO ++ DURH) DEL (some_of [grs "cnd"]) TEOW].
Definition OOYY_W : list op := [reassign_op (grs "oo_i" ++ grs "yy") VU (trl "w")].
Definition IYY_I : list op := [reassign_ctx (grs "yy") pY DEL (some_re (TCat (TWords [pI; pU]) (TQues (TWords [DURH])))) None].
(** nisaba/scripts/natural_translit/brahmic/romanizer.py:71-81 VOCALIC_TR_I is left out: what it replaces is an infinite language, a vowel with any
    number of modifiers.  Only the psaf grammars of Tamil and Malayalam use it. *)
(** nisaba/scripts/natural_translit/brahmic/romanizer.py:84-87 *)
Definition AA_WI : list op := [reassign_ctx (grs "aa_i") (pA ++ DURH) (trl "s_aa") TBOW None].
(** nisaba/scripts/natural_translit/brahmic/romanizer.py:89-115 *)
Definition EN_LIKE_LONG : list op := [rw (pI ++ DURH) (trl "e" ++ trl "e"); rw (pU ++ DURH) (trl "o" ++ trl "o")].
Definition EE_AE : list op := [reassign_op (grs "ee") (pE ++ DURH) (trl "a" ++ trl "e")].
Definition OO_OA : list op := [
  reassign_ctx (grs "oo") (pO ++ DURH) (trl "o" ++ trl "a") (some_re APPROXIMANT) None;
  reassign_ctx (grs "oo") (pO ++ DURH) (trl "o" ++ trl "a") (some_of [[]]) (some_re APPROXIMANT)].
Definition TI_TH : list op := [
  merge_repeated (grs "t") TI (trl "t" ++ trl "h"); reassign_op (grs "t") TI (trl "t" ++ trl "h"); reassign_op (grs "t") DI (trl "t" ++ trl "h")].
Definition TT_TR : list op := [reassign_op (grs "rr" ++ grs "rr") (pT ++ pT) (trl "t" ++ trl "t" ++ trl "r")].
Definition RD_R : list op := [reassign_op (grs "rd") RD (trl "r")].
Definition RDH_DH : list op := [reassign_op (grs "rdh") (RD ++ ASP) (trl "d" ++ trl "h")].
Definition RDH_RH : list op := [reassign_op (grs "rdh") (RD ++ ASP) (trl "r" ++ trl "h")].
Definition NY_N : list op := [rw_ctx NY (trl "n") None (some_re CONSONANT)].
Definition NY_GN : list op := [reassign_ctx (grs "ny") NY (trl "g" ++ trl "n") (some_re VOWEL) (some_re VOWEL)].
(** nisaba/scripts/natural_translit/brahmic/romanizer.py:119-137 *)
Definition DIPHTHONG_GR : list op := [
  reassign_op (grs "ai") (EH ++ DURH) (trl "s_ai"); reassign_op (grs "au") (OH ++ DURH) (trl "s_au");
  reassign_op (grs "ai_i") (EH ++ DURH) (trl "s_ai"); reassign_op (grs "au_i") (OH ++ DURH) (trl "s_au")].
Definition TRANSLIT_LONG : list op := map (fun q : psa => rw (fst q ++ DURH) (double_substring_tr (snd q))) PSA_PHONEMES.
Definition IGNORE_LONG : list op := [rw DURH []].
(** nisaba/scripts/natural_translit/brahmic/romanizer.py:143-158 *)
Definition CC_TO_CCH : list op := [merge_repeated (grs "c") (trl "s_ch") (trl "c" ++ trl "s_ch")].
Definition CCH_TO_CHH : list op := [merge_ctx (grs "c") (trl "s_ch") (grs "ch") (trl "s_ch" ++ trl "h") (trl "s_ch" ++ trl "h") None None].
Definition S_SHSH_TO_SSH : list op := [merge_repeated (grs "ss") (trl "s_sh") (trl "s" ++ trl "s_sh"); merge_repeated (grs "sh") (trl "s_sh") (trl "s" ++ trl "s_sh")].
Definition TRANSLIT_BY_PSA : op := Rewrite PSA_PHONEMES None None.
(** nisaba/scripts/natural_translit/brahmic/romanizer.py:162 *)
Definition TXN_TO_PSA_COMMON : list op := DIPHTHONG_GR ++ NON_LABIAL_ANUSVARA ++ RDH_DH.

(** ** Languages: language_params *)

Definition FRICATIVE_psa := VOICELESS_FRICATIVE ++ VOICED_FRICATIVE.
(** The same in nisaba/scripts/natural_translit/language_params/hi.py:50-55, nisaba/scripts/natural_translit/language_params/bn.py:27-32 and lines 28-33 of gu.py, mr.py and pa.py *)
Definition ONSET_CL : tre :=
  TAlt (tconcat_r (TWords [pK]) (TWords [SH]))
  (TAlt (tconcat_r (TWords [pS]) (TWords [pT; RT; NI; pY; VU]))
  (TAlt (tconcat_r (TWords [VU; NI]) (TWords [pY]))
        (tconcat_r (TWords [pK; pP; pG; DI; SH]) (TWords [RT])))).
(** nisaba/scripts/natural_translit/language_params/hi.py:58-65, nisaba/scripts/natural_translit/language_params/bn.py:35-42 and lines 36-43 of gu.py, mr.py and pa.py, which differ in the first cluster only *)
Definition coda_cl (second : tre) : tre :=
  TAlt (tconcat_r CONSONANT second)
  (TAlt (tconcat_r VOICED NASAL)
  (TAlt (tconcat_r (words_minus FRICATIVE_psa pH) (words_minus PSA_NASAL pM))
  (TAlt (tconcat_r SIBILANT (TWords [pM]))
  (TAlt (tconcat_r (TAlt LIQUID NASAL) NASAL)
        (tconcat_r RHOTIC RHOTIC))))).
Definition PROCESS_SCHWA := process_schwa ONSET_CL (coda_cl STOP).
Definition BN_PROCESS_SCHWA := process_schwa ONSET_CL (coda_cl (TAlt STOP AFFRICATE)).

(** nisaba/scripts/natural_translit/language_params/hi.py:70-82 *)
Definition HI_TXN := AI_TO_EH_LONG ++ AU_TO_OH_LONG ++ A_TO_EC ++ VOCALIC_I ++ ANUSVARA_ASSIMILATION ++ PROCESS_SCHWA ++ SCHWA_EC
  ++ DEFAULT_ANUSVARA_DENTAL ++ FINAL_ANUSVARA_NASALIZATION ++ JNY_TO_GY ++ PHPH_TO_FF.
(** nisaba/scripts/natural_translit/language_params/bn.py:47-79 *)
Definition BN_TXN := A_AE ++ VOCALIC_I ++ BN_PROCESS_SCHWA ++ SCHWA_OH ++ DEFAULT_ANUSVARA_VELAR ++ JNY_TO_GG ++ YY_Y ++ OOYY_V ++ BH_V ++ B_V ++ PH_F.
Definition BN_PSA := AE_A ++ OH_A ++ RD_R.
(** nisaba/scripts/natural_translit/language_params/ta.py:47-99 *)
Definition TA_VOICING_CONTEXT : tre := TAlt VOWEL (TAlt APPROXIMANT (TAlt NASAL RHOTIC)).
Definition TA_VOICING := voicing [K_G; P_B; T_D; TI_DI; TT_DD; TSH_S] (some_re TA_VOICING_CONTEXT) (some_re TA_VOICING_CONTEXT).
Definition TA_C_WI := voicing [TSH_S] (Some (true, TWords [[]])) (some_re TA_VOICING_CONTEXT).
Definition TA_NY_TSH := voicing [TSH_DZH] (some_of [NY]) (some_re TA_VOICING_CONTEXT).
Definition TA_TXN := VOCALIC_EC ++ SCHWA_A ++ ANUSVARA_ASSIMILATION ++ DEFAULT_ANUSVARA_LABIAL ++ RR_TT ++ NR_NDR ++ TA_NY_TSH ++ TA_VOICING ++ TA_C_WI ++ JNY_TO_NY.
Definition TA_NAT := EN_LIKE_LONG ++ EE_AE ++ OO_OA ++ TI_TH ++ TT_TR ++ CC_TO_CCH ++ CCH_TO_CHH ++ S_SHSH_TO_SSH ++ SIBV_TO_SIBW ++ NY_N ++ NY_GN.
(** nisaba/scripts/natural_translit/language_params/gu.py:48-69 *)
Definition GU_TXN := A_TO_EC ++ VOCALIC_U ++ ANUSVARA_ASSIMILATION ++ PROCESS_SCHWA ++ SCHWA_EC ++ DEFAULT_ANUSVARA_DENTAL ++ JNY_TO_DNY ++ PH_F.
(** nisaba/scripts/natural_translit/language_params/kn.py:24-34 and nisaba/scripts/natural_translit/language_params/te.py:24-33 *)
Definition KN_TXN := RT_TO_R ++ VOCALIC_U ++ SCHWA_A ++ ANUSVARA_ASSIMILATION ++ DEFAULT_ANUSVARA_LABIAL ++ JNY_TO_GNY.
Definition TE_TXN := VOCALIC_U ++ SCHWA_A ++ ANUSVARA_ASSIMILATION ++ DEFAULT_ANUSVARA_LABIAL ++ JNY_TO_GNY.
(** nisaba/scripts/natural_translit/language_params/ml.py:28-63 *)
Definition ML_VOICING_CONTEXT : tre := TAlt VOWEL (TAlt APPROXIMANT NASAL).
Definition ML_VOICING := voicing [K_G; P_B; T_D; TI_DI; TT_DD; TSH_DZH] (some_re ML_VOICING_CONTEXT)
  (some_re (tconcat_r (TQues (TWords [ASP])) ML_VOICING_CONTEXT)).
Definition ML_POSTNASAL_TT := voicing [TT_DD] (some_re NASAL) None.
Definition ML_TXN := WF_VIRAMA_U ++ VOCALIC_EC ++ SCHWA_A ++ ANUSVARA_ASSIMILATION ++ DEFAULT_ANUSVARA_LABIAL ++ RR_TT ++ ML_VOICING ++ ML_POSTNASAL_TT ++ JNY_TO_NY.
Definition ML_NAT := EN_LIKE_LONG ++ TI_TH ++ CC_TO_CCH ++ CCH_TO_CHH ++ S_SHSH_TO_SSH ++ SIBV_TO_SIBW ++ NY_N ++ NY_GN.
(** nisaba/scripts/natural_translit/language_params/mr.py:48-72 *)
Definition MR_TXN := AI_TO_EH_LONG ++ AU_TO_OH_LONG ++ A_TO_EC ++ VOCALIC_U ++ H_ASP ++ ANUSVARA_ASSIMILATION ++ PROCESS_SCHWA ++ SCHWA_EC
  ++ DEFAULT_ANUSVARA_DENTAL ++ JNY_TO_DNY ++ PH_F.
(** nisaba/scripts/natural_translit/language_params/pa.py:48-74 *)
Definition PA_TXN := ADDAK ++ AI_TO_EH_LONG ++ AU_TO_OH_LONG ++ A_TO_EC ++ VOCALIC_I ++ ANUSVARA_ASSIMILATION ++ TIPPI_ASSIMILATION
  ++ AUM_AON ++ OAM_AON ++ ANSVA_AON ++ PROCESS_SCHWA ++ SCHWA_EC ++ PH_F ++ REMOVE_ASP_FROM_GEMINATE.

(** ** The grammars *)

Inductive lang := Hi | Bn | Ta | Gu | Kn | Te | Ml | Mr | Pa.
Inductive scheme := Psaf | Psac | Nat.
(** nisaba/scripts/natural_translit/brahmic/g2p.py:32-34, after reading *)
Definition ISO_TO_TXN : list op := typ_ops ++ [TYP_TO_TXN].
Definition txn_ops (l : lang) : list op :=
  match l with
  | Hi => HI_TXN | Bn => BN_TXN | Ta => TA_TXN | Gu => GU_TXN | Kn => KN_TXN | Te => TE_TXN | Ml => ML_TXN | Mr => MR_TXN | Pa => PA_TXN
  end.
Definition GEMINATES : list op := CC_TO_CCH ++ CCH_TO_CHH ++ S_SHSH_TO_SSH.
(** nisaba/scripts/natural_translit/brahmic/romanizer.py:165-184 up to printing, and the romanizations of nisaba/scripts/natural_translit/language_params/hi.py:90-121, nisaba/scripts/natural_translit/language_params/bn.py:92-122,
    nisaba/scripts/natural_translit/language_params/ta.py:102-126 and the same functions of the other languages: what comes before
    TRANSLIT_BY_PSA and what comes after it.  Hindi nat is modelled without acronym.HI_ACR_TYP_TO_TR, Tamil and Malayalam psaf,
    which use VOCALIC_TR_I, are not modelled. *)
Definition ltn_ops (l : lang) (s : scheme) : option (list op * list op) :=
  match s, l with
  | Psaf, (Ta | Ml) => None
  | Psaf, Bn => Some (BN_PSA ++ TRANSLIT_LONG, [])
  | Psaf, _ => Some (TXN_TO_PSA_COMMON ++ TRANSLIT_LONG, [])
  | Psac, Bn => Some (BN_PSA ++ IGNORE_LONG, [])
  | Psac, _ => Some (TXN_TO_PSA_COMMON ++ IGNORE_LONG, [])
  | Nat, Hi => Some (SIBV_TO_SIBW ++ AA_WI ++ RDH_RH ++ TXN_TO_PSA_COMMON ++ IGNORE_LONG, GEMINATES)
  | Nat, Bn => Some (BN_PSA ++ SIBV_TO_SIBW ++ NYJ_NJ ++ AA_AO_CND ++ WF_CND_OO ++ OOYY_W ++ IYY_I ++ IGNORE_LONG, GEMINATES)
  | Nat, Ta => Some (TA_NAT ++ TXN_TO_PSA_COMMON, [])
  | Nat, Ml => Some (ML_NAT ++ TXN_TO_PSA_COMMON, [])
  | Nat, (Kn | Te) => Some (TXN_TO_PSA_COMMON, [])
  | Nat, (Gu | Mr) => Some (SIBV_TO_SIBW ++ OO_AO_BEFORE_ANUSVARA ++ GAAV_GAON ++ TXN_TO_PSA_COMMON ++ IGNORE_LONG, GEMINATES)
  | Nat, Pa => Some (RD_R ++ SIBV_TO_SIBW ++ TXN_TO_PSA_COMMON ++ IGNORE_LONG, GEMINATES)
  end.
(** nisaba/scripts/natural_translit/brahmic/romanizer.py:174-176 *)
Definition remove_repeated_ltn : fst_t := fun s => flat_map (remove_repeated_glyph ASCII_LC) (remove_repeated_glyph OTHER_SUBSTRING s).
(** From text in the romanization of ISO 15919 to symbols *)
Definition pronounce (l : lang) : fst_t := fun s => flat_map (run_bytes (ISO_TO_TXN ++ txn_ops l)) (map fst (outs read_iso s)).
(** From there to Latin letters.  [e] as in AlignModel: whether the empty string is deleted, too *)
Definition romanize (e : bool) (l : lang) (s : scheme) : option fst_t :=
  match ltn_ops l s with
  | None => None
  | Some (before, after) =>
      Some (fun t => flat_map (fun u => match s with Psac => remove_repeated_ltn u | _ => [u] end)
                       (flat_map (print_only_glyph e LTN_CHARS) (flat_map (run_bytes (before ++ [TRANSLIT_BY_PSA] ++ after)) (pronounce l t))))
  end.
(** nisaba/scripts/natural_translit/phonology/transcriptor.py:22-24 and nisaba/scripts/natural_translit/phonology/phoneme_inventory.py:40-369: the phonemes
    that the grammars can write, and all composed ones of these.  The others contain further symbols. *)
Definition IPA : list (word * str) :=
  [(SIL, bytes ""); (SYL, bytes "̍"); (NSY, bytes "̯"); (NSL, bytes "~"); (ASP, bytes "ʰ"); (V_TNT, bytes ""); (V_PRN, bytes ""); (pA, bytes "a");
   (AE, bytes "æ"); (pE, bytes "e"); (EC, bytes "ə"); (EH, bytes "ɛ"); (pI, bytes "i"); (pO, bytes "o"); (OH, bytes "ɔ"); (pU, bytes "u");
   (pM, bytes "m"); (NI, bytes "n̪"); (pN, bytes "n"); (NN, bytes "ɳ"); (NY, bytes "ɲ"); (NG, bytes "ŋ"); (pP, bytes "p"); (TI, bytes "t̪");
   (pT, bytes "t"); (TT, bytes "ʈ"); (pK, bytes "k"); (pQ, bytes "q"); (pB, bytes "b"); (DI, bytes "d̪"); (pD, bytes "d"); (DD, bytes "ɖ");
   (pG, bytes "ɡ"); (pF, bytes "f"); (pS, bytes "s"); (SH, bytes "ʃ"); (SS, bytes "ʂ"); (KH, bytes "x"); (pH, bytes "h"); (pZ, bytes "z");
   (ZH, bytes "ʒ"); (GH, bytes "ɣ"); (VU, bytes "ʋ"); (RRU, bytes "ɻ"); (pY, bytes "j"); (pL, bytes "l"); (LL, bytes "ɭ"); (pR, bytes "r");
   (RT, bytes "ɾ"); (RD, bytes "ɽ");
   (A_I, bytes "a͡i"); (A_U, bytes "a͡u"); (T_SH, bytes "t͡ʃ"); (composed pT SS, bytes "t͡ʂ"); (D_ZH, bytes "d͡ʒ"); (DURH, bytes "ː")].
Definition transcribe (e : bool) (l : lang) : fst_t :=
  fun t => flat_map (print_only_ipa e (map (fun q : word * str => (encs (fst q), snd q)) IPA)) (pronounce l t).
