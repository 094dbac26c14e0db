(** C65-C66: the sounds of the Brahmic scripts; Telugu and Kannada. *)
From Coq Require Import String.
From Verif Require Import Base RuleModel RegexModel IsoModel AlignModel AlignSpec NatModel NatSpec NatSoundSpec NatSound NatSouthRoman NatSouthFacts.
Local Open Scope list_scope.

(** * C65: the sounds of each language *)

(** The pronunciation of a text is a sequence of sounds of the language *)
Theorem C65_sounds : forall l cs y, letters cs -> In y (pronounce l (text_of cs)) -> exists ps, y = concat ps /\ Forall (fun p => sound l p \/ silent_mark l p) ps.
Proof. exact pronounce_sounds. Qed.
Print Assumptions C65_sounds.

Example C65_sounds_example : pronounce Pa (bytes "kaṁvala") = [bytes "<k>={k}<a>={ec}" ++ bytes "<ans>={N}" ++ bytes "<v>={vu}" ++ bytes "<a>={ec}" ++ bytes "<l>={l}" ++ bytes "<a>={sil}"].
Proof. vm_compute. reflexivity. Qed.

(** Each of them occurs *)
Theorem C65_occurs : forall l p, sound l p -> p <> bytes "<vir>={sil}" -> occurs l p.
Proof. exact sounds_occur. Qed.
Print Assumptions C65_occurs.

Example C65_occurs_example : sound Ta (bytes "<na><rr>={n}{d}{r}") /\ sound Bn (bytes "<b>={vu}") /\ ~ sound Hi (bytes "<b>={vu}") /\ ~ sound Te (bytes "<ans>={N}").
Proof. exact sound_examples. Qed.

(** * C66: Telugu and Kannada *)

(** Pronunciation and romanization of every text *)
Theorem C66_pronunciation : forall cs, letters cs -> exists ds, (forall c, In c ds -> In c CHARS) /\ only (encs (map symbol_of ds)) (iso_to_typ (text_of cs)) /\
  forall kannada : bool, only (encs (southern_sounds kannada ds)) (pronounce (if kannada then Kn else Te) (text_of cs)).
Proof. exact south_pronunciation. Qed.
Print Assumptions C66_pronunciation.

Theorem C66_romanization : forall cs, letters cs -> exists ds, (forall c, In c ds -> In c CHARS) /\ only (encs (map symbol_of ds)) (iso_to_typ (text_of cs)) /\
  forall (kannada fine e : bool), exists f, romanize e (if kannada then Kn else Te) (if fine then Psaf else Nat) = Some f /\ only (southern_spelling fine ds) (f (text_of cs)).
Proof. exact south_romanization. Qed.
Print Assumptions C66_romanization.

Example C66_example : iso_to_typ (bytes "varṇaṁlō") = [bytes "<v><a><r><nn><a><ans><l><oo>"] /\
  (exists ds, map btyp ds = ["v"; "a"; "r"; "nn"; "a"; "ans"; "l"; "oo"]%string /\ southern_spelling true ds = bytes "varnamloo" /\ southern_spelling false ds = bytes "varnamlo" /\
     encs (southern_sounds true ds) = bytes "<v>={vu}<a>={a}<r>={r}<nn>={nn}<a>={a}<ans>={m}<l>={l}<oo>={o}{:h}").
Proof. split; [vm_compute; reflexivity|]. exists (map (fun n => match find (fun c => named c n) CHARS with Some c => c | None => sp "a" end) ["v"; "a"; "r"; "nn"; "a"; "ans"; "l"; "oo"]%string). vm_compute. auto. Qed.
Example C66_example_2 : match romanize false Te Psaf with Some f => f (bytes "pratijña") = [bytes "pratignya"] | None => False end /\ match romanize false Kn Nat with Some f => f (bytes "iṁḍiyā") = [bytes "indiya"] | None => False end.
Proof. vm_compute. auto. Qed.
