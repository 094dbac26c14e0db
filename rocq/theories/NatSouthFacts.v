(** Telugu and Kannada: statements. *)
From Coq Require Import String.
From Verif Require Import Base RuleModel RegexModel IsoModel AlignModel AlignSpec AlignProofs NatModel NatSpec NatTypMain NatMain NatRoman NatRomanMain NatPhon NatFacts NatSoundSpec NatSound NatSouth NatSouthMain NatSouthRoman.
Local Open Scope list_scope.

Lemma south_pronunciation cs : letters cs -> exists ds, (forall c, In c ds -> In c CHARS) /\ only (encs (map symbol_of ds)) (iso_to_typ (text_of cs)) /\
  forall kannada : bool, only (encs (southern_sounds kannada ds)) (pronounce (if kannada then Kn else Te) (text_of cs)).
Proof. intros H. destruct (reading_exists cs H) as (ds & R). exists ds. split; [exact (reading_chars cs ds R)|]. split; [exact (reading_typ cs ds H R)|]. intros k. exact (south_pronounce k cs ds H R). Qed.
Lemma south_romanization cs : letters cs -> exists ds, (forall c, In c ds -> In c CHARS) /\ only (encs (map symbol_of ds)) (iso_to_typ (text_of cs)) /\
  forall (kannada fine e : bool), exists f, romanize e (if kannada then Kn else Te) (if fine then Psaf else Nat) = Some f /\ only (southern_spelling fine ds) (f (text_of cs)).
Proof.
  intros H. destruct (reading_exists cs H) as (ds & R). exists ds. split; [exact (reading_chars cs ds R)|]. split; [exact (reading_typ cs ds H R)|]. intros k fine e. destruct (romanize e (if k then Kn else Te) (if fine then Psaf else Nat)) as [f|] eqn:E.
  - exists f. split; [reflexivity|]. exact (south_romanize k fine e f cs ds E H R).
  - exfalso. unfold romanize in E. change (if k then Kn else Te) with (south k) in E. change (if fine then Psaf else Nat) with (south_scheme fine) in E. rewrite (south_latin k fine) in E. discriminate E.
Qed.
Lemma not_sound l p : sound_in (map bytes (special l)) (changed l) p = false -> ~ sound l p.
Proof.
  unfold sound_in, sound. generalize (map bytes (special l)) as tab. generalize (changed l) as never. intros never tab H. destruct (existsb (str_eqb p) tab) eqn:E; [discriminate H|]. intros [J|(c & I & N & ->)].
  - assert (K : existsb (str_eqb p) tab = true) by (apply existsb_exists; exists p; split; [exact J|apply str_eqb_refl]). congruence.
  - assert (K : existsb (usually never (usual c)) CHARS = true); [|congruence]. apply existsb_exists. exists c. split; [exact I|]. unfold usually. rewrite str_eqb_refl. apply negb_true_iff. destruct (existsb (String.eqb (btyp c)) never) eqn:X; [|reflexivity]. exfalso. apply N. apply existsb_exists in X as (n & J & X). apply String.eqb_eq in X. rewrite X. exact J.
Qed.
Lemma sound_examples : sound Ta (bytes "<na><rr>={n}{d}{r}") /\ sound Bn (bytes "<b>={vu}") /\ ~ sound Hi (bytes "<b>={vu}") /\ ~ sound Te (bytes "<ans>={N}").
Proof. split; [apply sound_in_ok; vm_compute; reflexivity|]. split; [apply sound_in_ok; vm_compute; reflexivity|]. split; apply not_sound; vm_compute; reflexivity. Qed.
