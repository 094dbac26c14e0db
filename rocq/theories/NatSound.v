(** The sounds of characters in each language. *)
From Coq Require Import String.
From Verif Require Import Base RuleModel RegexModel IsoModel AlignModel AlignSpec AlignProofs NatModel NatSpec NatProofs NatBytes NatBlocks NatBlocksProofs NatTyp NatTypMain NatMain NatRoman NatRomanMain NatPhon NatFacts NatSoundSpec NatWords.
Local Open Scope list_scope.

Definition usually (never : list string) (p : str) (c : bchar) : bool := if str_eqb p (usual c) then negb (existsb (String.eqb (btyp c)) never) else false.
Definition sound_in (tab : list str) (never : list string) (p : str) : bool := if existsb (str_eqb p) tab then true else existsb (usually never p) CHARS.
Lemma sound_in_ok l p : sound_in (map bytes (special l)) (changed l) p = true -> sound l p.
Proof.
  unfold sound_in, sound. generalize (map bytes (special l)) as tab. generalize (changed l) as never. intros never tab H. destruct (existsb (str_eqb p) tab) eqn:E.
  - left. apply existsb_exists in E as (x & I & E). apply str_eqb_eq in E as ->. exact I.
  - right. apply existsb_exists in H as (c & I & H). exists c. split; [exact I|]. unfold usually in H. destruct (str_eqb p (usual c)) eqn:F; [|discriminate H]. apply str_eqb_eq in F. split; [|exact F]. intros J. apply negb_true_iff in H. assert (K : existsb (String.eqb (btyp c)) never = true) by (apply existsb_exists; exists (btyp c); split; [exact J|apply String.eqb_refl]). congruence.
Qed.
Definition sounds_in (tab : list str) (never : list string) (silent : bool) (b : list tok) : bool :=
  if sound_in tab never (encs b) then true
  else if (if silent then str_eqb (encs b) (bytes "<asp>=") else false) then true
  else existsb (fun n => if sound_in tab never (encs (firstn n b)) then sound_in tab never (encs (skipn n b)) else false) (seq 1 (length b)).
Definition bengali (l : lang) : bool := match l with Bn => true | _ => false end.
Lemma sounds_in_ok l b : sounds_in (map bytes (special l)) (changed l) (bengali l) b = true -> exists ps, encs b = concat ps /\ Forall (fun p => sound l p \/ silent_mark l p) ps.
Proof.
  pose proof (sound_in_ok l) as G. revert G. unfold sounds_in. generalize (map bytes (special l)) as tab. generalize (changed l) as never. intros never tab G H.
  destruct (sound_in tab never (encs b)) eqn:E; [exists [encs b]; split; [symmetry; apply app_nil_r|constructor; [left; exact (G _ E)|constructor]]|].
  destruct (if bengali l then str_eqb (encs b) (bytes "<asp>=") else false) eqn:E2.
  - exists [encs b]. split; [symmetry; apply app_nil_r|]. constructor; [|constructor]. right. unfold silent_mark. destruct l; try discriminate E2. apply str_eqb_eq in E2. split; [reflexivity|exact E2].
  - apply existsb_exists in H as (n & _ & H). destruct (sound_in tab never (encs (firstn n b))) eqn:E3; [|discriminate H]. exists [encs (firstn n b); encs (skipn n b)]. split.
    + cbn [concat]. rewrite app_nil_r, <- encs_app, firstn_skipn. reflexivity.
    + constructor; [|constructor; [|constructor]]; left; apply G; assumption.
Qed.
Definition sounding (l : lang) : bool :=
  match posts false (txn_ops l) (map piece_of CHARS) with None => false | Some B => let tab := map bytes (special l) in forallb (fun b => sounds_in tab (changed l) (bengali l) b) B end.
Lemma sounding_all : forallb sounding LANGS = true.
Proof. vm_cast_no_check (eq_refl true). Qed.
Lemma encs_concat bs : encs (concat bs) = concat (map encs bs).
Proof. induction bs as [|b bs IH]; [reflexivity|]. cbn [concat map]. rewrite encs_app, IH. reflexivity. Qed.
Lemma pronounce_sounds l cs y : letters cs -> In y (pronounce l (text_of cs)) -> exists ps, y = concat ps /\ Forall (fun p => sound l p \/ silent_mark l p) ps.
Proof.
  intros H I. destruct (reading_exists cs H) as (ds & R). destruct (proj1 (pronounce_in l cs ds y H R) I) as (ts & P & ->). pose proof (proj1 (forallb_forall _ _) sounding_all l (all_langs l)) as S. unfold sounding in S.
  destruct (posts false (txn_ops l) (map piece_of CHARS)) as [B|] eqn:E; [|discriminate S]. cbv zeta in S.
  destruct (posts_sound false _ (txn_nonempty l) _ _ _ _ E (made_of_pieces ds CHARS (reading_chars cs ds R)) P) as (bs & -> & Hb). clear P I E. rewrite encs_concat. induction Hb as [|b bs Hb _ IH]; [exists []; split; [reflexivity|constructor]|].
  destruct IH as (ps & Q & F). destruct (sounds_in_ok l b (proj1 (forallb_forall _ _) S b Hb)) as (qs & Q' & F'). exists (qs ++ ps). split; [cbn [map concat]; rewrite Q, Q', concat_app; reflexivity|apply Forall_app; split; assumption].
Qed.

(** ** Each of them occurs *)
Fixpoint starts (a b : str) : option str :=
  match a, b with [], _ => Some b | x :: a', y :: b' => if N.eqb x y then starts a' b' else None | _, [] => None end.
Lemma starts_ok a : forall b r, starts a b = Some r -> b = a ++ r.
Proof.
  induction a as [|x a IH]; intros b r H; cbn [starts] in H; [injection H as ->; reflexivity|]. destruct b as [|y b]; [discriminate H|]. destruct (N.eqb x y) eqn:E; [|discriminate H]. apply N.eqb_eq in E as ->. rewrite (IH _ _ H). reflexivity.
Qed.
Fixpoint inside (p s : str) : bool :=
  if match starts p s with Some [] => true | Some (c :: _) => N.eqb c 60 | None => false end then true else match s with [] => false | _ :: s' => inside p s' end.
Lemma inside_ok p : forall s, inside p s = true -> exists u v, s = u ++ p ++ v /\ (v = [] \/ exists v', v = bytes "<" ++ v').
Proof.
  induction s as [|c s IH]; cbn [inside]; intros H.
  - destruct (starts p []) as [[|d r]|] eqn:E; [|destruct (N.eqb d 60) eqn:F|discriminate H]; [|..|discriminate H]; apply starts_ok in E; exists [], []; (split; [|left; reflexivity]); [exact E|destruct p; discriminate E].
  - destruct (starts p (c :: s)) as [[|d r]|] eqn:E.
    + apply starts_ok in E. exists [], []. split; [exact E|left; reflexivity].
    + destruct (N.eqb d 60) eqn:F; [apply starts_ok in E; apply N.eqb_eq in F as ->; exists [], (60%N :: r); split; [exact E|right; exists r; reflexivity]|]. destruct (IH H) as (u & v & -> & V). exists (c :: u), v. split; [reflexivity|exact V].
    + destruct (IH H) as (u & v & -> & V). exists (c :: u), v. split; [reflexivity|exact V].
Qed.
Definition heard (l : lang) (p : str) (cs : list bchar) : bool := existsb (fun o => inside p (encs o)) (run (ISO_TO_TXN ++ txn_ops l) (map symbol_of cs)).
Lemma heard_ok l p cs : letters cs -> heard l p cs = true -> occurs l p.
Proof.
  intros H K. unfold heard in K. apply existsb_exists in K as (o & I & K). apply inside_ok in K as (u & v & E & V). exists cs, u, v. split; [exact H|]. split; [|exact V].
  destruct (reading_exists cs H) as (ds & R). apply (pronounce_in l cs ds _ H R). exists o. split; [|symmetry; exact E]. apply (iso_to_txn_steps cs ds _ _ R). apply run_well_formed; [apply (txn_static_ok l)|exact I].
Qed.
Lemma named_letters w : letters (letters_named w).
Proof. unfold letters, letters_named. apply Forall_forall. intros c I. apply in_flat_map in I as (n & _ & I). apply filter_In in I. apply I. Qed.
Definition all_heard (l : lang) : bool :=
  if Nat.eqb (length (special l)) (length (sound_words l)) then
    if forallb (fun q => heard l (bytes (fst q)) (letters_named (snd q))) (combine (special l) (sound_words l)) then
      forallb (fun c => if existsb (String.eqb (btyp c)) ("vir"%string :: changed l) then true
                        else if heard l (usual c) (letters_named "k" ++ expand c) then true else heard l (usual c) (expand c)) CHARS
    else false
  else false.
Lemma all_heard_all : forallb all_heard LANGS = true.
Proof. vm_cast_no_check (eq_refl true). Qed.
Lemma combine_first {A B} (x : A) (l : list A) : forall m : list B, length l = length m -> In x l -> exists y, In (x, y) (combine l m).
Proof. induction l as [|a l IH]; intros [|b m] E I; [destruct I|discriminate E..|]. cbn [combine]. destruct I as [->|I]; [exists b; left; reflexivity|]. injection E as E. destruct (IH m E I) as (y & J). exists y. right. exact J. Qed.
Lemma vir_usual : forallb (fun c => if String.eqb (btyp c) "vir" then str_eqb (usual c) (bytes "<vir>={sil}") else true) CHARS = true.
Proof. vm_compute. reflexivity. Qed.
Lemma vir_only c : In c CHARS -> btyp c = "vir"%string -> usual c = bytes "<vir>={sil}".
Proof. intros I E. pose proof (proj1 (forallb_forall _ _) vir_usual c I) as H. cbv beta in H. rewrite E in H. cbn [String.eqb Ascii.eqb Bool.eqb] in H. apply str_eqb_eq in H. exact H. Qed.
Lemma sounds_occur l p : sound l p -> p <> bytes "<vir>={sil}" -> occurs l p.
Proof.
  intros S V. pose proof (proj1 (forallb_forall _ _) all_heard_all l (all_langs l)) as H. unfold all_heard in H. destruct (Nat.eqb _ _) eqn:L; [|discriminate H]. apply Nat.eqb_eq in L. destruct (forallb _ (combine _ _)) eqn:C; [|discriminate H].
  destruct S as [S|(c & I & N & ->)].
  - apply in_map_iff in S as (s & <- & S). destruct (combine_first s _ _ L S) as (w & J). exact (heard_ok l _ _ (named_letters w) (proj1 (forallb_forall _ _) C _ J)).
  - pose proof (proj1 (forallb_forall _ _) H c I) as K. cbv beta in K. destruct (existsb _ ("vir"%string :: changed l)) eqn:X.
    + exfalso. apply existsb_exists in X as (n & J & X). apply String.eqb_eq in X. destruct J as [<-|J]; [|apply N; rewrite X; exact J]. apply V. exact (vir_only c I X).
    + destruct (expand_ok c I) as (Lc & _). destruct (heard l (usual c) (letters_named "k" ++ expand c)) eqn:Y; [exact (heard_ok _ _ _ (proj2 (Forall_app _ _ _) (conj (named_letters _) Lc)) Y)|exact (heard_ok _ _ _ Lc K)].
Qed.
