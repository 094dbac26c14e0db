(** The two texts of a word agree: the ISO 15919 text is the romanization of the native one. *)
From Coq Require Import String Lia.
From Verif Require Import Base RuleModel VisualModel ScriptData IsoModel IsoSpec IsoPieceSpec IsoPieces Utf8Model Utf8Spec Utf8Proofs NatModel DeromSpec DeromReading DeromIso DeromCost.
Local Open Scope list_scope.

(** ** Code points of the texts *)
Definition dec (s : option string) : option str := match s with Some t => code_points (bytes t) | None => None end.
Definition cps (s : option string) : str := match dec s with Some l => l | None => [] end.
Definition ncp (o : orthography) (x : akshara) : str := cps (native_akshara o x).
Definition icp (o : orthography) (b : bool) (x : akshara) : str := cps (iso_akshara o b x).
Definition decodes (s : option string) : bool := match dec s with Some _ => true | None => false end.
Lemma decodes_ok s : decodes s = true -> exists t, s = Some t /\ code_points (bytes t) = Some (cps s).
Proof. unfold decodes, cps, dec. destruct s as [t|]; [|discriminate]. destruct (code_points (bytes t)) as [l|] eqn:E; [|discriminate]. intros _. exists t. auto. Qed.
Lemma code_points_app a b x y : code_points a = Some x -> code_points b = Some y -> code_points (a ++ b) = Some (x ++ y).
Proof.
  rewrite !code_points_spec. intros (p & F & ->) (q & G & ->). exists (p ++ q). split; [apply Forall2_app; assumption|]. rewrite concat_app. reflexivity.
Qed.
Definition texts_ok (o : orthography) : bool := forallb (fun x => decodes (native_akshara o x) && decodes (iso_akshara o true x) && decodes (iso_akshara o false x)) (all_aksharas o).
Lemma texts_decode o x : texts_ok o = true -> known o x -> decodes (native_akshara o x) = true /\ forall b, decodes (iso_akshara o b x) = true.
Proof.
  intros C K. apply known_all in K. apply (proj1 (forallb_forall _ _) C) in K. cbv beta in K. rewrite !andb_true_iff in K. destruct K as [[A B] D]. split; [exact A|]. intros []; assumption.
Qed.
Definition native_code o (l : list akshara) : str := flat_map (ncp o) l.
Definition iso_code o (l : list akshara) : str := match l with [] => [] | x :: l' => icp o true x ++ flat_map (icp o false) l' end.
Lemma native_codes o l t : texts_ok o = true -> Forall (known o) l -> native o l = Some t -> code_points (bytes t) = Some (native_code o l).
Proof.
  intros C F. revert t. induction F as [|x l K _ IH]; intros t E; cbn [native native_code flat_map] in *; [injection E as <-; reflexivity|].
  destruct (native_akshara o x) as [a|] eqn:Ea; [|discriminate E]. destruct (native o l) as [b|]; [|discriminate E]. injection E as <-. rewrite bytes_app.
  apply code_points_app; [|apply IH; reflexivity]. destruct (texts_decode o x C K) as [D _]. apply decodes_ok in D as (a' & E & D). unfold ncp. rewrite E in Ea. injection Ea as <-. exact D.
Qed.
Lemma iso_codes o l t : texts_ok o = true -> Forall (known o) l -> iso o l = Some t -> code_points (bytes t) = Some (iso_code o l).
Proof.
  intros C F. assert (H : forall l, Forall (known o) l -> forall t, fold_right (fun y t => both (iso_akshara o false y) t) (Some ""%string) l = Some t -> code_points (bytes t) = Some (flat_map (icp o false) l)).
  { clear t l F. induction 1 as [|x l K _ IH]; intros t E; cbn [fold_right flat_map] in *; [injection E as <-; reflexivity|].
    destruct (iso_akshara o false x) as [a|] eqn:Ea; [|discriminate E]. destruct (fold_right _ _ l) as [b|]; [|discriminate E]. injection E as <-. rewrite bytes_app.
    apply code_points_app; [|apply IH; reflexivity]. destruct (texts_decode o x C K) as [_ D]. specialize (D false). apply decodes_ok in D as (a' & E & D). unfold icp. rewrite E in Ea. injection Ea as <-. exact D. }
  destruct F as [|x l K F]; cbn [iso iso_code]; intros E; [injection E as <-; reflexivity|].
  destruct (iso_akshara o true x) as [a|] eqn:Ea; [|discriminate E]. destruct (fold_right _ _ l) as [b|] eqn:Eb; [|discriminate E]. injection E as <-. rewrite bytes_app.
  apply code_points_app; [|apply H; assumption]. destruct (texts_decode o x C K) as [_ D]. specialize (D true). apply decodes_ok in D as (a' & E & D). unfold icp. rewrite E in Ea. injection Ea as <-. exact D.
Qed.

(** ** Vowels stand at the start or after a syllable *)
Fixpoint chained (carried : bool) (l : list akshara) : Prop :=
  match l with
  | [] => True
  | Ind _ :: l' => carried = true /\ chained true l'
  | Nasal :: l' => chained false l'
  | _ :: l' => chained true l'
  end.
Definition not_ind (l : list akshara) : Prop := match l with Ind _ :: _ => False | _ => True end.
Lemma split_inds l : exists vs l', l = map Ind vs ++ l' /\ not_ind l'.
Proof.
  induction l as [|x l (vs & l' & -> & N)]; [exists [], []; split; [reflexivity|exact Logic.I]|].
  destruct x as [v|c v|c|c|]; [exists (v :: vs), l'; split; [reflexivity|exact N]|eexists [], _; split; [reflexivity|exact Logic.I]..].
Qed.
Lemma chained_rest b vs l : chained b (map Ind vs ++ l) -> exists b', chained b' l.
Proof. revert b. induction vs as [|v vs IH]; intros b H; [exists b; exact H|]. apply (IH true). apply H. Qed.

(** ** The pieces of the text *)
Section Pieces.
Variable d : script_data.
Variable cl : N -> cls.
Variable o : orthography.
Local Notation cs := (map cl).
Definition row_b (f : string_file) (i t : str) : bool := existsb (fun r : str * option str => if str_eqb (fst r) i then match snd r with Some t' => str_eqb t' t | None => str_eqb i t end else false) f.
Lemma row_b_ok f i t : row_b f i t = true -> row f i t.
Proof.
  intros H. apply existsb_exists in H as ([i' [t'|]] & I & H); cbn [fst snd] in H; destruct (str_eqb i' i) eqn:E; try discriminate H; apply str_eqb_eq in E; subst i'; apply str_eqb_eq in H; subst; [left; exact I|right; split; [exact I|reflexivity]].
Qed.
(** A consonant and what becomes of its vowel *)
Definition nuclei_of : list (str * str * N) :=
  map (fun r : str * option str => (fst r, match snd r with Some t => t | None => fst r end, 0%N)) (sd_vowel_sign d) ++ map (fun r : str * option str => ([], fst r, 1%N)) (sd_inherent_vowel d) ++ map (fun r : str * option str => (fst r, [], 1%N)) (sd_virama d).
Lemma nuclei_ok i t w : In (i, t, w) nuclei_of -> nucleus d i t w.
Proof.
  unfold nuclei_of. rewrite !in_app_iff, !in_map_iff. intros [([i' t'] & E & I)|[([i' t'] & E & I)|([i' t'] & E & I)]]; cbn [fst snd] in E; injection E as <- <- <-.
  - constructor. destruct t'; [left; exact I|right; split; [exact I|reflexivity]].
  - econstructor. exact I.
  - econstructor. exact I.
Qed.
Definition ends : list (option cls) := [None; Some kC; Some kY; Some kK].
Definition syllable_b (x : akshara) : bool :=
  let i := ncp o x in let t := icp o false x in
  existsb (fun r : str * option str => if str_eqb (fst r) (firstn (length (fst r)) i) then
    let t1 := match snd r with Some t1 => t1 | None => fst r end in
    existsb (fun q => let '(i2, t2, w) := q in if str_eqb i (fst r ++ i2) then if str_eqb t (t1 ++ t2) then forallb (fun n => forallb (fun p => N.eqb (seg p (cs i) n) w) spots) ends else false else false) nuclei_of else false) (sd_consonant d).
Definition akshara_b (x : akshara) : bool :=
  match x with
  | Ind v => row_b (sd_vowel d) (ncp o x) (icp o true x) && str_eqb (icp o false x) (46%N :: icp o true x) && all_I (cs (ncp o x))
  | Nasal => row_b (sd_coda d) (ncp o x) (icp o true x) && str_eqb (icp o false x) (icp o true x) && match cs (ncp o x) with [kK] => true | _ => false end
  | _ => str_eqb (icp o false x) (icp o true x) && held (cs (ncp o x)) && match cs (ncp o x) with (kC | kY) :: _ => true | _ => false end && syllable_b x
  end.
Hypothesis ok : forallb akshara_b (all_aksharas o) = true.
Lemma akshara_ok x : known o x -> akshara_b x = true.
Proof. intros K. apply known_all in K. exact (proj1 (forallb_forall _ _) ok _ K). Qed.

Definition rest_code (l : list akshara) : str := flat_map (icp o false) l.
Lemma inds_hiatus vs : Forall (known o) (map Ind vs) -> hiatus d (length vs) (native_code o (map Ind vs)) (rest_code (map Ind vs)).
Proof.
  induction vs as [|v vs IH]; intros F; [constructor|]. cbn [map] in *. inversion F as [|? ? K F']; subst. apply akshara_ok in K. cbn [akshara_b] in K. rewrite !andb_true_iff in K. destruct K as [[R E] _].
  apply str_eqb_eq in E. cbn [native_code rest_code flat_map length]. rewrite E. constructor; [apply row_b_ok, R|apply IH, F'].
Qed.
Lemma inds_cls vs : Forall (known o) (map Ind vs) -> cs (native_code o (map Ind vs)) = repeat kI (length vs).
Proof.
  induction vs as [|v vs IH]; intros F; [reflexivity|]. cbn [map] in *. inversion F as [|? ? K F']; subst. apply akshara_ok in K. cbn [akshara_b] in K. rewrite !andb_true_iff in K. destruct K as [_ E].
  cbn [native_code flat_map length repeat]. rewrite map_app. fold (native_code o (map Ind vs)). rewrite (IH F'). destruct (cs (ncp o (Ind v))) as [|[] [|]]; try discriminate E. reflexivity.
Qed.
Lemma first_end l : Forall (known o) l -> not_ind l -> In (first_of (cs (native_code o l)) None) ends.
Proof.
  intros F N. destruct F as [|x l K _]; [left; reflexivity|]. apply akshara_ok in K. cbn [native_code flat_map]. rewrite map_app.
  destruct x as [v|c v|c|c|]; cbn [akshara_b not_ind] in *; [destruct N|..]; rewrite !andb_true_iff in K.
  1-3: destruct K as [[_ K] _].
  4: destruct K as [_ K].
  all: destruct (cs _) as [|[] ?]; try discriminate K; cbn; tauto.
Qed.
Lemma syllable_ok x : syllable_b x = true -> exists i1 t1 i2 t2 w, ncp o x = i1 ++ i2 /\ icp o false x = t1 ++ t2 /\ row (sd_consonant d) i1 t1 /\ nucleus d i2 t2 w /\ forall p n, In n ends -> seg p (cs (ncp o x)) n = w.
Proof.
  intros H. unfold syllable_b in H. apply existsb_exists in H as ([i1 t1'] & I1 & H). cbn [fst snd] in H. destruct (str_eqb i1 _); [|discriminate H]. apply existsb_exists in H as ([[i2 t2] w] & I2 & H).
  destruct (str_eqb (ncp o x) (i1 ++ i2)) eqn:E1; [|discriminate H]. destruct (str_eqb (icp o false x) _) eqn:E2; [|discriminate H]. apply str_eqb_eq in E1, E2.
  exists i1, (match t1' with Some t1 => t1 | None => i1 end), i2, t2, w. split; [exact E1|]. split; [exact E2|]. split; [destruct t1'; [left; exact I1|right; split; [exact I1|reflexivity]]|]. split; [apply nuclei_ok, I2|].
  intros p n In_. rewrite forallb_forall in H. specialize (H n In_). rewrite forallb_forall in H. exact (proj1 (N.eqb_eq _ _) (H p (spots_all p))).
Qed.
Lemma map_Forall_app {A} (P : A -> Prop) a b : Forall P (a ++ b) -> Forall P a /\ Forall P b. Proof. apply Forall_app. Qed.
Lemma last_held p l k : carries (last_of p l) = true -> forall m x, seg (last_of p l) (repeat kI k ++ m) x = seg (last_of p (l ++ repeat kI k)) m x.
Proof. intros C m x. rewrite seg_app, seg_I by exact C. rewrite last_of_app. reflexivity. Qed.
Lemma parse n : forall l, length l <= n -> Forall (known o) l -> forall b, chained b l -> not_ind l -> forall p, in_pieces d (native_code o l) (rest_code l) (seg p (cs (native_code o l)) None).
Proof.
  induction n as [|n IH]; intros l Ln F b Ch N p; [destruct l; [constructor|cbn in Ln; lia]|]. destruct l as [|x l]; [constructor|]. cbn [length] in Ln. inversion F as [|? ? K F']; subst.
  destruct (split_inds l) as (vs & l' & -> & N'). apply Forall_app in F' as [Fv Fl]. rewrite app_length, map_length in Ln.
  assert (R : forall p, in_pieces d (native_code o l') (rest_code l') (seg p (cs (native_code o l')) None)).
  { assert (exists b', chained b' l') as (b' & Cb) by (destruct x; cbn [chained] in Ch; try (destruct Ch as [_ Ch]); exact (chained_rest _ _ _ Ch)). apply (IH l' ltac:(lia) Fl b' Cb N'). }
  pose proof (akshara_ok x K) as Kx. pose proof (first_end l' Fl N') as Fe.
  assert (S : akshara_b x = str_eqb (icp o false x) (icp o true x) && held (cs (ncp o x)) && match cs (ncp o x) with (kC | kY) :: _ => true | _ => false end && syllable_b x ->
    in_pieces d (native_code o (x :: map Ind vs ++ l')) (rest_code (x :: map Ind vs ++ l')) (seg p (cs (native_code o (x :: map Ind vs ++ l'))) None)).
  { intros E. rewrite E, !andb_true_iff in Kx. destruct Kx as [[[_ H] _] Sy]. apply syllable_ok in Sy as (i1 & t1 & i2 & t2 & w & E1 & E2 & R1 & Nu & Sg).
    unfold native_code, rest_code. cbn [flat_map]. rewrite !flat_map_app. fold (native_code o (map Ind vs)) (native_code o l') (rest_code (map Ind vs)) (rest_code l').
    rewrite !app_assoc. rewrite map_app, map_app, inds_cls by exact Fv. rewrite seg_app.
    constructor; [|apply R].
    assert (W : seg p (cs (ncp o x) ++ repeat kI (length vs)) (first_of (cs (native_code o l')) None) = match length vs with O => w | _ => 0%N end).
    { destruct (length vs) as [|k] eqn:El; [cbn [repeat]; rewrite app_nil_r; apply Sg; exact Fe|]. rewrite seg_app. destruct (held_seg _ H p) as [Z C]. cbn [repeat first_of]. rewrite Z. change (kI :: repeat kI k) with (repeat kI (S k)). rewrite seg_I by exact C. reflexivity. }
    rewrite W, E1, E2, <- !app_assoc. apply pc_syllable; [apply cp_one, R1|exact Nu|apply inds_hiatus, Fv]. }
  destruct x as [v|c v|c|c|]; [destruct N|apply S; reflexivity..|].
  cbn [chained] in Ch. destruct vs as [|v vs]; [|destruct Ch as [Ch _]; discriminate Ch]. cbn [map app] in *. cbn [akshara_b] in Kx. rewrite !andb_true_iff in Kx. destruct Kx as [[Rw E] Kc]. apply str_eqb_eq in E.
  unfold native_code, rest_code. cbn [flat_map]. fold (native_code o l') (rest_code l'). rewrite map_app, seg_app, E. constructor; [|apply R].
  destruct (cs (ncp o Nasal)) as [|[] [|]]; try discriminate Kc. cbn [seg cost first_of]. apply pc_coda, row_b_ok, Rw.
Qed.
Lemma code_true x : known o x -> match x with Ind _ => False | _ => True end -> icp o true x = icp o false x.
Proof. intros K N. apply akshara_ok in K. destruct x; [destruct N|..]; cbn [akshara_b] in K; rewrite !andb_true_iff in K; symmetry; apply str_eqb_eq; tauto. Qed.
Lemma parse_text l : Forall (known o) l -> chained true l -> in_pieces d (native_code o l) (iso_code o l) (seg None (cs (native_code o l)) None).
Proof.
  intros F Ch. destruct (split_inds l) as (vs & l' & -> & N). destruct vs as [|v vs].
  - cbn [map app] in *. assert (E : iso_code o l' = rest_code l'). { destruct F as [|x l K F]; [reflexivity|]. cbn [iso_code rest_code flat_map]. rewrite code_true; [reflexivity|exact K|destruct x; [destruct N|exact Logic.I..]]. }
    rewrite E. exact (parse _ l' (le_n _) F true Ch N None).
  - apply Forall_app in F as [Fv Fl]. destruct (chained_rest _ _ _ Ch) as (b & Cb). pose proof (first_end l' Fl N) as Fe.
    cbn [map app iso_code]. rewrite flat_map_app. fold (rest_code (map Ind vs)) (rest_code l'). unfold native_code. cbn [flat_map]. rewrite flat_map_app. fold (native_code o (map Ind vs)) (native_code o l').
    cbn [map] in Fv. inversion Fv as [|? ? K Fv']; subst. pose proof (akshara_ok _ K) as Kx. cbn [akshara_b] in Kx. rewrite !andb_true_iff in Kx. destruct Kx as [[Rw E] Kc].
    rewrite !app_assoc, map_app, seg_app. constructor; [|apply (parse _ l' (le_n _) Fl b Cb N)].
    assert (W : seg None (cs (ncp o (Ind v) ++ native_code o (map Ind vs))) (first_of (cs (native_code o l')) None) = 1%N).
    { rewrite map_app, inds_cls by exact Fv'. destruct (cs (ncp o (Ind v))) as [|[] [|]]; try discriminate Kc. cbn [app seg cost]. rewrite seg_I by reflexivity. reflexivity. }
    rewrite W. eapply pc_vowel; [apply row_b_ok, Rw|apply inds_hiatus, Fv'].
Qed.
Hypothesis costs : costs_ok d cl = true.
Lemma best_text l : Forall (known o) l -> chained true l -> best (iso_wt d) (native_code o l) (iso_code o l) (seg None (cs (native_code o l)) None).
Proof.
  intros F Ch. split; [apply iso_pieces, parse_text; assumption|]. intros o' w' R. apply iso_pieces in R. exact (seg_pieces d cl costs _ _ _ R None).
Qed.
End Pieces.
