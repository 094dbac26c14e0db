(** English words spelled out in Devanagari, romanized and transliterated again. *)
From Coq Require Import String Lia.
From Verif Require Import Base RuleModel RegexModel VisualModel ScriptData ScriptTables IsoModel AlignModel AlignSpec AlignProofs AlignMore NatModel NatSpec NatProofs NatBytes NatTyp NatTypMain NatMain NatRoman NatPhon
  AcronymModel AcronymSpec AcronymProofs AcronymMain AcronymNat.
From Verif Require ByteModel SpelloutTables SpelloutModel SpelloutSpec IsoTextSpec.
Local Open Scope list_scope.
Import IsoTextSpec.

(** * Reading letters of two texts one after the other *)
Section Join.
  Variable d : script_data.
  Definition keys : list str := map fst (sd_consonant d) ++ map fst (sd_subjoined_consonant d) ++ map fst (sd_vowel_sign d) ++ map fst (sd_virama d) ++ map fst (sd_vowel d) ++
    map fst (sd_coda d ++ sd_standalone d ++ sd_dead_consonant d ++ sd_vowel_length_sign d ++ [([8204%N], Some [124%N]); ([8205%N], Some [43%N])]).
  Lemma romanized_key f x o : IsoTextSpec.romanized f x = Some o -> In x (map fst f).
  Proof.
    induction f as [|[i t] f IH]; cbn; [discriminate|]. destruct (str_eqb i x) eqn:E; [apply str_eqb_eq in E; auto|]. intros H. right. auto.
  Qed.
  Lemma letter_key x l : letter_of d x = Some l -> In x keys.
  Proof.
    unfold letter_of, keys. intros H.
    destruct (IsoTextSpec.romanized (sd_consonant d) x) eqn:E1; [apply romanized_key in E1; apply in_or_app; auto|cbn [option_map orelse] in H]. apply in_or_app; right.
    destruct (IsoTextSpec.romanized (sd_subjoined_consonant d) x) eqn:E2; [apply romanized_key in E2; apply in_or_app; auto|cbn [option_map orelse] in H]. apply in_or_app; right.
    destruct (IsoTextSpec.romanized (sd_vowel_sign d) x) eqn:E3; [apply romanized_key in E3; apply in_or_app; auto|cbn [option_map orelse] in H]. apply in_or_app; right.
    destruct (IsoTextSpec.romanized (sd_virama d) x) eqn:E4; [apply romanized_key in E4; apply in_or_app; auto|cbn [option_map orelse] in H]. apply in_or_app; right.
    destruct (IsoTextSpec.romanized (sd_vowel d) x) eqn:E5; [apply romanized_key in E5; apply in_or_app; auto|cbn [option_map orelse] in H]. apply in_or_app; right.
    match type of H with option_map _ ?t = _ => destruct t eqn:E6; [|discriminate] end. apply romanized_key in E6. exact E6.
  Qed.
  (** No letter has [a] and [b] side by side *)
  Definition parted (a b : N) : Prop := forall u v, ~ In (u ++ a :: b :: v) keys.
  Lemma first_join m c b r : parted c b -> first_letter d ((m ++ [c]) ++ b :: r) = first_letter d (m ++ [c]).
  Proof.
    intros P. assert (None_ : forall n, length (m ++ [c]) < n -> letter_of d (firstn n ((m ++ [c]) ++ b :: r)) = None).
    { intros n Hn. destruct (letter_of d (firstn n ((m ++ [c]) ++ b :: r))) eqn:E; auto. exfalso. apply letter_key in E. rewrite firstn_app, firstn_all2 in E by lia.
      destruct (n - length (m ++ [c])) as [|k] eqn:Ek; [lia|]. cbn [firstn] in E. rewrite <- app_assoc in E. cbn in E. exact (P _ _ E). }
    assert (Some_ : forall n, n <= length (m ++ [c]) -> firstn n ((m ++ [c]) ++ b :: r) = firstn n (m ++ [c])).
    { intros n Hn. rewrite firstn_app. replace (n - length (m ++ [c])) with 0 by lia. cbn [firstn]. rewrite app_nil_r. reflexivity. }
    assert (L : length (m ++ [c]) >= 1) by (rewrite app_length; cbn; lia).
    unfold first_letter.
    assert (Big : forall n, length (m ++ [c]) <= n -> firstn n (m ++ [c]) = m ++ [c]) by (intros n Hn; apply firstn_all2; lia).
    destruct (Nat.le_gt_cases 4 (length (m ++ [c]))) as [H4|H4]; [rewrite !Some_ by lia; reflexivity|rewrite (None_ 4 H4), (Big 4 ltac:(lia)); cbn [orelse]].
    destruct (Nat.le_gt_cases 3 (length (m ++ [c]))) as [H3|H3]; [assert (E3 : length (m ++ [c]) = 3) by lia; rewrite !Some_, (Big 3) by lia|rewrite (None_ 3 H3), (Big 3 ltac:(lia)); cbn [orelse]].
    { destruct (letter_of d (m ++ [c])); reflexivity. }
    destruct (Nat.le_gt_cases 2 (length (m ++ [c]))) as [H2|H2]; [rewrite !Some_, (Big 2) by lia|rewrite (None_ 2 H2), (Big 2 ltac:(lia)); cbn [orelse]].
    { destruct (letter_of d (m ++ [c])); reflexivity. }
    rewrite !Some_, (Big 1) by lia. destruct (letter_of d (m ++ [c])); reflexivity.
  Qed.
  Lemma first_length x n l : first_letter d x = Some (n, l) -> n <= length x.
  Proof.
    unfold first_letter.
    assert (A : forall k, length (firstn k x) <= length x) by (intros k; rewrite firstn_length; lia).
    pose proof (A 4) as A4. pose proof (A 3) as A3. pose proof (A 2) as A2. pose proof (A 1) as A1. clear A.
    generalize dependent (firstn 4 x). generalize dependent (firstn 3 x). generalize dependent (firstn 2 x). generalize dependent (firstn 1 x). intros x1 A1 x2 A2 x3 A3 x4 A4 H.
    destruct (letter_of d x4); cbn [orelse] in H; [injection H as <- _; exact A4|].
    destruct (letter_of d x3); cbn [orelse] in H; [injection H as <- _; exact A3|].
    destruct (letter_of d x2); cbn [orelse] in H; [injection H as <- _; exact A2|].
    destruct (letter_of d x1); [injection H as <- _; exact A1|discriminate].
  Qed.
  Lemma letters_join c b r : parted c b -> forall m k l, k <= length (m ++ [c]) -> IsoTextSpec.letters d k (m ++ [c]) = Some l ->
    IsoTextSpec.letters d k ((m ++ [c]) ++ b :: r) = option_map (app l) (IsoTextSpec.letters d 0 (b :: r)).
  Proof.
    intros P. assert (Id : forall x : option (list letter), x = option_map (app []) x) by (intros [x|]; reflexivity).
    induction m as [|a m IH]; intros k l Hk H.
    - cbn [app] in *. cbn [IsoTextSpec.letters] in H |- *. destruct k as [|k].
      + pose proof (first_join [] c b r P) as F. cbn [app] in F. rewrite F. destruct (first_letter d [c]) as [[n x]|] eqn:E; [|discriminate]. apply first_length in E. cbn in E.
        cbn in H. injection H as <-. replace (n - 1) with 0 by lia. destruct (IsoTextSpec.letters d 0 (b :: r)); reflexivity.
      + cbn in Hk. replace k with 0 by lia. injection H as <-. apply Id.
    - change ((a :: m) ++ [c]) with (a :: (m ++ [c])) in *. cbn [IsoTextSpec.letters] in H. change ((a :: m ++ [c]) ++ b :: r) with (a :: ((m ++ [c]) ++ b :: r)). cbn [length] in Hk. destruct k as [|k].
      + change (IsoTextSpec.letters d 0 (a :: (m ++ [c]) ++ b :: r)) with
          (match first_letter d (a :: (m ++ [c]) ++ b :: r) with Some (n, l) => option_map (cons l) (IsoTextSpec.letters d (n - 1) ((m ++ [c]) ++ b :: r)) | None => None end).
        pose proof (first_join (a :: m) c b r P) as F. cbn [app] in F. cbn [app]. rewrite F. destruct (first_letter d (a :: m ++ [c])) as [[n x]|] eqn:E; [|discriminate].
        apply first_length in E. cbn [length] in E. destruct (IsoTextSpec.letters d (n - 1) (m ++ [c])) as [l'|] eqn:El; [|discriminate]. cbn in H. injection H as <-.
        rewrite (IH (n - 1) l') by (auto; lia). destruct (IsoTextSpec.letters d 0 (b :: r)); reflexivity.
      + cbn [IsoTextSpec.letters]. apply IH; [lia|exact H].
  Qed.
End Join.

(** * The names of the letters *)
Definition spelled : list (N * list string) := [
  (97, ["ee"]); (98, ["b"; "ii"]); (99, ["s"; "ii"]); (100, ["dd"; "ii"]); (101, ["ii"]); (102, ["ee"; "f"; "a"]); (103, ["j"; "ii"]);
  (104, ["ee"; "c"; "a"]); (105, ["aa"; "ind"; "ii"]); (106, ["j"; "ee"]); (107, ["k"; "ee"]); (108, ["ee"; "l"; "a"]); (109, ["ee"; "m"; "a"]);
  (110, ["ee"; "n"; "a"]); (111, ["oo"]); (112, ["p"; "ii"]); (113, ["k"; "y"; "uu"]); (114, ["aa"; "r"; "a"]); (115, ["ee"; "s"; "a"]);
  (116, ["tt"; "ii"]); (117, ["y"; "uu"]); (118, ["v"; "ii"]); (119, ["dd"; "a"; "b"; "l"; "y"; "uu"]); (120, ["ee"; "k"; "s"; "a"]);
  (121, ["v"; "aa"; "ind"; "ii"]); (122, ["z"; "ee"; "dd"; "a"])]%N%string.
Definition vowels : list string := ["a"; "aa"; "ii"; "ee"; "oo"; "uu"]%string.
Definition dotted (l : list string) : list string := match l with v :: _ => if existsb (String.eqb v) vowels then "ind"%string :: l else l | [] => [] end.
Fixpoint joined (l : list string) : list string :=
  match l with
  | [] => []
  | x :: r => if String.eqb x "ind" then match r with v :: r' => (v ++ "_i")%string :: joined r' | [] => [] end else x :: joined r
  end.

(** * Reading letters, step by step *)
Definition open_vowel (a : str) (p : place) : str := match p with Waiting _ => a | _ => [] end.
Definition step (a : str) (p : place) (c : letter) : option (str * place) :=
  match p, c with
  | Waiting _, Sign o => Some (o, Dotted)
  | Waiting _, Virama => Some ([], Dotted)
  | Waiting true, Subjoined o => Some (o, Waiting false)
  | Waiting _, Vowel o => Some (a ++ 46%N :: o, Dotted)
  | Dotted, Vowel o => Some (46%N :: o, Dotted)
  | _, Consonant o => Some (open_vowel a p ++ o, Waiting true)
  | _, Vowel o => Some (open_vowel a p ++ o, Dotted)
  | _, Sign o => Some (open_vowel a p ++ 45%N :: o, Dotted)
  | _, Virama => Some (open_vowel a p ++ [728%N], Fresh)
  | _, Other o => Some (open_vowel a p ++ o, Fresh)
  | _, Subjoined _ => None
  end.
Lemma read_step a p c r : read (Some a) p (c :: r) = match step a p c with Some (o, p') => write (Some o) (read (Some a) p' r) | None => None end.
Proof.
  destruct p as [|[|]|], c; cbn [read step open_vowel write]; try reflexivity;
    match goal with |- context [read ?v ?q ?x] => destruct (read v q x) end; cbn [write]; rewrite <- ?app_assoc; reflexivity.
Qed.
Fixpoint run (a : str) (p : place) (l : list letter) : option (str * place) :=
  match l with
  | [] => Some ([], p)
  | c :: r => match step a p c with Some (o, p') => match run a p' r with Some (o', q) => Some (o ++ o', q) | None => None end | None => None end
  end.
Lemma read_run a r : forall l p, read (Some a) p (l ++ r) = match run a p l with Some (o, p') => write (Some o) (read (Some a) p' r) | None => None end.
Proof.
  induction l as [|c l IH]; intros p; cbn [app run].
  - destruct (read (Some a) p r); reflexivity.
  - rewrite read_step. destruct (step a p c) as [[o p']|]; [|reflexivity]. rewrite IH. destruct (run a p' l) as [[o' q]|]; [|reflexivity]. destruct (read (Some a) q r); cbn [write]; rewrite <- ?app_assoc; reflexivity.
Qed.

(** * Each letter *)
Notation A_ := [97%N].
Notation nm := (SpelloutSpec.name SpelloutModel.HI SpelloutModel.DEVA).
Definition parts (c : N) : list letter := match IsoTextSpec.letters data_Deva 0 (nm c) with Some l => l | None => [] end.
Definition chars_of (c : N) : list string := match find (fun r => N.eqb (fst r) c) spelled with Some r => snd r | None => [] end.
Definition full (c : N) : str := match run A_ Fresh (parts c) with Some (o, p) => o ++ open_vowel A_ p | None => [] end.
Definition starts_vowel (c : N) : bool := match chars_of c with v :: _ => existsb (String.eqb v) vowels | [] => false end.
Definition dot (c : N) : str := if starts_vowel c then [46%N] else [].
Definition alphabet : list N := map fst spelled.
Definition opt_eqb (a : option (str * place)) (o : str) (p : place) : bool :=
  match a with Some (o', p') => if str_eqb o' o then match p, p' with Waiting true, Waiting true | Dotted, Dotted => true | _, _ => false end else false | None => false end.
Definition read_okb (c : N) : bool :=
  match run A_ Fresh (parts c) with
  | Some (o, p) => if opt_eqb (run A_ Fresh (parts c)) o p then if opt_eqb (run A_ Dotted (parts c)) (dot c ++ o) p then opt_eqb (run A_ (Waiting true) (parts c)) (A_ ++ dot c ++ o) p else false else false
  | None => false
  end.
Lemma read_all : forallb read_okb alphabet = true.
Proof. vm_compute. reflexivity. Qed.
Definition calm (p : place) : Prop := p = Dotted \/ p = Waiting true.
Lemma opt_eqb_ok a o p : opt_eqb a o p = true -> a = Some (o, p) /\ calm p.
Proof.
  unfold opt_eqb, calm. destruct a as [[o' p']|]; [|discriminate]. destruct (str_eqb o' o) eqn:E; [|discriminate]. apply str_eqb_eq in E. subst. destruct p as [|[|]|], p' as [|[|]|]; try discriminate; auto.
Qed.
Lemma read_letter c : In c alphabet -> exists o p', calm p' /\ full c = o ++ open_vowel A_ p' /\ run A_ Fresh (parts c) = Some (o, p') /\
  forall p, calm p -> run A_ p (parts c) = Some (open_vowel A_ p ++ dot c ++ o, p').
Proof.
  intros H. pose proof read_all as R. rewrite forallb_forall in R. apply R in H. clear R. unfold read_okb, full in *. destruct (run A_ Fresh (parts c)) as [[o p']|]; [|discriminate].
  destruct (opt_eqb (Some (o, p')) o p') eqn:E1; [|discriminate]. destruct (opt_eqb (run A_ Dotted (parts c)) (dot c ++ o) p') eqn:E2; [|discriminate].
  apply opt_eqb_ok in E1, E2, H. exists o, p'. repeat split; try tauto. intros p [-> | ->]; [exact (proj1 E2)|exact (proj1 H)].
Qed.
Definition tail (w : list N) : str := flat_map (fun c => dot c ++ full c) w.
Lemma read_tail w : incl w alphabet -> forall p, calm p -> read (Some A_) p (flat_map parts w) = Some (open_vowel A_ p ++ tail w).
Proof.
  induction w as [|c w IH]; intros Hw p Hp.
  - cbn. destruct Hp as [-> | ->]; reflexivity.
  - destruct (read_letter c (Hw c (or_introl eq_refl))) as (o & p' & Hp' & Ef & _ & Er). cbn [flat_map]. rewrite read_run, (Er p Hp), IH; auto; [|intros x K; apply Hw; right; auto].
    cbn [write tail flat_map]. rewrite Ef. rewrite <- !app_assoc. reflexivity.
Qed.
Definition iso (w : list N) : str := match w with [] => [] | c :: r => full c ++ tail r end.
Lemma read_word w : incl w alphabet -> read (Some A_) Fresh (flat_map parts w) = Some (iso w).
Proof.
  destruct w as [|c w]; [reflexivity|]. intros Hw. destruct (read_letter c (Hw c (or_introl eq_refl))) as (o & p' & Hp' & Ef & Ee & _). cbn [flat_map]. rewrite read_run, Ee, read_tail; auto; [|intros x K; apply Hw; right; auto].
  cbn [write iso]. rewrite Ef, <- app_assoc. reflexivity.
Qed.
(** Letters do not run together *)
Definition partedb (c b : N) : bool := forallb (fun k => negb (existsb (fun n => match skipn n k with x :: y :: _ => if N.eqb x c then N.eqb y b else false | _ => false end) (seq 0 (length k)))) (keys data_Deva).
Lemma partedb_ok c b : partedb c b = true -> parted data_Deva c b.
Proof.
  unfold partedb. rewrite forallb_forall. intros H u v K. apply H in K. apply negb_true_iff in K. apply Bool.not_true_iff_false in K. apply K. apply existsb_exists. exists (length u). split.
  - apply in_seq. rewrite app_length. cbn. lia.
  - rewrite skipn_app, skipn_all, Nat.sub_diag. cbn. rewrite !N.eqb_refl. reflexivity.
Qed.
Definition lasts : list N := nodup N.eq_dec (map (fun c => List.last (nm c) 0%N) alphabet).
Definition firsts : list N := nodup N.eq_dec (flat_map (fun c => firstn 1 (nm c)) alphabet).
Lemma names_parted : forallb (fun c => forallb (partedb c) firsts) lasts = true.
Proof. vm_compute. reflexivity. Qed.
Definition spelledb (c : N) : bool := match nm c with [] => false | _ => match IsoTextSpec.letters data_Deva 0 (nm c) with Some _ => true | None => false end end.
Lemma spelled_all : forallb spelledb alphabet = true.
Proof. vm_compute. reflexivity. Qed.
Lemma spelled_letter c : In c alphabet -> IsoTextSpec.letters data_Deva 0 (nm c) = Some (parts c) /\ exists m l b r, nm c = m ++ [l] /\ In l lasts /\ nm c = b :: r /\ In b firsts.
Proof.
  intros H. pose proof spelled_all as K. rewrite forallb_forall in K. specialize (K c H). unfold spelledb in K. unfold parts.
  assert (Hl : In (List.last (nm c) 0%N) lasts) by (apply nodup_In; apply (in_map (fun c => List.last (nm c) 0%N)); exact H).
  assert (Hf : forall b, In b (firstn 1 (nm c)) -> In b firsts) by (intros b Hb; apply nodup_In; apply in_flat_map; eauto).
  destruct (nm c) as [|b r] eqn:E; [discriminate|]. destruct (IsoTextSpec.letters data_Deva 0 (b :: r)); [|discriminate]. split; auto.
  destruct (exists_last (l := b :: r) ltac:(discriminate)) as (m & x & Em). exists m, x, b, r. rewrite Em in Hl. rewrite last_last in Hl. repeat split; auto. apply Hf. left. reflexivity.
Qed.
Lemma letters_word w : incl w alphabet -> IsoTextSpec.letters data_Deva 0 (flat_map nm w) = Some (flat_map parts w).
Proof.
  induction w as [|c w IH]; intros Hw; [reflexivity|]. cbn [flat_map].
  destruct (spelled_letter c (Hw c (or_introl eq_refl))) as (E & m & l & b & r & Em & Hl & Eb & Hb).
  assert (Hw' : incl w alphabet) by (intros x K; apply Hw; right; auto). destruct w as [|c2 w].
  - cbn [flat_map]. rewrite !app_nil_r. exact E.
  - destruct (spelled_letter c2 (Hw' c2 (or_introl eq_refl))) as (_ & _ & _ & b2 & r2 & _ & _ & Eb2 & Hb2). specialize (IH Hw'). cbn [flat_map] in *. rewrite Eb2 in *. cbn [app] in *.
    assert (P : parted data_Deva l b2) by (apply partedb_ok; pose proof names_parted as N; rewrite forallb_forall in N; apply N in Hl; rewrite forallb_forall in Hl; apply Hl; exact Hb2).
    rewrite Em in *. rewrite (letters_join data_Deva l b2 (r2 ++ flat_map nm w) P m 0 (parts c)); [|lia|exact E]. rewrite IH. reflexivity.
Qed.
Lemma deva_inherent : inherent data_Deva = Some A_.
Proof. vm_compute. reflexivity. Qed.
Lemma romanize_word w : incl w alphabet -> IsoTextSpec.romanize data_Deva (flat_map nm w) = Some (iso w).
Proof. intros H. unfold IsoTextSpec.romanize. rewrite (letters_word w H), deva_inherent. exact (read_word w H). Qed.
