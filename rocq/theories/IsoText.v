(** The romanization of least cost of a text cut into letters is the one a reader finds from left to right. *)
From Verif Require Import Base RuleModel VisualModel ScriptData ScriptTables IsoModel IsoSpec IsoPieceSpec IsoPieces IsoRoundSpec IsoRound IsoProofs IsoTextSpec.
From Coq Require Import Lia.

(** The cost of what the reader finds *)
Inductive spot := sFresh | sWaiting (b : bool) | sKilled | sDotted.
Definition place_of (s : spot) : place := match s with sFresh => Fresh | sWaiting b => Waiting b | sKilled | sDotted => Dotted end.
Definition pay (w : N) (r : option N) : option N := match r with Some m => Some (w + m)%N | None => None end.
Definition if_inherent (d : script_data) (r : option N) : option N := match inherent d with Some _ => r | None => None end.
Definition tok := (str * letter)%type.
Definition joiners : string_file := [([8204%N], Some [124%N]); ([8205%N], Some [43%N])].
Section Script.
Variable d : script_data.
Variable free : str -> bool.
Fixpoint toll (s : spot) (x : list tok) : option N :=
  match x with
  | [] => match s with sWaiting _ => if_inherent d (Some 1%N) | sKilled => Some 1%N | _ => Some 0%N end
  | c :: r =>
    match s, snd c with
    | sWaiting _, Sign _ => toll sDotted r
    | sWaiting _, Virama => toll sKilled r
    | sWaiting true, Subjoined _ => toll (sWaiting false) r
    | sWaiting _, Vowel _ => if_inherent d (toll sDotted r)
    | (sKilled | sDotted), Vowel _ => toll sDotted r
    | _, l =>
      (match s with sWaiting _ => fun r => if_inherent d (pay 1 r) | sKilled => pay 1 | _ => fun r => r end)
        match l with
        | Consonant _ => toll (sWaiting true) r
        | Vowel _ => pay 1 (toll sDotted r)
        | Sign _ => pay 1 (toll sDotted r)
        | Virama => pay 2 (toll sFresh r)
        | Other _ => pay (if free (fst c) then 0 else 1) (toll sFresh r)
        | Subjoined _ => None
        end
    end
  end.

Definition is_letter (l : letter) (i : str) : bool :=
  match letter_of d i, l with
  | Some (Consonant a), Consonant b | Some (Subjoined a), Subjoined b | Some (Sign a), Sign b | Some (Vowel a), Vowel b | Some (Other a), Other b => str_eqb a b
  | Some Virama, Virama => true
  | _, _ => false
  end.
Definition rows_ok (f : string_file) (l : str -> letter) (g : str -> bool) : bool :=
  forallb (fun r => match fst r with [] => false | _ => if is_letter (l (column2 r)) (fst r) then g (fst r) else false end) f.
Definition any (_ : str) : bool := true.
Definition letters_ok : bool :=
  if rows_ok (sd_consonant d) Consonant any then
  if rows_ok (sd_subjoined_consonant d) Subjoined any then
  if rows_ok (sd_vowel_sign d) Sign any then
  if rows_ok (sd_virama d) (fun _ => Virama) any then
  if rows_ok (sd_vowel d) Vowel any then
  if rows_ok (sd_coda d) Other (fun c => negb (free c)) then
  if rows_ok (sd_standalone d) Other (fun c => negb (free c)) then
  if rows_ok (sd_dead_consonant d) Other free then
  if rows_ok (sd_vowel_length_sign d) Other free then
  if rows_ok joiners Other free then
    match sd_inherent_vowel d with [] | [_] => true | _ => false end
  else false else false else false else false else false else false else false else false else false else false.
Hypothesis ok : letters_ok = true.

Lemma is_letter_ok l c : is_letter l c = true -> letter_of d c = Some l.
Proof. unfold is_letter. destruct (letter_of d c) as [[]|]; destruct l; try discriminate; intros H; try (apply str_eqb_eq in H; subst); reflexivity. Qed.
Lemma rows_ok_in f l g : rows_ok f l g = true -> forall i o, row f i o -> i <> [] /\ letter_of d i = Some (l o) /\ g i = true.
Proof.
  intros H i o R. unfold rows_ok in H. rewrite forallb_forall in H.
  assert (X : exists r, In r f /\ fst r = i /\ column2 r = o) by (destruct R as [R|[R ->]]; [exists (i, Some o)|exists (i, None)]; repeat split; exact R).
  destruct X as ([i' t'] & I & E1 & E2). specialize (H _ I). cbv beta in H. rewrite E2 in H. cbn [fst] in H, E1. subst i'. destruct i as [|c t]; [discriminate H|].
  split; [discriminate|]. destruct (is_letter (l o) (c :: t)) eqn:E; [|discriminate H]. split; [apply is_letter_ok, E|exact H].
Qed.
Lemma romanized_row f c o : romanized f c = Some o -> row f c o.
Proof.
  induction f as [|[i t] f IH]; cbn [romanized]; [discriminate|]. destruct (str_eqb i c) eqn:E.
  - apply str_eqb_eq in E as ->. intros [= <-]. destruct t; [left|right]; cbn; tauto.
  - intros H. apply IH in H as [H|[H ->]]; [left|right]; cbn; tauto.
Qed.
Lemma row_app f g i o : row (f ++ g) i o -> row f i o \/ row g i o.
Proof. intros [H|[H ->]]; apply in_app_or in H as [H|H]; unfold row; tauto. Qed.
(** what a letter is *)
Lemma letter_row c l : letter_of d c = Some l ->
  match l with
  | Consonant o => row (sd_consonant d) c o
  | Subjoined o => row (sd_subjoined_consonant d) c o
  | Sign o => row (sd_vowel_sign d) c o
  | Virama => exists o, row (sd_virama d) c o
  | Vowel o => row (sd_vowel d) c o
  | Other o => row (sd_coda d) c o \/ row (sd_standalone d) c o \/ row (sd_dead_consonant d) c o \/ row (sd_vowel_length_sign d) c o \/ row joiners c o
  end.
Proof.
  unfold letter_of.
  destruct (romanized (sd_consonant d) c) eqn:E1; [intros [= <-]; apply romanized_row, E1|].
  destruct (romanized (sd_subjoined_consonant d) c) eqn:E2; [intros [= <-]; apply romanized_row, E2|].
  destruct (romanized (sd_vowel_sign d) c) eqn:E3; [intros [= <-]; apply romanized_row, E3|].
  destruct (romanized (sd_virama d) c) eqn:E4; [intros [= <-]; eexists; apply romanized_row, E4|].
  destruct (romanized (sd_vowel d) c) eqn:E5; [intros [= <-]; apply romanized_row, E5|].
  cbn [option_map orelse].
  match goal with |- option_map Other (romanized ?f c) = _ -> _ => destruct (romanized f c) eqn:E6; [|discriminate] end.
  intros [= <-]. apply romanized_row in E6. repeat (apply row_app in E6 as [E6|E6]; [tauto|]). tauto.
Qed.
(** a text cut into letters *)
Definition is_tok (t : tok) : Prop := fst t <> [] /\ letter_of d (fst t) = Some (snd t).
Definition cut (ts : list tok) (x : str) : Prop := Forall is_tok ts /\ concat (map fst ts) = x.
Lemma cut_none : cut [] []. Proof. split; [constructor|reflexivity]. Qed.
Lemma cut_more i l ts x : i <> [] -> letter_of d i = Some l -> cut ts x -> cut ((i, l) :: ts) (i ++ x).
Proof. intros N L [F E]. split; [constructor; [split; assumption|exact F]|]. cbn [map concat fst]. rewrite E. reflexivity. Qed.

(** Being somewhere costs no more than starting afresh *)
Lemma pay_some w r m : pay w r = Some m -> exists k, r = Some k /\ m = (w + k)%N.
Proof. destruct r as [k|]; intros H; [|discriminate H]. exists k. split; [reflexivity|]. unfold pay in H. congruence. Qed.
Lemma toll_dotted x m : toll sFresh x = Some m -> exists m', toll sDotted x = Some m' /\ (m' <= m)%N.
Proof.
  destruct x as [|[i l] r]; cbn [toll snd]; [intros [= <-]; exists 0%N; split; [reflexivity|lia]|]. destruct l; try discriminate; intros H; try (exists m; split; [exact H|lia]).
  apply pay_some in H as (k & E & ->). rewrite E. exists k. split; [reflexivity|lia].
Qed.
Lemma toll_killed x m : toll sFresh x = Some m -> exists m', toll sKilled x = Some m' /\ (m' <= 1 + m)%N.
Proof.
  destruct x as [|[i l] r]; cbn [toll snd]; [intros [= <-]; exists 1%N; split; [reflexivity|lia]|]. destruct l; try discriminate; intros H;
    try (rewrite H; eexists; split; [reflexivity|lia]).
  apply pay_some in H as (k & E & ->). rewrite E. exists k. split; [reflexivity|lia].
Qed.
Lemma toll_waiting b x m v : inherent d = Some v -> toll sFresh x = Some m -> exists m', toll (sWaiting b) x = Some m' /\ (m' <= 1 + m)%N.
Proof.
  intros V. destruct x as [|[i l] r]; cbn [toll snd]; unfold if_inherent; rewrite V; [intros [= <-]; eexists; split; [reflexivity|lia]|].
  destruct l; try discriminate; intros H.
  - rewrite H. eexists. split; [destruct b; reflexivity|lia].
  - apply pay_some in H as (k & E & ->). rewrite E. exists k. split; [destruct b; reflexivity|lia].
  - apply pay_some in H as (k & E & ->). destruct (toll_killed _ _ E) as (k' & K & L). exists k'. split; [destruct b; exact K|lia].
  - apply pay_some in H as (k & E & ->). rewrite E. exists k. split; [destruct b; reflexivity|lia].
  - rewrite H. eexists. split; [destruct b; reflexivity|lia].
Qed.

Lemma oks : (rows_ok (sd_consonant d) Consonant any = true /\ rows_ok (sd_subjoined_consonant d) Subjoined any = true /\ rows_ok (sd_vowel_sign d) Sign any = true /\
  rows_ok (sd_virama d) (fun _ => Virama) any = true /\ rows_ok (sd_vowel d) Vowel any = true) /\
  (rows_ok (sd_coda d) Other (fun c => negb (free c)) = true /\ rows_ok (sd_standalone d) Other (fun c => negb (free c)) = true /\ rows_ok (sd_dead_consonant d) Other free = true /\
  rows_ok (sd_vowel_length_sign d) Other free = true /\ rows_ok joiners Other free = true) /\
  match sd_inherent_vowel d with [] | [_] => True | _ => False end.
Proof.
  unfold letters_ok in ok. repeat match type of ok with (if ?a then _ else _) = _ => destruct a eqn:?; [|discriminate ok] end.
  repeat split; try assumption. destruct (sd_inherent_vowel d) as [|? [|]]; try exact I. discriminate ok.
Qed.

Lemma hiatus_cut n h h' : hiatus d n h h' -> forall ts x, cut ts x -> exists us, cut us (h ++ x) /\ toll sDotted us = toll sDotted ts.
Proof.
  destruct oks as ((_ & _ & _ & _ & V) & _). induction 1 as [|n i o i' o' R _ IH]; intros ts x C; [exists ts; split; [exact C|reflexivity]|].
  destruct (IH ts x C) as (us & U & E). destruct (rows_ok_in _ _ _ V _ _ R) as (N & L & _). exists ((i, Vowel o) :: us). rewrite <- app_assoc. split; [apply cut_more; assumption|exact E].
Qed.
(** after the nucleus *)
Lemma hiatus_any s n h h' ts x m : hiatus d n h h' -> cut ts x -> toll sFresh ts = Some m -> s = sKilled \/ s = sDotted ->
  exists us m', cut us (h ++ x) /\ toll s us = Some m' /\ (m' <= (match s, n with sKilled, O => 1 | _, _ => 0 end) + m)%N.
Proof.
  intros H C F S. destruct H as [|n i o i' o' R H].
  - cbn [app]. exists ts. destruct S as [-> | ->]; [destruct (toll_killed _ _ F) as (k & K & L)|destruct (toll_dotted _ _ F) as (k & K & L)]; exists k; (split; [exact C|split; [exact K|lia]]).
  - destruct oks as ((_ & _ & _ & _ & V) & _). destruct (rows_ok_in _ _ _ V _ _ R) as (N & L & _). destruct (hiatus_cut _ _ _ H ts x C) as (us & U & E).
    destruct (toll_dotted _ _ F) as (k & K & Le). exists ((i, Vowel o) :: us), k. rewrite <- app_assoc. split; [apply cut_more; assumption|].
    rewrite K in E. destruct S as [-> | ->]; cbn [toll snd]; (split; [exact E|lia]).
Qed.
Lemma inherent_row v c : In (v, c) (sd_inherent_vowel d) -> inherent d = Some v.
Proof. destruct oks as (_ & _ & Q). unfold inherent. destruct (sd_inherent_vowel d) as [|r [|]]; try contradiction. intros [-> |[]]. reflexivity. Qed.
(** a consonant and what follows *)
Lemma nucleus_cut b i o w n h h' ts x m : nucleus d i o w -> hiatus d n h h' -> cut ts x -> toll sFresh ts = Some m ->
  exists us m', cut us (i ++ h ++ x) /\ toll (sWaiting b) us = Some m' /\ (m' <= (match n with O => w | _ => 0 end) + m)%N.
Proof.
  intros N H C F. destruct oks as ((_ & _ & S & V & I) & _). destruct N as [i o R|v c R|v c R].
  - destruct (rows_ok_in _ _ _ S _ _ R) as (N & E & _). destruct (hiatus_any sDotted n h h' ts x m H C F) as (us & k & U & K & L); auto.
    exists ((i, Sign o) :: us), k. split; [apply cut_more; assumption|]. cbn [toll snd]. split; [destruct b; exact K|destruct n; exact L].
  - cbn [app] in *. apply inherent_row in R. destruct H as [|n i o i' o' R' H].
    + cbn [app]. destruct (toll_waiting b ts m v R F) as (k & K & L). exists ts, k. split; [exact C|split; [exact K|lia]].
    + destruct (rows_ok_in _ _ _ I _ _ R') as (N & E & _). destruct (hiatus_any sDotted n i' o' ts x m H C F) as (us & k & U & K & L); auto.
      exists ((i, Vowel o) :: us), k. rewrite <- app_assoc. split; [apply cut_more; assumption|]. cbn [toll snd]. unfold if_inherent. rewrite R. split; [destruct b; exact K|destruct n; exact L].
  - assert (R' : exists o, row (sd_virama d) v o) by (destruct c as [o|]; [exists o; left|exists v; right]; tauto). destruct R' as (o & R').
    destruct (rows_ok_in _ _ _ V _ _ R') as (N & E & _). destruct (hiatus_any sKilled n h h' ts x m H C F) as (us & k & U & K & L); auto.
    exists ((v, Virama) :: us), k. split; [apply cut_more; assumption|]. cbn [toll snd]. split; [destruct b; exact K|destruct n; exact L].
Qed.
Lemma other_cut f i o g ts x m : rows_ok f Other g = true -> row f i o -> cut ts x -> toll sFresh ts = Some m ->
  g i = true /\ cut ((i, Other o) :: ts) (i ++ x) /\ toll sFresh ((i, Other o) :: ts) = Some ((if free i then 0 else 1) + m)%N.
Proof.
  intros H R C F. destruct (rows_ok_in _ _ _ H _ _ R) as (N & E & G). split; [exact G|]. split; [apply cut_more; assumption|]. cbn [toll snd fst]. rewrite F. reflexivity.
Qed.
Lemma piece_cut i o w ts x m : piece d i o w -> cut ts x -> toll sFresh ts = Some m -> exists us m', cut us (i ++ x) /\ toll sFresh us = Some m' /\ (m' <= w + m)%N.
Proof.
  intros H P F. destruct oks as ((C & U & S & V & I) & (K & A & D & L & J) & _).
  destruct H as [i o i' o' w n h h' Hc Hn Hh|i o n h h' Hr Hh|i o Hr|i o Hr|i o Hr|i o Hr|i o n h h' Hr Hh|v c Hv| |].
  - rewrite <- !app_assoc. destruct Hc as [i o R|i o i2 o2 R R2].
    + destruct (rows_ok_in _ _ _ C _ _ R) as (N & E & _). destruct (nucleus_cut true _ _ _ _ _ _ _ _ _ Hn Hh P F) as (us & k & Cu & T & Le).
      exists ((i, Consonant o) :: us), k. split; [apply cut_more; assumption|split; [exact T|exact Le]].
    + rewrite <- !app_assoc. destruct (rows_ok_in _ _ _ C _ _ R) as (N & E & _). destruct (rows_ok_in _ _ _ U _ _ R2) as (N2 & E2 & _).
      destruct (nucleus_cut false _ _ _ _ _ _ _ _ _ Hn Hh P F) as (us & k & Cu & T & Le).
      exists ((i, Consonant o) :: (i2, Subjoined o2) :: us), k. split; [apply cut_more; [exact N|exact E|apply cut_more; assumption]|split; [exact T|exact Le]].
  - rewrite <- app_assoc. destruct (rows_ok_in _ _ _ I _ _ Hr) as (N & E & _). destruct (hiatus_any sDotted n h h' ts x m Hh P F) as (us & k & Cu & T & Le); auto.
    exists ((i, Vowel o) :: us), (1 + k)%N. split; [apply cut_more; assumption|]. cbn [toll snd]. rewrite T. split; [reflexivity|lia].
  - destruct (other_cut _ _ _ _ _ _ _ K Hr P F) as (G & E & T). eexists _, _. split; [exact E|]. split; [exact T|]. destruct (free i); lia.
  - destruct (other_cut _ _ _ _ _ _ _ D Hr P F) as (G & E & T). eexists _, _. split; [exact E|]. split; [exact T|]. rewrite G. lia.
  - destruct (other_cut _ _ _ _ _ _ _ L Hr P F) as (G & E & T). eexists _, _. split; [exact E|]. split; [exact T|]. rewrite G. lia.
  - destruct (other_cut _ _ _ _ _ _ _ A Hr P F) as (G & E & T). eexists _, _. split; [exact E|]. split; [exact T|]. destruct (free i); lia.
  - rewrite <- app_assoc. destruct (rows_ok_in _ _ _ S _ _ Hr) as (N & E & _). destruct (hiatus_any sDotted n h h' ts x m Hh P F) as (us & k & Cu & T & Le); auto.
    exists ((i, Sign o) :: us), (1 + k)%N. split; [apply cut_more; assumption|]. cbn [toll snd]. rewrite T. split; [reflexivity|lia].
  - assert (R' : exists o, row (sd_virama d) v o) by (destruct c as [o|]; [exists o; left|exists v; right]; tauto). destruct R' as (o & R').
    destruct (rows_ok_in _ _ _ V _ _ R') as (N & E & _). exists ((v, Virama) :: ts), (2 + m)%N. split; [apply cut_more; assumption|]. cbn [toll snd]. rewrite F. split; [reflexivity|lia].
  - destruct (other_cut _ [8204%N] [124%N] _ _ _ _ J (or_introl (or_introl eq_refl)) P F) as (G & E & T). eexists _, _. split; [exact E|]. split; [exact T|]. rewrite G. lia.
  - destruct (other_cut _ [8205%N] [43%N] _ _ _ _ J (or_introl (or_intror (or_introl eq_refl))) P F) as (G & E & T). eexists _, _. split; [exact E|]. split; [exact T|]. rewrite G. lia.
Qed.
Lemma pieces_cut i o w : in_pieces d i o w -> exists ts m, cut ts i /\ toll sFresh ts = Some m /\ (m <= w)%N.
Proof.
  induction 1 as [|i o w i' o' w' H _ (ts & m & C & T & L)]; [exists [], 0%N; split; [exact cut_none|split; [reflexivity|lia]]|].
  destruct (piece_cut _ _ _ _ _ _ H C T) as (us & m' & C' & T' & L'). exists us, m'. split; [exact C'|]. split; [exact T'|lia].
Qed.

(** What the reader finds is a romanization at that cost *)
Definition found (s : spot) (x y : str) (m : N) : Prop :=
  match s with
  | sFresh => in_pieces d x y m
  | sDotted => exists n h h' x' y', x = h ++ x' /\ y = h' ++ y' /\ hiatus d n h h' /\ in_pieces d x' y' m
  | sKilled => exists n h h' x' y' k, x = h ++ x' /\ y = h' ++ y' /\ hiatus d n h h' /\ in_pieces d x' y' k /\ m = ((match n with O => 1 | _ => 0 end) + k)%N
  | sWaiting b => exists u u' i o w n h h' x' y' k, x = u ++ i ++ h ++ x' /\ y = u' ++ o ++ h' ++ y' /\ (u = [] /\ u' = [] \/ b = true /\ row (sd_subjoined_consonant d) u u') /\
      nucleus d i o w /\ hiatus d n h h' /\ in_pieces d x' y' k /\ m = ((match n with O => w | _ => 0 end) + k)%N
  end.

Lemma step_consonant c o r y m : row (sd_consonant d) c o -> found (sWaiting true) r y m -> in_pieces d (c ++ r) (o ++ y) m.
Proof.
  intros R (u & u' & i & o' & w & n & h & h' & x' & y' & k & -> & -> & U & N & H & P & ->).
  destruct U as [[-> ->]|[_ U]].
  - pose proof (ip_more d _ _ _ _ _ _ (pc_syllable d _ _ _ _ _ _ _ _ (cp_one d _ _ R) N H) P) as Q. cbn [app] in *. rewrite <- !app_assoc in Q. exact Q.
  - pose proof (ip_more d _ _ _ _ _ _ (pc_syllable d _ _ _ _ _ _ _ _ (cp_two d _ _ _ _ R U) N H) P) as Q. cbn [app] in *. rewrite <- !app_assoc in Q. exact Q.
Qed.
Lemma step_vowel c o r y m : row (sd_vowel d) c o -> found sDotted r y m -> in_pieces d (c ++ r) (o ++ y) (1 + m).
Proof.
  intros R (n & h & h' & x' & y' & -> & -> & H & P). pose proof (ip_more d _ _ _ _ _ _ (pc_vowel d _ _ _ _ _ R H) P) as Q. cbn [app] in Q. rewrite <- !app_assoc in Q. exact Q.
Qed.
Lemma step_sign c o r y m : row (sd_vowel_sign d) c o -> found sDotted r y m -> in_pieces d (c ++ r) ((45%N :: o) ++ y) (1 + m).
Proof.
  intros R (n & h & h' & x' & y' & -> & -> & H & P). pose proof (ip_more d _ _ _ _ _ _ (pc_dangling_sign d _ _ _ _ _ R H) P) as Q. cbn [app] in Q |- *. rewrite <- !app_assoc in Q. exact Q.
Qed.
Lemma step_virama c o r y m : row (sd_virama d) c o -> in_pieces d r y m -> in_pieces d (c ++ r) ([728%N] ++ y) (2 + m).
Proof.
  intros R P. assert (X : exists t, In (c, t) (sd_virama d)) by (destruct R as [R|[R _]]; eauto). destruct X as (t & X). exact (ip_more d _ _ _ _ _ _ (pc_dangling_virama d _ _ X) P).
Qed.
Lemma step_other c o r y m : letter_of d c = Some (Other o) -> in_pieces d r y m -> in_pieces d (c ++ r) (o ++ y) ((if free c then 0 else 1) + m).
Proof.
  intros E P. destruct oks as (_ & (K & A & D & L & J) & _).
  assert (Q : piece d c o (if free c then 0 else 1)).
  { apply letter_row in E as [R|[R|[R|[R|R]]]].
    - destruct (rows_ok_in _ _ _ K _ _ R) as (_ & _ & F). apply negb_true_iff in F. rewrite F. apply pc_coda, R.
    - destruct (rows_ok_in _ _ _ A _ _ R) as (_ & _ & F). apply negb_true_iff in F. rewrite F. apply pc_standalone, R.
    - destruct (rows_ok_in _ _ _ D _ _ R) as (_ & _ & ->). apply pc_dead, R.
    - destruct (rows_ok_in _ _ _ L _ _ R) as (_ & _ & ->). apply pc_length, R.
    - destruct (rows_ok_in _ _ _ J _ _ R) as (_ & _ & ->). destruct R as [[R|[R|[]]]|[[R|[R|[]]] _]]; try discriminate R; injection R as <- <-; [exact (pc_non_joiner d)|exact (pc_joiner d)]. }
  exact (ip_more d _ _ _ _ _ _ Q P).
Qed.
Lemma lift_dotted x y m : in_pieces d x y m -> found sDotted x y m.
Proof. intros P. exists 0, [], [], x, y. repeat split; [constructor|exact P]. Qed.
Lemma lift_killed x y m : in_pieces d x y m -> found sKilled x y (1 + m).
Proof. intros P. exists 0, [], [], x, y, m. repeat split; [constructor|exact P]. Qed.
Lemma lift_waiting b v x y m : inherent d = Some v -> in_pieces d x y m -> found (sWaiting b) x (v ++ y) (1 + m).
Proof.
  intros V P. unfold inherent in V. destruct (sd_inherent_vowel d) as [|[v' t] l] eqn:E; [discriminate V|]. injection V as ->.
  exists [], [], [], v, 1%N, 0, [], [], x, y, m. split; [reflexivity|]. split; [reflexivity|]. split; [left; split; reflexivity|].
  split; [apply (nu_inherent d v t); rewrite E; left; reflexivity|]. split; [apply hi_none|]. split; [exact P|reflexivity].
Qed.
Lemma dot_vowel c o r y m : row (sd_vowel d) c o -> found sDotted r y m -> exists n h h' x' y', c ++ r = h ++ x' /\ (46%N :: o) ++ y = h' ++ y' /\ hiatus d (S n) h h' /\ in_pieces d x' y' m.
Proof.
  intros R (n & h & h' & x' & y' & -> & -> & H & P). exists n, (c ++ h), ((46%N :: o) ++ h'), x', y'. rewrite <- !app_assoc. repeat split; [constructor; assumption|exact P].
Qed.
Lemma write_some o r y : write o r = Some y -> exists a b, o = Some a /\ r = Some b /\ y = a ++ b.
Proof. destruct o as [a|], r as [b|]; try discriminate. intros [= <-]. eauto. Qed.

Lemma found_ok x : Forall is_tok x -> forall s y, read (inherent d) (place_of s) (map snd x) = Some y -> exists m, toll s x = Some m /\ found s (concat (map fst x)) y m.
Proof.
  induction 1 as [|[c l] r [Nc E] _ IH]; intros s y H.
  - destruct s as [|b| |]; cbn [read place_of map] in H; cbn [toll snd fst].
    + injection H as <-. exists 0%N. split; [reflexivity|constructor].
    + unfold if_inherent. rewrite H. exists 1%N. split; [reflexivity|]. pose proof (lift_waiting b _ _ _ _ H (ip_end d)) as L. rewrite app_nil_r in L. exact L.
    + injection H as <-. exists 1%N. split; [reflexivity|]. apply (lift_killed _ _ _ (ip_end d)).
    + injection H as <-. exists 0%N. split; [reflexivity|]. apply (lift_dotted _ _ _ (ip_end d)).
  - cbn [read map snd] in H. cbn [toll snd fst]. cbn [fst snd map concat] in *.
    (* starting afresh *)
    assert (A : forall y, match l with
        | Consonant o => write (Some o) (read (inherent d) (Waiting true) (map snd r))
        | Vowel o => write (Some o) (read (inherent d) Dotted (map snd r))
        | Sign o => write (Some (45%N :: o)) (read (inherent d) Dotted (map snd r))
        | Virama => write (Some [728%N]) (read (inherent d) Fresh (map snd r))
        | Other o => write (Some o) (read (inherent d) Fresh (map snd r))
        | Subjoined _ => None
        end = Some y -> exists m, match l with
        | Consonant _ => toll (sWaiting true) r
        | Vowel _ => pay 1 (toll sDotted r)
        | Sign _ => pay 1 (toll sDotted r)
        | Virama => pay 2 (toll sFresh r)
        | Other _ => pay (if free c then 0 else 1) (toll sFresh r)
        | Subjoined _ => None
        end = Some m /\ in_pieces d (c ++ concat (map fst r)) y m).
    { intros z Z. pose proof (letter_row _ _ E) as R. destruct l as [o|o|o| |o|o]; try discriminate Z; apply write_some in Z as (a & b & [= <-] & Z & ->).
      - destruct (IH (sWaiting true) _ Z) as (m & T & F). exists m. split; [exact T|exact (step_consonant _ _ _ _ _ R F)].
      - destruct (IH sDotted _ Z) as (m & T & F). rewrite T. eexists. split; [reflexivity|exact (step_sign _ _ _ _ _ R F)].
      - destruct (IH sFresh _ Z) as (m & T & F). rewrite T. destruct R as (o & R). eexists. split; [reflexivity|exact (step_virama _ _ _ _ _ R F)].
      - destruct (IH sDotted _ Z) as (m & T & F). rewrite T. eexists. split; [reflexivity|exact (step_vowel _ _ _ _ _ R F)].
      - destruct (IH sFresh _ Z) as (m & T & F). rewrite T. eexists. split; [reflexivity|exact (step_other _ _ _ _ _ E F)]. }
    assert (B : forall y, write (Some []) match l with
        | Consonant o => write (Some o) (read (inherent d) (Waiting true) (map snd r))
        | Vowel o => write (Some o) (read (inherent d) Dotted (map snd r))
        | Sign o => write (Some (45%N :: o)) (read (inherent d) Dotted (map snd r))
        | Virama => write (Some [728%N]) (read (inherent d) Fresh (map snd r))
        | Other o => write (Some o) (read (inherent d) Fresh (map snd r))
        | Subjoined _ => None
        end = Some y -> exists m, match l with
        | Consonant _ => toll (sWaiting true) r
        | Vowel _ => pay 1 (toll sDotted r)
        | Sign _ => pay 1 (toll sDotted r)
        | Virama => pay 2 (toll sFresh r)
        | Other _ => pay (if free c then 0 else 1) (toll sFresh r)
        | Subjoined _ => None
        end = Some m /\ in_pieces d (c ++ concat (map fst r)) y m).
    { intros z Z. apply A. apply write_some in Z as (a & b & [= <-] & Z & ->). exact Z. }
    pose proof (letter_row _ _ E) as R.
    destruct s as [|b| |]; cbn [place_of] in H.
    + destruct (B y) as (m & T & P); [destruct l; exact H|]. exists m. split; [destruct l; exact T|exact P].
    + assert (W : (exists a b', inherent d = Some a /\ match l with
        | Consonant o => write (Some o) (read (inherent d) (Waiting true) (map snd r))
        | Vowel o => write (Some o) (read (inherent d) Dotted (map snd r))
        | Sign o => write (Some (45%N :: o)) (read (inherent d) Dotted (map snd r))
        | Virama => write (Some [728%N]) (read (inherent d) Fresh (map snd r))
        | Other o => write (Some o) (read (inherent d) Fresh (map snd r))
        | Subjoined _ => None
        end = Some b' /\ y = a ++ b') -> exists m, if_inherent d (pay 1 match l with
        | Consonant _ => toll (sWaiting true) r
        | Vowel _ => pay 1 (toll sDotted r)
        | Sign _ => pay 1 (toll sDotted r)
        | Virama => pay 2 (toll sFresh r)
        | Other _ => pay (if free c then 0 else 1) (toll sFresh r)
        | Subjoined _ => None
        end) = Some m /\ found (sWaiting b) (c ++ concat (map fst r)) y m).
      { intros (a & b' & V & Z & ->). destruct (A _ Z) as (m & T & P). rewrite T. unfold if_inherent. rewrite V. eexists. split; [reflexivity|]. apply lift_waiting; assumption. }
      destruct l as [o|o|o| |o|o].
      * destruct b; (apply W; apply write_some in H; exact H).
      * destruct b.
        -- apply write_some in H as (a & y' & [= <-] & H & ->). destruct (IH (sWaiting false) _ H) as (m & T & u & u' & i & o' & w & n & h & h' & x' & y2 & k & -> & -> & U & N & Hi & P & ->).
           destruct U as [[-> ->]|[U _]]; [|discriminate U]. eexists. split; [exact T|]. exists c, o, i, o', w, n, h, h', x', y2, k. repeat split; auto.
        -- apply write_some in H as (a & y' & _ & H & _). discriminate H.
      * assert (H' : write (Some o) (read (inherent d) Dotted (map snd r)) = Some y) by (destruct b; exact H). apply write_some in H' as (a & y' & [= <-] & H' & ->).
        destruct (IH sDotted _ H') as (m & T & n & h & h' & x' & y2 & -> & -> & Hi & P). exists m. split; [destruct b; exact T|]. exists [], [], c, o, 0%N, n, h, h', x', y2, m. repeat split; auto.
        { constructor. exact R. } { destruct n; reflexivity. }
      * assert (H' : read (inherent d) Dotted (map snd r) = Some y) by (destruct b; exact H). destruct (IH sKilled _ H') as (m & T & n & h & h' & x' & y2 & k & -> & -> & Hi & P & ->).
        eexists. split; [destruct b; exact T|]. destruct R as (o & R). assert (X : exists t, In (c, t) (sd_virama d)) by (destruct R as [R|[R _]]; eauto). destruct X as (t & X).
        exists [], [], c, [], 1%N, n, h, h', x', y2, k. repeat split; auto. exact (nu_virama d _ _ X).
      * assert (H' : write (inherent d) (write (Some (46%N :: o)) (read (inherent d) Dotted (map snd r))) = Some y) by (destruct b; exact H). apply write_some in H' as (v & y' & V & H' & ->).
        apply write_some in H' as (a & y3 & [= <-] & H' & ->). destruct (IH sDotted _ H') as (m & T & F). exists m. split; [unfold if_inherent; rewrite V; destruct b; exact T|].
        destruct (dot_vowel _ _ _ _ _ R F) as (n & h & h' & x' & y2 & -> & -> & Hi & P). unfold inherent in V. destruct (sd_inherent_vowel d) as [|[v' t] q] eqn:Ei; [discriminate V|]. injection V as ->.
        exists [], [], [], v, 1%N, (S n), h, h', x', y2, m. repeat split; auto. apply (nu_inherent d v t). rewrite Ei. left. reflexivity.
      * destruct b; (apply W; apply write_some in H; exact H).
    + destruct l as [o|o|o| |o|o]; try (destruct (B _ H) as (m & T & P); rewrite T; eexists; split; [reflexivity|apply lift_killed, P]).
      apply write_some in H as (a & y' & [= <-] & H & ->). destruct (IH sDotted _ H) as (m & T & F). exists m. split; [exact T|].
      destruct (dot_vowel _ _ _ _ _ R F) as (n & h & h' & x' & y2 & E1 & E2 & Hi & P). exists (S n), h, h', x', y2, m. repeat split; auto.
    + destruct l as [o|o|o| |o|o]; try (destruct (B _ H) as (m & T & P); rewrite T; eexists; split; [reflexivity|apply lift_dotted, P]).
      apply write_some in H as (a & y' & [= <-] & H & ->). destruct (IH sDotted _ H) as (m & T & F). exists m. split; [exact T|].
      destruct (dot_vowel _ _ _ _ _ R F) as (n & h & h' & x' & y2 & E1 & E2 & Hi & P). exists (S n), h, h', x', y2. repeat split; auto.
Qed.
(** what costs something can be romanized *)
Lemma if_inherent_some r m : if_inherent d r = Some m -> exists v, inherent d = Some v /\ r = Some m.
Proof. unfold if_inherent. destruct (inherent d) as [v|]; [eauto|discriminate]. Qed.
Lemma toll_read x : forall s m, toll s x = Some m -> exists y, read (inherent d) (place_of s) (map snd x) = Some y.
Proof.
  induction x as [|[c l] r IH]; intros s m H.
  - destruct s as [|b| |]; cbn [read place_of map]; cbn [toll snd fst] in H; try (eexists; reflexivity). apply if_inherent_some in H as (v & V & _). eauto.
  - cbn [toll snd fst] in H. cbn [read map snd]. cbn [fst snd map concat] in *.
    assert (A : forall m, match l with
        | Consonant _ => toll (sWaiting true) r
        | Vowel _ => pay 1 (toll sDotted r)
        | Sign _ => pay 1 (toll sDotted r)
        | Virama => pay 2 (toll sFresh r)
        | Other _ => pay (if free c then 0 else 1) (toll sFresh r)
        | Subjoined _ => None
        end = Some m -> exists y, match l with
        | Consonant o => write (Some o) (read (inherent d) (Waiting true) (map snd r))
        | Vowel o => write (Some o) (read (inherent d) Dotted (map snd r))
        | Sign o => write (Some (45%N :: o)) (read (inherent d) Dotted (map snd r))
        | Virama => write (Some [728%N]) (read (inherent d) Fresh (map snd r))
        | Other o => write (Some o) (read (inherent d) Fresh (map snd r))
        | Subjoined _ => None
        end = Some y).
    { intros k K. destruct l; try discriminate K; try apply pay_some in K as (k' & K & ->).
      - destruct (IH (sWaiting true) _ K) as (y & Y). cbn [place_of] in Y. rewrite Y. eexists. reflexivity.
      - destruct (IH sDotted _ K) as (y & Y). cbn [place_of] in Y. rewrite Y. eexists. reflexivity.
      - destruct (IH sFresh _ K) as (y & Y). cbn [place_of] in Y. rewrite Y. eexists. reflexivity.
      - destruct (IH sDotted _ K) as (y & Y). cbn [place_of] in Y. rewrite Y. eexists. reflexivity.
      - destruct (IH sFresh _ K) as (y & Y). cbn [place_of] in Y. rewrite Y. eexists. reflexivity. }
    destruct s as [|b| |]; cbn [place_of].
    + destruct (A m) as (y & Y); [destruct l; exact H|]. destruct l; try discriminate Y; rewrite Y; eexists; reflexivity.
    + destruct l as [o|o|o| |o|o].
      * assert (H' : if_inherent d (pay 1 (toll (sWaiting true) r)) = Some m) by (destruct b; exact H). apply if_inherent_some in H' as (v & V & H'). apply pay_some in H' as (k & K & _).
        destruct (A k K) as (y & Y). destruct b; rewrite Y, V; eexists; reflexivity.
      * destruct b; [|apply if_inherent_some in H as (v & V & H); discriminate H]. destruct (IH (sWaiting false) _ H) as (y & Y). cbn [place_of] in Y. rewrite Y. eexists. reflexivity.
      * assert (H' : toll sDotted r = Some m) by (destruct b; exact H). destruct (IH sDotted _ H') as (y & Y). cbn [place_of] in Y. rewrite Y. destruct b; eexists; reflexivity.
      * assert (H' : toll sKilled r = Some m) by (destruct b; exact H). destruct (IH sKilled _ H') as (y & Y). cbn [place_of] in Y. rewrite Y. destruct b; eexists; reflexivity.
      * assert (H' : if_inherent d (toll sDotted r) = Some m) by (destruct b; exact H). apply if_inherent_some in H' as (v & V & H'). destruct (IH sDotted _ H') as (y & Y). cbn [place_of] in Y. rewrite Y, V. destruct b; eexists; reflexivity.
      * assert (H' : if_inherent d (pay 1 (pay (if free c then 0 else 1) (toll sFresh r))) = Some m) by (destruct b; exact H). apply if_inherent_some in H' as (v & V & H'). apply pay_some in H' as (k & K & _).
        destruct (A k K) as (y & Y). destruct b; rewrite Y, V; eexists; reflexivity.
    + destruct l as [o|o|o| |o|o]; try (apply pay_some in H as (k & K & _); destruct (A k K) as (y & Y); rewrite Y; eexists; reflexivity).
      destruct (IH sDotted _ H) as (y & Y). cbn [place_of] in Y. rewrite Y. eexists. reflexivity.
    + destruct l as [o|o|o| |o|o]; try (destruct (A m H) as (y & Y); try discriminate Y; rewrite Y; eexists; reflexivity).
      destruct (IH sDotted _ H) as (y & Y). cbn [place_of] in Y. rewrite Y. eexists. reflexivity.
Qed.
Lemma cut_found ts x y : cut ts x -> read (inherent d) Fresh (map snd ts) = Some y -> exists m, toll sFresh ts = Some m /\ in_pieces d x y m.
Proof. intros [F <-] H. destruct (found_ok ts F sFresh y H) as (m & T & P). exists m. split; [exact T|exact P]. Qed.
End Script.

Definition free_of (d : script_data) (c : str) : bool :=
  match romanized (sd_dead_consonant d ++ sd_vowel_length_sign d ++ joiners) c with Some _ => true | None => false end.
Lemma all_letters_ok : forallb (fun d => letters_ok d (free_of d)) all_scripts = true.
Proof. vm_cast_no_check (eq_refl true). Qed.
