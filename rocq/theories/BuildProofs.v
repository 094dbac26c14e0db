From Coq Require Import String.
From Verif Require Import Base GrammarModel GrammarSpec GrammarProofs FarModel FarSpec FarProofs BuildModel BuildSpec.
Local Open Scope list_scope.

(** Order *)
Lemma leb_rises a : forall b, str_leb a b = true <-> rises a b.
Proof.
  induction a as [|x a IH]; intros [|y b]; cbn [str_leb].
  - split; constructor.
  - split; constructor.
  - split; [discriminate|]. intro H. inversion H.
  - destruct (N.ltb_spec x y) as [L|L].
    + split; [now constructor|reflexivity].
    + destruct (N.eqb_spec x y) as [->|E].
      * rewrite IH. split; [now constructor|]. intro H. inversion H; subst; [lia|assumption].
      * split; [discriminate|]. intro H. inversion H; subst; [lia|now destruct E].
Qed.
Lemma leb_refl a : str_leb a a = true.
Proof. apply leb_rises. induction a; [apply rises_nil|now apply rises_same]. Qed.
Lemma leb_total a : forall b, str_leb a b = false -> str_leb b a = true.
Proof.
  induction a as [|x a IH]; intros [|y b]; cbn [str_leb]; try discriminate; auto.
  destruct (N.ltb_spec x y), (N.ltb_spec y x); try discriminate; auto; try lia.
  destruct (N.eqb_spec x y), (N.eqb_spec y x); try lia; auto.
Qed.
Lemma rises_trans a : forall b c, rises a b -> rises b c -> rises a c.
Proof.
  induction a as [|x a IH]; intros b c H G; [constructor|].
  inversion H; subst; inversion G; subst.
  - constructor. lia.
  - now constructor.
  - now constructor.
  - apply rises_same. eauto.
Qed.
Lemma leb_app a : forall b x y, str_leb (a ++ x) (b ++ y) = true -> (is_prefix a b -> a = b) -> (is_prefix b a -> a = b) -> str_leb a b = true.
Proof.
  induction a as [|c a IH]; intros [|d b] x y H P Q; cbn [str_leb]; auto.
  - assert (c :: a = []) by (apply Q; now exists (c :: a)). discriminate.
  - cbn [app str_leb] in H. destruct (N.ltb c d); [reflexivity|]. destruct (N.eqb_spec c d) as [->|E]; [|discriminate].
    apply IH with x y; auto.
    + intros [t ->]. assert (E : d :: a = d :: a ++ t) by (apply P; now exists t). now injection E.
    + intros [t ->]. assert (E : d :: b ++ t = d :: b) by (apply Q; now exists t). now injection E.
Qed.
Definition letter (c : N) : Prop := (65 <= c <= 90 \/ 97 <= c <= 122)%N.
Lemma small_letter c : letter c -> (if N.leb 65 c && N.leb c 90 then c + 32 else c)%N = if N.leb c 90 then (c + 32)%N else c.
Proof. intros [H|H]; destruct (N.leb_spec 65 c), (N.leb_spec c 90); cbn [andb]; lia. Qed.
Lemma letter_less c d : letter c -> letter d ->
  ((if N.leb 65 c && N.leb c 90 then c + 32 else c) < (if N.leb 65 d && N.leb d 90 then d + 32 else d))%N ->
  ((if N.leb 97 c && N.leb c 122 then c - 32 else c) < (if N.leb 97 d && N.leb d 122 then d - 32 else d))%N.
Proof.
  unfold letter. intros C D.
  destruct (N.leb_spec 65 c), (N.leb_spec c 90), (N.leb_spec 65 d), (N.leb_spec d 90); cbn [andb];
  destruct (N.leb_spec 97 c), (N.leb_spec c 122), (N.leb_spec 97 d), (N.leb_spec d 122); cbn [andb]; lia.
Qed.
Lemma small_rises a : forall b, (forall c, In c a -> letter c) -> (forall c, In c b -> letter c) -> rises (small a) (small b) -> rises (capital a) (capital b).
Proof.
  induction a as [|x a IH]; intros b A B H; [constructor|]. destruct b as [|y b]; cbn [small capital map] in *; [inversion H|].
  assert (LX : letter x) by (apply A; now left). assert (LY : letter y) by (apply B; now left).
  inversion H as [|u v s t L E1 E2|u s t L E1 E2]; subst.
  - apply rises_less. now apply letter_less.
  - assert (E : (if N.leb 97 x && N.leb x 122 then x - 32 else x)%N = (if N.leb 97 y && N.leb y 122 then y - 32 else y)%N) by now apply small_eq_capital.
    rewrite E. apply rises_same. apply IH; auto; intros; [apply A|apply B]; now right.
Qed.

(** Sorting *)
Lemma insert_perm key p l : Permutation (insert_by key p l) (p :: l).
Proof.
  induction l as [|q l IH]; cbn [insert_by]; [auto|]. destruct (str_leb (key p) (key q)); [auto|].
  eapply perm_trans; [apply perm_skip; exact IH|apply perm_swap].
Qed.
Lemma sorted_perm key l : Permutation (sorted_by key l) l.
Proof.
  induction l as [|p l IH]; cbn; [auto|]. eapply perm_trans; [apply insert_perm|]. now apply perm_skip.
Qed.
Inductive up (key : str * str -> str) : list (str * str) -> Prop :=
| up_nil : up key []
| up_cons p l : (forall q, In q l -> rises (key p) (key q)) -> up key l -> up key (p :: l).
Lemma insert_up key p l : up key l -> up key (insert_by key p l).
Proof.
  induction 1 as [|q l H U IH]; cbn [insert_by].
  - constructor; [now intros q []|constructor].
  - destruct (str_leb (key p) (key q)) eqn:E.
    + apply leb_rises in E. constructor; [|now constructor]. intros r [<-|R]; [exact E|]. eapply rises_trans; [exact E|auto].
    + apply leb_total, leb_rises in E. constructor; [|exact IH]. intros r R.
      apply (Permutation_in _ (insert_perm key p l)) in R as [<-|R]; auto.
Qed.
Lemma sorted_up key l : up key (sorted_by key l).
Proof. induction l; cbn; [constructor|now apply insert_up]. Qed.

(** Creating *)
Lemma create_spec dir names : forall last, (forall n, In n names -> n <> []) ->
  (forall n, In n names -> exists f, get_fst dir n = Some f) -> ascending (last :: names) ->
  exists a, farcreate dir last names = Some a /\ map fst a = names /\ forall n f, In (n, f) a -> get_fst dir n = Some f.
Proof.
  induction names as [|n names IH]; intros last NE G A; cbn [farcreate].
  - exists []. repeat split. intros n f [].
  - destruct n as [|c n]; [exfalso; apply (NE []); auto; now left|].
    assert (R : rises last (c :: n)) by (apply (A [] last [] (c :: n) names); reflexivity).
    apply leb_rises in R. rewrite R.
    destruct (G (c :: n) (or_introl eq_refl)) as [f F]. rewrite F.
    destruct (IH (c :: n)) as [a [H1 [H2 H3]]].
    + intros m M. apply NE. now right.
    + intros m M. apply G. now right.
    + intros x y z u v E. apply (A (last :: x) y z u v). now rewrite E.
    + rewrite H1. exists ((c :: n, f) :: a). repeat split; cbn; [now rewrite H2|]. intros m g [E|E]; [injection E as <- <-; exact F|auto].
Qed.
Lemma tag_created p : created_name p = capital (tag p).
Proof. destruct p as [s [|c l]]; reflexivity. Qed.
Lemma tag_export p : brahmic_export p = capital (tag p).
Proof. destruct p as [s [|c l]]; reflexivity. Qed.
Lemma tag_abjad p : snd p <> [] -> abjad_export p = capital (tag p).
Proof. destruct p as [s [|c l]]; cbn; [intro H; now destruct H|reflexivity]. Qed.
Lemma small_app a b : small (a ++ b) = small a ++ small b.
Proof. apply map_app. Qed.
Lemma sort_tag p : exists r, sort_key p = small (tag p) ++ r.
Proof.
  destruct p as [s [|c l]].
  - exists []. now rewrite app_nil_r.
  - exists (small s). change (sort_key (s, c :: l)) with (small ((c :: l) ++ s)). now rewrite small_app.
Qed.
Lemma dir_get l : NoDup (map fst l) -> forall n (f : wfst), In (n, f) l -> get_fst l n = Some f.
Proof.
  induction l as [|[m g] l IH]; intros D n f H; [destruct H|]. cbn. inversion D as [|x y D1 D2]; subst.
  destruct H as [E|H].
  - injection E as -> ->. now rewrite str_eqb_refl.
  - destruct (str_eqb m n) eqn:E; [|auto]. apply str_eqb_eq in E as ->. exfalso. apply D1. apply in_map_iff. now exists (n, f).
Qed.
Lemma concat_one {A} (l : list A) : concat (map (fun x => [x]) l) = l.
Proof. induction l; cbn; congruence. Qed.
Lemma prefix_free_keys l : prefix_free l -> NoDup l -> NoDup (map (fun p => capital (tag p)) l).
Proof.
  intros P D. induction D as [|p l H D IH]; cbn; constructor.
  - intro I. apply in_map_iff in I as [q [E Q]]. apply H. replace p with q; auto.
    assert (S : small (tag q) = small (tag p)).
    { assert (K : forall a b, capital a = capital b -> small a = small b).
      { intros a. induction a as [|x a IHa]; intros [|y b] K; try discriminate; [reflexivity|]. cbn [small capital map] in *. injection K as K1 K2.
        f_equal; [|now apply IHa]. revert K1.
        destruct (N.leb_spec 65 x), (N.leb_spec x 90), (N.leb_spec 65 y), (N.leb_spec y 90); cbn [andb];
        destruct (N.leb_spec 97 x), (N.leb_spec x 122), (N.leb_spec 97 y), (N.leb_spec y 122); cbn [andb]; lia. }
      now apply K. }
    apply P; [now right|now left|]. exists []. now rewrite app_nil_r.
  - apply IH. intros a b A B. apply P; now right.
Qed.
Lemma map_split {A B} (f : A -> B) l : forall a x b, map f l = a ++ x :: b -> exists l1 p l2, l = l1 ++ p :: l2 /\ map f l1 = a /\ f p = x /\ map f l2 = b.
Proof.
  induction l as [|c l IH]; intros a x b H; [destruct a; discriminate|]. destruct a as [|d a].
  - injection H as H1 H2. exists [], c, l. auto.
  - injection H as H1 H2. apply IH in H2 as [l1 [p [l2 [-> [E1 [E2 E3]]]]]]. exists (c :: l1), p, l2. subst. auto.
Qed.
Lemma up_ascending key l : up key l -> forall a p b q c, l = a ++ p :: b ++ q :: c -> rises (key p) (key q).
Proof.
  induction 1 as [|r l H U IH]; intros a p b q c E; [destruct a; discriminate|]. destruct a as [|d a].
  - injection E as -> ->. apply H. apply in_or_app. right. now left.
  - injection E as -> ->. eapply IH. reflexivity.
Qed.
Lemma keys_rise l : (forall p, In p l -> letters_only (tag p)) -> prefix_free l -> up sort_key l -> ascending (map created_name l).
Proof.
  intros L P U a x b y c E.
  apply map_split in E as [l1 [p [l2 [E1 [E2 [<- E4]]]]]]. symmetry in E4.
  symmetry in E4. apply map_split in E4 as [l3 [q [l4 [E5 [E6 [<- E8]]]]]]. subst l2.
  assert (IP : In p l) by (rewrite E1; apply in_or_app; right; now left).
  assert (IQ : In q l) by (rewrite E1; apply in_or_app; right; right; apply in_or_app; right; now left).
  pose proof (up_ascending _ _ U l1 p l3 q l4 E1) as R.
  destruct (sort_tag p) as [rp Sp], (sort_tag q) as [rq Sq]. rewrite Sp, Sq in R.
  rewrite !tag_created. apply small_rises; [apply (L p IP)|apply (L q IQ)|].
  apply leb_rises in R. apply leb_rises. eapply leb_app; [exact R| |].
  - intro Q. now rewrite (P p q IP IQ Q).
  - intro Q. now rewrite (P q p IQ IP Q).
Qed.
Lemma archive_built export_name fst_of l : NoDup l -> prefix_free l -> (forall p, In p l -> letters_only (tag p)) ->
  (forall p, In p l -> export_name p = capital (tag p)) ->
  exists a, aggregated export_name fst_of l = Some a /\ Permutation a (map (fun p => (capital (tag p), fst_of p)) l) /\ ascending (map fst a).
Proof.
  intros D P L X. unfold aggregated. pose proof (sorted_perm sort_key l) as SP. pose proof (sorted_up sort_key l) as SU.
  set (s := sorted_by sort_key l) in *.
  assert (IN : forall p, In p s -> In p l) by (intro p; apply Permutation_in; exact SP).
  assert (Ds : NoDup s) by (eapply Permutation_NoDup; [apply Permutation_sym; exact SP|exact D]).
  assert (Ps : prefix_free s) by (intros p q A B; apply P; auto).
  assert (E : farextract (map (fun p => [(export_name p, fst_of p)]) s) = map (fun p => (capital (tag p), fst_of p)) s).
  { unfold farextract. rewrite <- (concat_one (map (fun p => (capital (tag p), fst_of p)) s)), map_map. f_equal. apply map_ext_in.
    intros p H. now rewrite X by auto. }
  rewrite E.
  assert (Dk : NoDup (map fst (map (fun p => (capital (tag p), fst_of p)) s))).
  { rewrite map_map. cbn. now apply prefix_free_keys. }
  assert (C : map created_name s = map (fun p => capital (tag p)) s) by (apply map_ext; apply tag_created).
  assert (A : ascending (map created_name s)) by (apply keys_rise; auto).
  destruct (create_spec (map (fun p => (capital (tag p), fst_of p)) s) (map created_name s) []) as [a [H1 [H2 H3]]].
  - intros n N. apply in_map_iff in N as [p [<- Q]]. rewrite tag_created. destruct (L p (IN p Q)) as [NE _]. destruct (tag p); [now destruct NE|discriminate].
  - intros n N. apply in_map_iff in N as [p [<- Q]]. rewrite tag_created. exists (fst_of p). apply dir_get; auto.
    apply in_map_iff. now exists p.
  - intros x y b z c G. destruct x as [|w x]; [injection G as <- _; constructor|]. injection G as _ G. eapply A. exact G.
  - exists a. rewrite H1. split; [reflexivity|]. split.
    + apply perm_trans with (map (fun p => (capital (tag p), fst_of p)) s); [|apply Permutation_map; exact SP].
      assert (Q : a = map (fun p => (capital (tag p), fst_of p)) s); [|rewrite Q; apply Permutation_refl].
      rewrite C in H2. clear -H2 H3 Dk. 
      assert (G : forall n f, In (n, f) a -> In (n, f) (map (fun p => (capital (tag p), fst_of p)) s)) by (intros n f I; apply get_in; auto).
      clear H3. revert a H2 G Dk. induction s as [|p s IH]; intros [|[n f] a] H2 G Dk; cbn in *; try discriminate; [reflexivity|].
      injection H2 as -> H2. inversion Dk as [|x y D1 D2]; subst. f_equal.
      * destruct (G _ _ (or_introl eq_refl)) as [Z|Z]; [now injection Z as <-|]. exfalso. apply D1. apply in_map_iff. now exists (capital (tag p), f).
      * apply IH; auto. intros m g I. destruct (G m g (or_intror I)) as [Z|Z]; [|exact Z].
        injection Z as <- <-. exfalso. apply D1. rewrite map_map. cbn. rewrite <- H2. apply in_map_iff. now exists (capital (tag p), fst_of p).
    + rewrite H2. exact A.
Qed.

(** Decisions for the shipped lists *)
Definition letters_onlyb (s : str) : bool := negb (str_eqb s []) && forallb (fun c => (N.leb 65 c && N.leb c 90) || (N.leb 97 c && N.leb c 122)) s.
Definition pair_eqb (p q : str * str) : bool := str_eqb (fst p) (fst q) && str_eqb (snd p) (snd q).
Definition fineb (l : list (str * str)) : bool :=
  forallb (fun p => letters_onlyb (tag p)) l &&
  forallb (fun p => forallb (fun q => if prefixb (small (tag p)) (small (tag q)) then pair_eqb p q else true) l) l.
Lemma fine_spec l : fineb l = true -> prefix_free l /\ forall p, In p l -> letters_only (tag p).
Proof.
  intro H. apply andb_true_iff in H as [H1 H2]. rewrite forallb_forall in H1, H2. split.
  - intros p q P Q I. specialize (H2 p P). rewrite forallb_forall in H2. specialize (H2 q Q). apply prefixb_spec in I. rewrite I in H2.
    apply andb_true_iff in H2 as [E1 E2]. apply str_eqb_eq in E1. apply str_eqb_eq in E2. destruct p, q; cbn in *; congruence.
  - intros p P. specialize (H1 p P). apply andb_true_iff in H1 as [N F]. split.
    + apply negb_true_iff, str_eqb_neq in N. exact N.
    + rewrite forallb_forall in F. intros c C. specialize (F c C). apply orb_true_iff in F as [F|F]; apply andb_true_iff in F as [F1 F2];
      apply N.leb_le in F1; apply N.leb_le in F2; auto.
Qed.
Fixpoint nodupb (l : list (str * str)) : bool :=
  match l with [] => true | p :: l' => if existsb (pair_eqb p) l' then false else nodupb l' end.
Lemma nodup_spec l : nodupb l = true -> NoDup l.
Proof.
  induction l as [|p l IH]; cbn; [constructor|]. destruct (existsb (pair_eqb p) l) eqn:E; [discriminate|]. intro H. constructor; auto.
  intro I. assert (existsb (pair_eqb p) l = true); [|congruence]. apply existsb_exists. exists p. split; auto.
  unfold pair_eqb. now rewrite !str_eqb_refl.
Qed.
Lemma shipped_built : forall (fst_of : str * str -> wfst),
  (forall l, In l [visual_script_langs; READING_NORM_LANGS] -> exists a, aggregated brahmic_export fst_of l = Some a /\
    Permutation a (map (fun p => (capital (tag p), fst_of p)) l) /\ ascending (map fst a)) /\
  exists a, aggregated abjad_export fst_of NORM_SCRIPT_LANGS = Some a /\
    Permutation a (map (fun p => (capital (tag p), fst_of p)) NORM_SCRIPT_LANGS) /\ ascending (map fst a).
Proof.
  intro fst_of. split.
  - intros l H. assert (F : fineb l = true /\ nodupb l = true) by (destruct H as [<-|[<-|[]]]; split; vm_compute; reflexivity).
    destruct F as [F D]. apply fine_spec in F as [P L]. apply nodup_spec in D. apply archive_built; auto using tag_export.
  - assert (F : fineb NORM_SCRIPT_LANGS = true) by (vm_compute; reflexivity).
    assert (D : nodupb NORM_SCRIPT_LANGS = true) by (vm_compute; reflexivity).
    apply fine_spec in F as [P L]. apply nodup_spec in D. apply archive_built; auto.
    intros p I. apply tag_abjad. unfold NORM_SCRIPT_LANGS in I. apply in_map_iff in I as [s [<- S]]. cbn [snd].
    repeat (destruct S as [<-|S]; [discriminate|]). destruct S.
Qed.
Lemma prefix_fails : exists l fst_of, NoDup l /\ (forall p, In p l -> letters_only (tag p)) /\ NoDup (map (fun p => capital (tag p)) l) /\
  aggregated brahmic_export fst_of l = None.
Proof.
  exists [(lit "Deva"%string, lit "ksh"%string); (lit "Zyyy"%string, lit "ks"%string)], (fun _ s => [(s, 0%N)]). repeat split.
  - now apply nodup_spec.
  - destruct H as [<-|[<-|[]]]; discriminate.
  - destruct H as [<-|[<-|[]]]; cbn; intros c C; repeat (destruct C as [<-|C]; [lia|]); destruct C.
  - repeat constructor; cbn; intuition discriminate.
Qed.
Lemma second_script_lost : exists l fst_of a p, NoDup l /\ (forall p, In p l -> letters_only (tag p)) /\
  aggregated brahmic_export fst_of l = Some a /\ In p l /\ forall n f, In (n, f) a -> f [] <> fst_of p [].
Proof.
  exists [(lit "Arab"%string, lit "sd"%string); (lit "Deva"%string, lit "sd"%string)], (fun p _ => [(fst p, 0%N)]).
  eexists _, (lit "Deva"%string, lit "sd"%string). split; [now apply nodup_spec|]. split.
  - intros p [<-|[<-|[]]]; (split; [discriminate|]); cbn; intros c C; repeat (destruct C as [<-|C]; [lia|]); destruct C.
  - split; [reflexivity|]. split; [right; now left|]. intros n f [E|[E|[]]]; injection E as <- <-; discriminate.
Qed.

(** Names *)
Lemma prefixb_app p s t : prefixb p (s ++ t) = true -> prefixb p s = true \/ exists a b, p = s ++ a /\ a <> [] /\ t = a ++ b.
Proof.
  revert s. induction p as [|x p IH]; intros [|y s] H; cbn in *; auto.
  - right. exists (x :: p). apply (prefixb_spec (x :: p) t) in H as [b ->]. exists b. repeat split. discriminate.
  - apply andb_true_iff in H as [E H]. apply N.eqb_eq in E as ->. rewrite N.eqb_refl. apply IH in H as [H|[a [b [-> [H1 H2]]]]].
    + left. now rewrite H.
    + right. exists a, b. auto.
Qed.
Lemma no_straddle s t : s <> [] -> ~ is_prefix (lit "_byte"%string) s -> prefixb (lit "_byte"%string) (s ++ 95%N :: t) = false.
Proof.
  intros NE N. destruct (prefixb (lit "_byte"%string) (s ++ 95%N :: t)) eqn:E; [|reflexivity]. exfalso.
  apply prefixb_app in E as [E|[a [b [E1 [E2 E3]]]]].
  - apply prefixb_spec in E. contradiction.
  - destruct a as [|c a]; [now destruct E2|]. cbn in E3. injection E3 as <- _.
    destruct s as [|c1 s]; [now destruct NE|].
    assert (I : In 95%N (tl (lit "_byte"%string))) by (rewrite E1; cbn; apply in_or_app; right; now left).
    cbn in I. repeat (destruct I as [I|I]; [discriminate|]). exact I.
Qed.
Lemma remove_name name t : ~ is_infix (lit "_byte"%string) name -> remove_all (lit "_byte"%string) (name ++ 95%N :: t) 0 = name ++ remove_all (lit "_byte"%string) (95%N :: t) 0.
Proof.
  induction name as [|c name IH]; intro N; [reflexivity|].
  cbn [app remove_all]. change (c :: name ++ 95%N :: t) with ((c :: name) ++ 95%N :: t). rewrite no_straddle.
  - f_equal. apply IH. intros [a [b E]]. apply N. exists (c :: a), b. now rewrite E.
  - discriminate.
  - intros [b E]. apply N. now exists [], b.
Qed.
Lemma token_names name : ~ is_infix (lit "_byte"%string) name ->
  name_token_type name (lit "byte"%string) = name /\ name_token_type name (lit "utf8"%string) = name ++ lit "_utf8"%string.
Proof.
  intro NB. unfold name_token_type. change (lit "_"%string ++ lit "byte"%string) with (95%N :: lit "byte"%string). change (lit "_"%string ++ lit "utf8"%string) with (95%N :: lit "utf8"%string).
  rewrite !remove_name by exact NB. split; [|reflexivity]. change (remove_all (lit "_byte"%string) (95%N :: lit "byte"%string) 0) with (@nil N). apply app_nil_r.
Qed.
Lemma out_read name t s : ~ is_infix (letters_of "_byte"%string) name -> suffix_of t s -> far_out name t = py_file name s.
Proof.
  intros N T. destruct (token_names name N) as [H1 H2]. unfold far_out, py_file. destruct T as [[-> ->]|[-> ->]].
  - change (letters_of "byte"%string) with (lit "byte"%string). now rewrite H1.
  - change (letters_of "utf8"%string) with (lit "utf8"%string). rewrite H2, <- app_assoc. reflexivity.
Qed.
Lemma out_read_fails : exists name t s, suffix_of t s /\ far_out name t <> py_file name s.
Proof. exists (lit "a_byte"%string), (lit "byte"%string), []. split; [now left|]. discriminate. Qed.

(** sed *)
Lemma matches_place w s : matches w s = true <-> place w s.
Proof.
  unfold matches, place. destruct s as [|c s1].
  - split; [discriminate|]. intros [c [x [y [b H]]]]. discriminate.
  - destruct (prefixb w s1) eqn:P.
    + apply prefixb_spec in P as [t ->]. rewrite skipn_app, skipn_all, Nat.sub_diag. cbn [app skipn].
      destruct t as [|x [|a [|b [|y t]]]]; try (split; [discriminate|]; intros [c' [x' [y' [b' H]]]]; injection H as _ H; apply app_inv_head in H; discriminate).
      split.
      * intro H. apply andb_true_iff in H as [H1 H2]. apply N.eqb_eq in H1 as ->. apply N.eqb_eq in H2 as ->. now exists c, x, y, t.
      * intros [c' [x' [y' [b' H]]]]. injection H as _ H. apply app_inv_head in H. now injection H as _ -> -> _ _.
    + split; [discriminate|]. intros [c' [x [y [b H]]]]. injection H as _ ->. 
      assert (prefixb w (w ++ x :: 44%N :: 32%N :: y :: b) = true) by (apply prefixb_spec; now eexists). congruence.
Qed.
Lemma sed_none w v s : (forall a b, s = a ++ b -> ~ place w b) -> sed w v s 0 = s.
Proof.
  induction s as [|c s IH]; intro N; [reflexivity|]. cbn [sed].
  destruct (matches w (c :: s)) eqn:M; [apply matches_place in M; now apply (N [] (c :: s)) in M|].
  f_equal. apply IH. intros a b E. apply (N (c :: a)). now rewrite E.
Qed.
Lemma sed_skip w v s : forall t, s <> [] -> sed w v (s ++ t) (List.length s) = s ++ v ++ sed w v t 0.
Proof.
  induction s as [|c s IH]; intros t N; [now destruct N|]. destruct s as [|d s].
  - reflexivity.
  - cbn [List.length app sed]. f_equal. change (d :: s ++ t) with ((d :: s) ++ t). change (S (List.length s)) with (List.length (d :: s)).
    apply IH. discriminate.
Qed.
Lemma sed_first w v c x y b : sed w v (c :: w ++ x :: 44%N :: 32%N :: y :: b) 0 = c :: w ++ x :: 44%N :: 32%N :: y :: v ++ sed w v b 0.
Proof.
  cbn [sed]. assert (M : matches w (c :: w ++ x :: 44%N :: 32%N :: y :: b) = true) by (apply matches_place; now exists c, x, y, b).
  rewrite M. f_equal. replace (List.length w + 4) with (List.length (w ++ [x; 44%N; 32%N; y])) by (rewrite app_length; reflexivity).
  replace (w ++ x :: 44%N :: 32%N :: y :: b) with ((w ++ [x; 44%N; 32%N; y]) ++ b) by (rewrite <- app_assoc; reflexivity).
  rewrite sed_skip by (destruct w; discriminate). rewrite <- app_assoc. reflexivity.
Qed.
Lemma sed_place w v a : forall c x y b, (forall a1 a2, a = a1 ++ a2 -> a2 <> [] -> ~ place w (a2 ++ c :: w ++ x :: 44%N :: 32%N :: y :: b)) ->
  sed w v (a ++ c :: w ++ x :: 44%N :: 32%N :: y :: b) 0 = a ++ c :: w ++ x :: 44%N :: 32%N :: y :: v ++ sed w v b 0.
Proof.
  induction a as [|d a IH]; intros c x y b N; [apply sed_first|]. 
  remember (c :: w ++ x :: 44%N :: 32%N :: y :: b) as r eqn:R. cbn [app sed].
  destruct (matches w (d :: a ++ r)) eqn:M.
  - exfalso. apply matches_place in M. apply (N [] (d :: a)); [reflexivity|discriminate|exact M].
  - f_equal. rewrite R. apply IH. intros a1 a2 E NE. rewrite <- R. apply (N (d :: a1)); [now rewrite E|exact NE].
Qed.
Fixpoint strs_eqb (l m : list str) : bool :=
  match l, m with
  | [], [] => true
  | a :: l', b :: m' => if str_eqb a b then strs_eqb l' m' else false
  | _, _ => false
  end.
Lemma strs_eqb_eq l : forall m, strs_eqb l m = true -> l = m.
Proof.
  induction l as [|a l IH]; intros [|b m] H; try discriminate; [reflexivity|]. cbn [strs_eqb] in H.
  destruct (str_eqb a b) eqn:E; [|discriminate]. apply str_eqb_eq in E as ->. now rewrite (IH m H).
Qed.
Definition expected_flags (p : str * str) (t : str) : list str :=
    [flag_line "_SCRIPT = flags.DEFINE_string('script', '" "', 'ISO 15924 script tag.')" (fst p);
     flag_line "_LANG = flags.DEFINE_string('lang', '" "', 'ISO 639-2/3 language tag.')" (snd p);
     flag_line "_TOKEN_TYPE = flags.DEFINE_enum('token_type', '" "', ['byte', 'utf8']," t].
Definition made_flags (p : str * str) (t : str) : list str := map (make_py p t) flag_lines.
Lemma flags_checked : forallb (fun p => forallb (fun t => strs_eqb (made_flags p t) (expected_flags p t)) [letters_of "byte"%string; letters_of "utf8"%string])
  (visual_script_langs ++ READING_NORM_LANGS ++ NORM_SCRIPT_LANGS) = true.
Proof. vm_compute. reflexivity. Qed.
Lemma forall_two {A B} (f g : A -> B -> list str) l m : forallb (fun p => forallb (fun t => strs_eqb (f p t) (g p t)) m) l = true ->
  forall p t, In p l -> In t m -> f p t = g p t.
Proof. intros H p t P T. rewrite forallb_forall in H. specialize (H p P). rewrite forallb_forall in H. apply strs_eqb_eq. auto. Qed.
Lemma flags_made p t : In p (visual_script_langs ++ READING_NORM_LANGS ++ NORM_SCRIPT_LANGS) -> In t [letters_of "byte"%string; letters_of "utf8"%string] ->
  made_flags p t = expected_flags p t.
Proof. exact (forall_two made_flags expected_flags _ _ flags_checked p t). Qed.

