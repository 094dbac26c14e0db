From Verif Require Import Base ExpressionModel ExpressionSpec ExpressionProofs ExpressionBuild ExpressionOr ExpressionLaws.

Definition real (s : list sy) : Prop := s <> [] /\ ~ In Fresh s.
Lemma trim_full n tail l s : length l = n -> (trim n tail l s true = true <-> real s /\ l = s).
Proof.
  intros L. destruct n as [|n]; destruct l as [|x l]; try discriminate L; cbn [trim].
  - split; [discriminate|]. intros [[H _] <-]. congruence.
  - destruct (syl_eqb (x :: l) s) eqn:E.
    + apply syl_eqb_spec in E as [<- F]. split; [intros _; split; [split; [discriminate|exact F]|reflexivity]|reflexivity].
    + split; [discriminate|]. intros [[_ F] <-]. assert (T : syl_eqb (x :: l) (x :: l) = true) by (apply syl_eqb_spec; split; [reflexivity|exact F]). congruence.
Qed.
Lemma trim_tail s : forall l, trim (length l) true l s false = true <-> real s /\ exists a, l = a ++ s.
Proof.
  induction l as [|x l IH]; cbn [length trim].
  - split; [discriminate|]. intros [[H _] (a & E)]. symmetry in E. apply app_eq_nil in E as [_ E]. congruence.
  - destruct (syl_eqb (x :: l) s) eqn:E.
    + apply syl_eqb_spec in E as [<- F]. split; [intros _; split; [split; [discriminate|exact F]|exists []; reflexivity]|reflexivity].
    + rewrite IH. split.
      * intros [R (a & ->)]. split; [exact R|]. exists (x :: a). reflexivity.
      * intros [R (a & H)]. split; [exact R|]. destruct a as [|y a].
        -- cbn in H. assert (T : syl_eqb (x :: l) s = true) by (apply syl_eqb_spec; split; [exact H|rewrite H; exact (proj2 R)]). congruence.
        -- injection H as -> ->. exists a. reflexivity.
Qed.
Lemma trim_head s : forall l, trim (length l) false l s false = true <-> real s /\ exists b, l = s ++ b.
Proof.
  induction l as [|x l IH] using rev_ind.
  - cbn. split; [discriminate|]. intros [[H _] (b & E)]. symmetry in E. apply app_eq_nil in E as [E _]. congruence.
  - rewrite app_length. cbn [length]. rewrite Nat.add_1_r. cbn [trim]. destruct (l ++ [x]) as [|z q] eqn:Z; [destruct l; discriminate Z|].
    rewrite <- Z. destruct (syl_eqb (l ++ [x]) s) eqn:E.
    + apply syl_eqb_spec in E as [<- F]. split; [intros _; split; [split; [destruct l; discriminate|exact F]|exists []; symmetry; apply app_nil_r]|reflexivity].
    + rewrite removelast_last, IH. split.
      * intros [R (b & ->)]. split; [exact R|]. exists (b ++ [x]). symmetry. apply app_assoc.
      * intros [R (b & H)]. split; [exact R|]. destruct b as [|y b] using rev_ind.
        -- rewrite app_nil_r in H. assert (T : syl_eqb (l ++ [x]) s = true) by (apply syl_eqb_spec; split; [exact H|rewrite H; exact (proj2 R)]). congruence.
        -- rewrite app_assoc in H. apply app_inj_tail in H as [-> _]. exists b. reflexivity.
Qed.
Lemma search_spec head tail s : forall l, search l s head tail = true <-> real s /\ occurs head tail s l.
Proof.
  induction l as [|x l IH].
  - cbn. split; [discriminate|]. intros [[H _] O]. exfalso. destruct head, tail; cbn in O.
    + congruence.
    + destruct O as (b & E). symmetry in E. apply app_eq_nil in E as [E _]. congruence.
    + destruct O as (b & E). symmetry in E. apply app_eq_nil in E as [_ E]. congruence.
    + destruct O as (a & b & E). symmetry in E. apply app_eq_nil in E as [_ E]. apply app_eq_nil in E as [E _]. congruence.
  - cbn [search]. destruct head, tail; cbn [andb orb occurs].
    + rewrite <- (trim_full (length (x :: l)) true (x :: l) s eq_refl). destruct (trim _ _ _ _ _); reflexivity.
    + rewrite <- (trim_head s (x :: l)). destruct (trim _ _ _ _ _); reflexivity.
    + rewrite <- (trim_tail s (x :: l)). destruct (trim _ _ _ _ _); reflexivity.
    + destruct (trim (length (x :: l)) false (x :: l) s false) eqn:E.
      * apply trim_head in E as [R (b & E)]. split; [|reflexivity]. intros _. split; [exact R|]. exists [], b. exact E.
      * rewrite IH. cbn [occurs]. split.
        -- intros [R (a & b & ->)]. split; [exact R|]. exists (x :: a), b. reflexivity.
        -- intros [R (a & b & H)]. split; [exact R|]. destruct a as [|y a].
           ++ assert (T : trim (length (x :: l)) false (x :: l) s false = true) by (apply trim_head; split; [exact R|exists b; exact H]). congruence.
           ++ injection H as -> ->. exists a, b. reflexivity.
Qed.

Lemma contains_list_spec x s head tail : is_any x = false -> s <> [Eps] -> s <> [Nor] ->
  (contains_symbol_list x s head tail = true <-> s <> [] /\ ~ In Fresh s /\ exists l, In l (symbols x) /\ occurs head tail s l).
Proof.
  intros A E N. unfold contains_symbol_list.
  destruct (syl_eqb s [Eps]) eqn:E'; [apply syl_eps in E'; congruence|]. destruct (syl_eqb s [Nor]) eqn:N'; [apply syl_nor in N'; congruence|].
  rewrite A, existsb_exists. split.
  - intros (l & Hl & H). apply search_spec in H as [[R1 R2] O]. split; [exact R1|]. split; [exact R2|]. exists l. split; assumption.
  - intros (R1 & R2 & l & Hl & O). exists l. split; [exact Hl|]. apply search_spec. split; [split; assumption|exact O].
Qed.
Lemma contains_list_eps x head tail : contains_symbol_list x [Eps] head tail = true.
Proof. reflexivity. Qed.
Lemma contains_list_nor x head tail : contains_symbol_list x [Nor] head tail = false.
Proof. reflexivity. Qed.

(** Containment of expressions *)
Lemma contains_item x y h t : is_alg x = false -> contains x y h t = item_contains x y h t.
Proof. destruct x; cbn; intros H; try reflexivity; discriminate H. Qed.
Lemma contains_any x y h t : is_alg x = false -> is_any x = true \/ is_any y = true -> contains x y h t = negb (is_nor x) && negb (is_nor y).
Proof. intros A H. rewrite contains_item by exact A. unfold item_contains. destruct H as [H|H]; rewrite H; [reflexivity|rewrite orb_true_r; reflexivity]. Qed.
Lemma contains_spec x y h t : is_alg x = false -> is_any x = false -> is_any y = false ->
  (contains x y h t = true <->
   exists u, In u (symbols y) /\ (u = [Eps] \/ (u <> [Nor] /\ ~ In Fresh u /\ exists l, In l (symbols x) /\ occurs h t u l))).
Proof.
  intros A Hx Hy. rewrite contains_item by exact A. unfold item_contains. rewrite Hx, Hy. cbn [orb]. rewrite existsb_exists. split.
  - intros (u & Hu & H). exists u. split; [exact Hu|]. destruct (syl_eqb u [Eps]) eqn:E; [left; apply syl_eps; exact E|right].
    assert (E' : u <> [Eps]) by (intros ->; discriminate E).
    assert (N : u <> [Nor]) by (intros ->; discriminate H).
    apply (contains_list_spec x u h t Hx E' N) in H as (_ & F & O). split; [exact N|]. split; [exact F|exact O].
  - intros (u & Hu & [->|(N & F & O)]); [exists [Eps]; split; [exact Hu|reflexivity]|].
    exists u. split; [exact Hu|]. destruct (syl_eqb u [Eps]) eqn:E; [apply syl_eps in E as ->; reflexivity|].
    assert (E' : u <> [Eps]) by (intros ->; discriminate E). apply (contains_list_spec x u h t Hx E' N).
    split; [|split; [exact F|exact O]]. destruct (symbols_shape y u Hu) as [->|[H _]]; [discriminate|exact H].
Qed.
(** The same on words *)
Lemma word_eq l : word_of l = l \/ l = [Eps].
Proof. destruct l as [|[] [|? ?]]; cbn; try (left; reflexivity). right; reflexivity. Qed.
Lemma eps_not_word x w : lang x w -> ~ In Eps w.
Proof.
  intros L. apply lang_symbols in L as (l & Hl & _ & <-). destruct (symbols_shape x l Hl) as [->|[_ H]]; [intros []|].
  destruct (word_eq l) as [->| ->]; [exact H|intros []].
Qed.
Lemma contains_words x y h t : is_alg x = false -> is_any x = false -> is_any y = false -> no_fresh x ->
  (contains x y h t = true <->
   exists u, lang y u /\ (u = [] \/ (u <> [Nor] /\ exists v, lang x v /\ occurs h t u v))).
Proof.
  intros A Hx Hy F. rewrite contains_spec by assumption. split.
  - intros (u & Hu & [->|(N & Fu & l & Hl & O)]).
    + exists []. split; [|left; reflexivity]. apply lang_symbols. exists [Eps]. split; [exact Hu|]. split; [intros [H|[]]; discriminate H|reflexivity].
    + exists (word_of u). split; [apply lang_symbols; exists u; split; [exact Hu|split; [exact Fu|reflexivity]]|].
      destruct (symbols_shape y u Hu) as [->|[_ Eu]]; [left; reflexivity|].
      destruct (word_eq u) as [Eq| ->]; [|exfalso; apply Eu; left; reflexivity]. rewrite Eq. right. split; [exact N|].
      exists (word_of l). split; [apply lang_symbols; exists l; split; [exact Hl|split; [exact (F l Hl)|reflexivity]]|].
      destruct (word_eq l) as [Eql| ->]; [rewrite Eql; exact O|]. exfalso.
      assert (In Eps u \/ u = []) as [K|K].
      { destruct h, t; cbn in O.
        - left. rewrite <- O. left; reflexivity.
        - destruct O as (b & O). destruct u as [|z u]; [right; reflexivity|]. injection O as <- _. left; left; reflexivity.
        - destruct O as (b & O). destruct b as [|z b]; [cbn in O; rewrite <- O; left; left; reflexivity|]. injection O as _ O. symmetry in O. apply app_eq_nil in O as [_ O]. right; exact O.
        - destruct O as (a & b & O). destruct a as [|z a].
          + destruct u as [|z u]; [right; reflexivity|]. injection O as <- _. left; left; reflexivity.
          + injection O as _ O. symmetry in O. apply app_eq_nil in O as [_ O]. apply app_eq_nil in O as [O _]. right; exact O. }
      * exact (Eu K).
      * destruct (symbols_shape y u Hu) as [->|[K' _]]; [discriminate K|exact (K' K)].
  - intros (u & Lu & H). pose proof Lu as Lu'. apply lang_symbols in Lu as (a & Ha & Fa & Wa). exists a. split; [exact Ha|].
    destruct (symbols_shape y a Ha) as [->|[Na Ea]]; [left; reflexivity|]. right.
    destruct (word_eq a) as [Eq| ->]; [|exfalso; apply Ea; left; reflexivity]. rewrite Eq in Wa. subst a.
    destruct H as [->|(N & v & Lv & O)]; [congruence|]. split; [exact N|]. split; [exact Fa|].
    apply lang_symbols in Lv as (l & Hl & Fl & Wl). exists l. split; [exact Hl|].
    destruct (word_eq l) as [Eql| ->]; [rewrite <- Eql, Wl; exact O|]. exfalso. cbn in Wl. subst v. apply Na.
    destruct h, t; cbn in O.
    + symmetry; exact O.
    + destruct O as (b & O). symmetry in O. apply app_eq_nil in O as [O _]. exact O.
    + destruct O as (b & O). symmetry in O. apply app_eq_nil in O as [_ O]. exact O.
    + destruct O as (c & b & O). symmetry in O. apply app_eq_nil in O as [_ O]. apply app_eq_nil in O as [O _]. exact O.
Qed.

(** Acceptance and equivalence *)
Lemma accepts_sets x y : is_alg x = false -> is_any x = false -> is_any y = false -> no_fresh x -> no_fresh y ->
  symbols x <> [] -> NoDup (symbols y) ->
  (accepts x y false = true <-> forall w, lang y w -> lang x w).
Proof.
  intros A Hx Hy Fx Fy N D. split; [intros H w; apply accepts_lang; assumption|]. intros H. rewrite accepts_item by exact A.
  apply (item_accepts_spec x y Hx Hy). split; [exact N|].
  assert (I : incl (symbols y) (symbols x)).
  { intros l Hl. assert (L : lang y (word_of l)) by (apply lang_symbols; exists l; split; [exact Hl|split; [exact (Fy l Hl)|reflexivity]]).
    apply H in L. apply lang_symbols in L as (l' & Hl' & _ & E). replace l with l'; [exact Hl'|].
    destruct (symbols_shape y l Hl) as [->|[N1 E1]]; destruct (symbols_shape x l' Hl') as [->|[N2 E2]].
    - reflexivity.
    - cbn in E. destruct (word_eq l') as [Q|Q]; [congruence|exact Q].
    - cbn in E. destruct (word_eq l) as [Q|Q]; [congruence|symmetry; exact Q].
    - destruct (word_eq l) as [Q|Q]; [|exfalso; apply E1; rewrite Q; left; reflexivity].
      destruct (word_eq l') as [Q'|Q']; [|exfalso; apply E2; rewrite Q'; left; reflexivity]. congruence. }
  split; [apply NoDup_incl_length; assumption|]. intros l Hl. split; [exact (I l Hl)|exact (Fy l Hl)].
Qed.
Lemma equivalent_sets x y : is_alg x = false -> is_any x = false -> is_any y = false -> no_fresh x -> no_fresh y ->
  symbols x <> [] -> NoDup (symbols x) -> NoDup (symbols y) ->
  (is_equivalent x y = true <-> forall w, lang x w <-> lang y w).
Proof.
  intros A Hx Hy Fx Fy N Dx Dy. unfold is_equivalent. rewrite accepts_item by exact A. rewrite (equivalent_spec x y Hx Hy). split.
  - intros (_ & L & I). assert (J : incl (symbols x) (symbols y)).
    { apply NoDup_length_incl; [exact Dy|lia|]. intros l Hl. apply I. exact Hl. }
    intros w. rewrite !lang_symbols. split; intros (l & Hl & Fl & E); exists l; (split; [|split; [exact Fl|exact E]]).
    + apply J. exact Hl.
    + apply I. exact Hl.
  - intros H. split; [exact N|].
    assert (Nv : symbols y <> []).
    { intros Y. destruct (symbols x) as [|l r] eqn:Sx; [congruence|].
      assert (L : lang x (word_of l)) by (apply lang_symbols; exists l; rewrite Sx; split; [left; reflexivity|split; [apply Fx; rewrite Sx; left; reflexivity|reflexivity]]).
      apply H in L. apply lang_symbols in L as (l' & Hl' & _). rewrite Y in Hl'. exact Hl'. }
    destruct (is_alg y) eqn:Ay; [destruct y; try discriminate Ay; exfalso; apply Nv; reflexivity|].
    assert (X : accepts x y false = true) by (apply accepts_sets; try assumption; intros w; apply H).
    assert (Y : accepts y x false = true) by (apply accepts_sets; try assumption; intros w; apply H).
    rewrite accepts_item in X, Y by assumption. apply (item_accepts_spec x y Hx Hy) in X as (_ & L1 & I1).
    apply (item_accepts_spec y x Hy Hx) in Y as (_ & L2 & _). split; [lia|exact I1].
Qed.
Lemma accepts_trans x y z : is_alg x = false -> is_alg y = false -> is_any x = false -> is_any y = false -> is_any z = false ->
  accepts x y false = true -> accepts y z false = true -> accepts x z false = true.
Proof.
  intros A B Hx Hy Hz. rewrite !accepts_item by assumption. rewrite !item_accepts_spec by assumption.
  intros (N & L1 & I1) (_ & L2 & I2). split; [exact N|]. split; [lia|]. intros l Hl. destruct (I2 l Hl) as [H F]. split; [apply I1; exact H|exact F].
Qed.
Lemma accepts_refl x e : is_alg x = false -> is_any x = false -> symbols x <> [] -> no_fresh x -> accepts x x e = true.
Proof.
  intros A H N F. rewrite accepts_item by exact A. destruct e.
  - apply (equivalent_spec x x H H). split; [exact N|]. split; [reflexivity|]. intros l Hl. split; [exact Hl|exact (F l Hl)].
  - apply (item_accepts_spec x x H H). split; [exact N|]. split; [lia|]. intros l Hl. split; [exact Hl|exact (F l Hl)].
Qed.
Lemma accepts_any x y e : is_alg x = false -> is_any x = true \/ is_any y = true -> accepts x y e = negb e || (is_any x && is_any y).
Proof.
  intros A H. rewrite accepts_item by exact A. unfold item_accepts.
  assert (E : is_any x || is_any y = true) by (destruct H as [H|H]; rewrite H; [reflexivity|apply orb_true_r]). rewrite E.
  destruct e, (is_any x), (is_any y); reflexivity.
Qed.

(** Prefixes and suffixes *)
Lemma end_matches_any tail x y : is_alg x = false -> is_any y = true -> is_any x = false -> truth x = true -> truth y = false -> end_matches tail x y = true.
Proof. intros A H Hx T U. destruct x; try discriminate A; cbn [end_matches]; rewrite T, U; cbn [negb andb]; exact H. Qed.
Lemma end_matches_empty tail x y : is_alg x = false -> truth x = true -> truth y = false -> end_matches tail x y = is_any y.
Proof. intros A T U. destruct x; try discriminate A; cbn [end_matches]; rewrite T, U; reflexivity. Qed.
Lemma end_matches_contains tail x y : is_alg x = false -> truth x = false \/ truth y = true -> end_matches tail x y = contains x y (negb tail) tail.
Proof.
  intros A H. assert (E : truth x && negb (truth y) = false) by (destruct H as [H|H]; rewrite H; [reflexivity|apply andb_false_r]).
  destruct x; try discriminate A; cbn [end_matches]; rewrite E; reflexivity.
Qed.
Lemma is_end_end tail x y : is_alg x = false -> is_end tail x y = end_matches tail y x.
Proof. destruct x; cbn; intros H; try reflexivity; discriminate H. Qed.
(** When both have items, a prefix is an expression of which some word begins a word of
    the other, or that has the empty word *)
Lemma is_end_words tail x y : is_alg x = false -> is_alg y = false -> is_any x = false -> is_any y = false -> no_fresh y ->
  truth x = true -> 
  (is_end tail x y = true <->
   exists u, lang x u /\ (u = [] \/ (u <> [Nor] /\ exists v, lang y v /\ if tail then exists a, v = a ++ u else exists b, v = u ++ b))).
Proof.
  intros A B Hx Hy F T. rewrite is_end_end by exact A. rewrite end_matches_contains by (exact B || (right; exact T)).
  rewrite contains_words by assumption. destruct tail; cbn [negb occurs]; reflexivity.
Qed.

(** Contexts of rules *)
Lemma context_sides r p f :
  context_matches r p f =
  ((if from_bos r then matches (fst (r_pre r)) (fst p) && matches (snd (r_pre r)) (snd p)
    else is_suffix (fst (r_pre r)) (fst p) && is_suffix (snd (r_pre r)) (snd p))
   && (if to_eos r then matches (fst (r_fol r)) (fst f) && matches (snd (r_fol r)) (snd f)
       else is_prefix (fst (r_fol r)) (fst f) && is_prefix (snd (r_fol r)) (snd f))).
Proof.
  unfold context_matches. destruct (from_bos r), (to_eos r); cbn [negb andb orb]; rewrite ?orb_false_r; reflexivity.
Qed.
Lemma any_end tail y : is_alg y = false -> is_end tail IAny y = (truth y || negb (is_nor y)).
Proof.
  intros A. rewrite is_end_end by reflexivity. destruct (truth y) eqn:T; cbn [orb].
  - rewrite end_matches_empty; [reflexivity|exact A|exact T|reflexivity].
  - rewrite end_matches_contains by (exact A || (left; exact T)). rewrite contains_any by (exact A || (right; reflexivity)).
    cbn [is_nor negb]. apply andb_true_r.
Qed.
Lemma any_matches y : matches IAny y = negb (is_nor y).
Proof. unfold matches. rewrite contains_any by (reflexivity || (left; reflexivity)). reflexivity. Qed.
