From Verif Require Import Base ExpressionModel ExpressionSpec ExpressionProofs ExpressionBuild.

(** Controls do not get into expressions *)
Definition clean (l : list sy) : Prop := l = [Eps] \/ forall s, In s l -> is_control s = false.
Lemma clean_add a b : clean a -> clean b -> clean (add_sym_lists a b).
Proof.
  intros Ha Hb. unfold add_sym_lists.
  destruct (syl_eqb a [Eps]) eqn:E; [exact Hb|]. destruct (syl_eqb b [Eps]) eqn:F; [exact Ha|].
  destruct Ha as [->|A]; [discriminate E|]. destruct Hb as [->|B]; [discriminate F|].
  right. intros s. rewrite in_app_iff. intros [H|H]; [exact (A s H)|exact (B s H)].
Qed.
Lemma clean_cat ls : forall acc, Forall clean acc -> Forall (Forall clean) ls -> Forall clean (cat_symbols acc ls).
Proof.
  induction ls as [|b ls IH]; intros acc Ha Hb; [exact Ha|].
  inversion Hb as [|? ? H1 H2]; subst. unfold cat_symbols. cbn [fold_left]. apply IH; [|exact H2].
  rewrite rotate_product. apply Forall_forall. intros l Hl. unfold product in Hl.
  apply in_flat_map in Hl as (s & Hs & Hl). apply in_map_iff in Hl as (t & <- & Ht).
  apply clean_add; [exact (proj1 (Forall_forall _ _) Ha s Hs)|exact (proj1 (Forall_forall _ _) H1 t Ht)].
Qed.
Lemma clean_one s : is_control s = false -> Forall clean [[s]].
Proof. intros H. constructor; [|constructor]. right. intros t [<-|[]]. exact H. Qed.
Lemma symbols_clean x : wf x -> control_item x = false -> Forall clean (symbols x).
Proof.
  induction x as [s|s| | |l IH|l IH|l r _ _] using item_ind'; intros W C; [apply clean_one; exact C|apply clean_one; exact C|constructor|constructor|..|constructor].
  - rewrite symbols_cat. apply clean_cat; [constructor; [left; reflexivity|constructor]|]. apply Forall_map. apply Forall_forall. intros y Hy.
    inversion W; subst. apply (proj1 (Forall_forall _ _) IH y Hy); [exact (proj1 (Forall_forall _ _) H0 y Hy)|].
    apply cat_ok_control. exact (proj1 (Forall_forall _ _) H1 y Hy).
  - destruct l as [|y r]; [apply (clean_one Fresh); reflexivity|]. rewrite symbols_or by discriminate.
    apply Forall_forall. intros t Ht. apply in_concat in Ht as (ls & Hls & Ht). apply in_map_iff in Hls as (z & <- & Hz).
    assert (K : wf z /\ control_item z = false).
    { inversion W; subst.
      - destruct Hz as [<-|[]]. split; [assumption|]. apply any_control. assumption.
      - split; [exact (proj1 (Forall_forall _ _) H0 z Hz)|]. apply or_ok_control. apply (or_good_in _ z H1 Hz). }
    pose proof (proj1 (Forall_forall _ _) IH z Hz (proj1 K) (proj2 K)) as G. exact (proj1 (Forall_forall _ _) G t Ht).
Qed.

(** An expression that has only the empty word has no states *)
Lemma add_eps a b : good a -> good b -> add_sym_lists a b = [Eps] -> a = [Eps] /\ b = [Eps].
Proof.
  intros Ga Gb. unfold add_sym_lists. destruct (syl_eqb a [Eps]) eqn:E.
  - apply syl_eps in E. intros ->. split; [exact E|reflexivity].
  - destruct (syl_eqb b [Eps]) eqn:F.
    + intros ->. discriminate E.
    + intros H. destruct Gb as [->|[B1 _]]; [discriminate F|]. destruct Ga as [->|[A1 _]]; [discriminate E|].
      destruct a as [|x [|y a]]; [congruence| |discriminate H]. destruct b; [congruence|discriminate H].
Qed.
Lemma product_nil_r a : product a [] = [].
Proof. induction a as [|x a IH]; [reflexivity|exact IH]. Qed.
Lemma product_eps a b : Forall good a -> Forall good b -> product a b = [[Eps]] -> a = [[Eps]] /\ b = [[Eps]].
Proof.
  intros Ga Gb H. destruct b as [|y b]; [rewrite product_nil_r in H; discriminate H|].
  destruct a as [|x a]; [discriminate H|]. unfold product in H. cbn [flat_map map app] in H. injection H as H1 H2.
  inversion Ga as [|? ? G1 _]; subst. inversion Gb as [|? ? G2 _]; subst.
  destruct (add_eps x y G1 G2 H1) as [-> ->]. apply app_eq_nil in H2 as [H2 H3]. apply map_eq_nil in H2 as ->.
  destruct a as [|x' a]; [split; reflexivity|discriminate H3].
Qed.
Lemma cat_eps ls : forall acc, Forall good acc -> Forall (Forall good) ls -> cat_symbols acc ls = [[Eps]] -> acc = [[Eps]] /\ Forall (eq [[Eps]]) ls.
Proof.
  induction ls as [|b ls IH]; intros acc Ga Gb H; [split; [exact H|constructor]|].
  inversion Gb as [|? ? G1 G2]; subst. unfold cat_symbols in H. cbn [fold_left] in H. rewrite rotate_product in H.
  destruct (IH (product acc b)) as [P Q]; [|exact G2|exact H|].
  - pose proof (good_cat [b] acc Ga (Forall_cons _ G1 (Forall_nil _))) as G. unfold cat_symbols in G. cbn [fold_left] in G.
    rewrite rotate_product in G. exact G.
  - destruct (product_eps acc b Ga G1 P) as [-> ->]. split; [reflexivity|]. constructor; [reflexivity|exact Q].
Qed.
Lemma eps_states x : wf x -> or_ok x -> symbols x = [[Eps]] -> state_count x = 0.
Proof.
  intros W O H. destruct x as [s|s| | |l|l|l r]; try contradiction; try reflexivity.
  - cbn in H, O. injection H as ->. discriminate O.
  - destruct l as [|y l]; [reflexivity|]. exfalso. rewrite symbols_cat in H. apply cat_eps in H as [_ H]; [|constructor; [left; reflexivity|constructor]|].
    2:{ apply Forall_map. apply Forall_forall. intros z _. apply symbols_good. }
    cbn [map] in H. inversion H as [|? ? H1 _]; subst. inversion W as [| | | |? Wl Cl| | |]; subst. inversion Wl as [|? ? W1 _]; subst. inversion Cl as [|? ? C1 _]; subst.
    destruct C1 as [A|A]; [rewrite (any_symbols y A) in H1; discriminate H1|].
    destruct y as [s|s| | |k|k|k r]; try contradiction; try discriminate H1.
    + cbn in H1, A. injection H1 as <-. discriminate A.
    + destruct k as [|z [|z' k]]; [discriminate H1|cbn in A; congruence|].
      inversion W1 as [| | | | | |? W2 W3|]; subst. rewrite symbols_or in H1 by discriminate. cbn [map concat] in H1.
      destruct (or_good_in _ z W3 (or_introl eq_refl)) as (_ & S1 & _).
      destruct (or_good_in _ z' W3 (or_intror (or_introl eq_refl))) as (_ & S2 & _).
      destruct (symbols z) as [|t1 [|t2 q]]; [congruence| |discriminate H1].
      destruct (symbols z') as [|t2 q]; [congruence|discriminate H1].
Qed.

Lemma accepts_same x y e z : is_alg x = false -> is_alg y = false -> is_any x = is_any y -> symbols x = symbols y ->
  accepts x z e = accepts y z e.
Proof. intros A B C D. rewrite (accepts_item x), (accepts_item y) by assumption. unfold item_accepts. rewrite C, D. reflexivity. Qed.
Lemma accepts_other x y e z : is_alg z = false -> is_any x = is_any y -> symbols x = symbols y ->
  accepts z x e = accepts z y e.
Proof. intros A C D. rewrite !(accepts_item z) by assumption. unfold item_accepts. rewrite C, D. reflexivity. Qed.

Definition or_adds (P : list sy -> Prop) (acc acc' : list item) : Prop := forall w, lang (IOr acc') w <-> lang (IOr acc) w \/ P w.
Definition or_state (l : list item) : Prop := Forall wf l /\ or_good l.
Lemma or_state_wf l : or_state l -> wf (IOr l).
Proof. intros [A B]. apply wf_or; assumption. Qed.
Lemma or_snoc acc x w : lang (IOr (acc ++ [x])) w <-> lang (IOr acc) w \/ lang x w.
Proof.
  rewrite !lang_or_inv. split.
  - intros (y & Hy & L). apply in_app_iff in Hy as [Hy|[<-|[]]]; [left; exists y; split; assumption|right; exact L].
  - intros [(y & Hy & L)|L]; [exists y|exists x]; (split; [apply in_app_iff|exact L]); [left; exact Hy|right; left; reflexivity].
Qed.
Lemma or_state_snoc acc x : or_state acc -> wf x -> is_any x = false -> symbols x <> [] -> or_ok x ->
  accepts (IOr acc) x false = false -> accepts x (IOr acc) false = false -> or_state (acc ++ [x]).
Proof.
  intros [A B] W H1 H2 H3 H4 H5. split; [apply Forall_app; split; [exact A|constructor; [exact W|constructor]]|apply or_good_app; assumption].
Qed.
(** When an alternation is accepted by an item, the words are among those of the item *)
Lemma accepts_lang x y w : is_alg x = false -> is_any x = false -> is_any y = false -> accepts x y false = true -> lang y w -> lang x w.
Proof.
  intros A Hx Hy E L. rewrite accepts_item in E by exact A. apply (item_accepts_spec x y Hx Hy) in E as (_ & _ & E).
  apply lang_symbols in L as (l & Hl & Fl & <-). apply lang_symbols. exists l. split; [apply E; exact Hl|]. split; [exact Fl|reflexivity].
Qed.
Lemma control_update x acc : or_state acc -> control_item x = true -> accepts x (IOr acc) false = true ->
  accepts (IOr acc) x false = true /\ (state_count (IOr acc) = 0).
Proof.
  intros [Wa G] C E.
  assert (X : exists s, symbols x = [[s]] /\ is_control s = true /\ is_any x = false /\ is_alg x = false).
  { destruct x; try discriminate C; cbn in C; exists s; (split; [reflexivity|split; [exact C|split; reflexivity]]). }
  destruct X as (s & Sx & Cs & Ax & Gx). pose proof (or_good_is_any acc G) as Aa.
  rewrite accepts_item in E by exact Gx. apply (item_accepts_spec x _ Ax Aa) in E as (_ & E1 & E2).
  pose proof (or_good_symbols acc G) as N. rewrite Sx in E1, E2. cbn [length] in E1.
  assert (S1 : symbols (IOr acc) = [[s]]).
  { destruct (symbols (IOr acc)) as [|l [|l' r]]; [congruence| |cbn in E1; lia]. destruct (E2 l (or_introl eq_refl)) as [[<-|[]] _]. reflexivity. }
  split.
  - change (accepts (IOr acc) x false) with (item_accepts (IOr acc) x false). apply (item_accepts_spec _ _ Aa Ax). rewrite S1, Sx.
    split; [discriminate|]. split; [cbn; lia|]. intros l [<-|[]]. split; [left; reflexivity|]. intros [->|[]]. discriminate Cs.
  - destruct acc as [|y r]; [reflexivity|]. rewrite symbols_or in S1 by discriminate. cbn [map concat] in S1.
    destruct (or_good_in _ y G (or_introl eq_refl)) as (_ & Sy & Oy).
    inversion Wa as [|? ? Wy _]; subst.
    destruct r as [|z r].
    + cbn [map concat] in S1. rewrite app_nil_r in S1.
      assert (s = Eps) as ->.
      { pose proof (symbols_clean y Wy (or_ok_control y Oy)) as K. rewrite S1 in K. inversion K as [|? ? [K1|K1] _]; subst; [injection K1 as ->; reflexivity|].
        rewrite (K1 s (or_introl eq_refl)) in Cs. discriminate Cs. }
      cbn [state_count map list_sum fold_right]. rewrite (eps_states y Wy Oy S1). reflexivity.
    + exfalso. destruct (or_good_in _ z G (or_intror (or_introl eq_refl))) as (_ & Sz & _).
      destruct (symbols y) as [|t1 q1]; [congruence|]. cbn [map concat] in S1. destruct (symbols z) as [|t2 q2]; [congruence|].
      destruct q1; discriminate S1.
Qed.

(** Adding one item, and the items of an alternation *)
Definition step_ok (x : item) : Prop := wf x -> is_any x = false -> forall acc, or_state acc ->
  or_state (or_step x acc) /\ or_adds (in_or x) acc (or_step x acc).
Lemma or_list_ok l : Forall step_ok l -> Forall wf l -> Forall (fun x => is_any x = false) l -> forall acc, or_state acc ->
  or_state (or_list l acc) /\ or_adds (fun w => exists x, In x l /\ in_or x w) acc (or_list l acc).
Proof.
  induction l as [|x l IH]; intros H W N acc A; cbn [or_list].
  - split; [exact A|]. intros w. split; [intros K; left; exact K|intros [K|(x & [] & _)]; exact K].
  - inversion H as [|? ? H1 H2]; subst. inversion W as [|? ? W1 W2]; subst. inversion N as [|? ? N1 N2]; subst.
    rewrite (or_good_has_any acc (proj2 A)), N1. destruct (H1 W1 N1 acc A) as [B C]. destruct (IH H2 W2 N2 _ B) as [D E].
    split; [exact D|]. intros w. rewrite (E w), (C w). split.
    + intros [[K|K]|(y & Hy & K)]; [left; exact K|right; exists x; split; [left; reflexivity|exact K]|right; exists y; split; [right; exact Hy|exact K]].
    + intros [K|(y & [<-|Hy] & K)]; [left; left; exact K|left; right; exact K|right; exists y; split; assumption].
Qed.
Lemma add_item_ok x : (match x with IOr l | ICat l => Forall step_ok l | _ => True end) -> wf x -> is_any x = false ->
  forall acc, or_state acc -> accepts (IOr acc) x false = false -> accepts x (IOr acc) false = false ->
  or_state (add_item_code x acc) /\ or_adds (in_or x) acc (add_item_code x acc).
Proof.
  intros IH W N acc A E F.
  assert (Sx : symbols x <> []).
  { intros S0. change (accepts (IOr acc) x false) with (item_accepts (IOr acc) x false) in E.
    assert (T : item_accepts (IOr acc) x false = true); [|congruence].
    apply (item_accepts_spec _ _ (or_good_is_any acc (proj2 A)) N). rewrite S0. split; [exact (or_good_symbols acc (proj2 A))|].
    split; [cbn; lia|]. intros l []. }
  assert (Keep : forall y, wf y -> is_any y = false -> symbols y = symbols x -> is_alg y = false -> is_alg x = false -> or_ok y ->
            (forall w, in_or x w <-> lang y w) -> or_state (acc ++ [y]) /\ or_adds (in_or x) acc (acc ++ [y])).
  { intros y Wy Ny Sy Ay Ax Oy L. split.
    - apply or_state_snoc; [exact A|exact Wy|exact Ny|congruence|exact Oy| |].
      + transitivity (accepts (IOr acc) x false); [|exact E]. apply accepts_other; [reflexivity|congruence|congruence].
      + transitivity (accepts x (IOr acc) false); [|exact F]. apply accepts_same; [exact Ay|exact Ax|congruence|congruence].
    - intros w. rewrite or_snoc, (L w). reflexivity. }
  assert (Lang : control_item x = false -> forall w, in_or x w <-> lang x w).
  { intros C w. unfold in_or. rewrite C. split; [intros [_ H]; exact H|intros H; split; [reflexivity|exact H]]. }
  destruct x as [s|s| | |l|l|l r]; cbn [add_item_code]; try (exfalso; apply Sx; reflexivity).
  - destruct (is_control s) eqn:C.
    + split; [exact A|]. intros w. unfold in_or. cbn [control_item]. rewrite C. split; [intros K; left; exact K|intros [K|[K _]]; [exact K|discriminate K]].
    + inversion W; subst. apply Keep; try reflexivity; [constructor; assumption|exact C|].
      intros w. rewrite Lang by exact C. rewrite !lang_symbols. reflexivity.
  - destruct (is_control s) eqn:C.
    + split; [exact A|]. intros w. unfold in_or. cbn [control_item]. rewrite C. split; [intros K; left; exact K|intros [K|[K _]]; [exact K|discriminate K]].
    + inversion W; subst. apply Keep; try reflexivity; [constructor; assumption|exact C|].
      intros w. rewrite Lang by exact C. reflexivity.
  - destruct l as [|y [|z l]].
    + rewrite (wf_copy _ W). apply Keep; try reflexivity; [exact W|cbn; discriminate|]. intros w. apply Lang. reflexivity.
    + inversion W; subst. inversion H0 as [|? ? W1 _]; subst. inversion H1 as [|? ? C1 _]; subst. inversion IH as [|? ? I1 _]; subst.
      cbn [is_any] in N. destruct (or_list_ok [y] IH H0 (Forall_cons y N (Forall_nil _)) acc A) as [B C].
      split; [exact B|]. intros w. rewrite (C w). pose proof (cat_ok_control y C1) as Cy.
      assert (Q : (exists x, In x [y] /\ in_or x w) <-> in_or (ICat [y]) w); [|rewrite Q; reflexivity].
      unfold in_or. cbn [control_item]. rewrite lang_cat_one. split.
      * intros (x & [<-|[]] & _ & L). split; [reflexivity|exact L].
      * intros [_ L]. exists y. split; [left; reflexivity|]. split; assumption.
    + rewrite (wf_copy _ W). apply Keep; try reflexivity; [exact W|cbn; discriminate|]. intros w. apply Lang. reflexivity.
  - inversion W as [| | | | |y Wy Ny|? Wl Gl|]; subst; [cbn [is_any] in N; congruence|].
    destruct (or_list_ok l IH Wl) with (acc := acc) as [B C]; [|exact A|].
    { apply Forall_forall. intros y Hy. apply (or_good_in l y Gl Hy). }
    split; [exact B|]. intros w. rewrite (C w).
    assert (Q : (exists x, In x l /\ in_or x w) <-> in_or (IOr l) w); [|rewrite Q; reflexivity].
    unfold in_or. cbn [control_item]. rewrite lang_or_inv. split.
    + intros (x & Hx & _ & L). split; [reflexivity|]. exists x. split; assumption.
    + intros [_ (x & Hx & L)]. exists x. split; [exact Hx|]. split; [|exact L]. apply or_ok_control. apply (or_good_in l x Gl Hx).
Qed.
Lemma or_state_nil : or_state [].
Proof. split; [constructor|exact or_good_nil]. Qed.
Lemma update_ok x : (match x with IOr l | ICat l => Forall step_ok l | _ => True end) -> wf x -> is_any x = false ->
  forall acc, or_state acc -> accepts x (IOr acc) false = true -> control_item x = false ->
  or_state (update x) /\ or_adds (in_or x) acc (update x).
Proof.
  intros IH W N acc A E C.
  assert (Ax : is_alg x = false) by (destruct x; try reflexivity; discriminate E).
  pose proof E as E'. rewrite accepts_item in E' by exact Ax.
  apply (item_accepts_spec x _ N (or_good_is_any acc (proj2 A))) in E' as (Sx & _).
  assert (F : accepts (IOr []) x false = false).
  { destruct (accepts (IOr []) x false) eqn:F; [|reflexivity]. apply (empty_accepts x N) in F. congruence. }
  unfold update. rewrite F. destruct (add_item_ok x IH W N [] or_state_nil F (accepts_empty x N)) as [B D].
  split; [exact B|]. intros w. rewrite (D w). split.
  - intros [K|K]; [apply lang_or_inv in K as (y & [] & _)|right; exact K].
  - intros [K|K]; right; [|exact K]. split; [exact C|].
    exact (accepts_lang x (IOr acc) w Ax N (or_good_is_any acc (proj2 A)) E K).
Qed.
Lemma or_step_ok x : step_ok x.
Proof.
  induction x as [s|s| | |l IH|l IH|l r _ _] using item_ind'; intros W N acc A;
  match goal with |- or_state (or_step ?x acc) /\ _ =>
    assert (IHx : match x with IOr l | ICat l => Forall step_ok l | _ => True end) by (exact I || exact IH);
    rewrite (or_step_eq x acc); destruct (accepts (IOr acc) x false) eqn:E; destruct (accepts x (IOr acc) false) eqn:F; cbn [andb];
    [ destruct (Nat.ltb_spec (state_count x) (state_count (IOr acc))) as [L|L];
      [ destruct (control_item x) eqn:C; [exfalso; destruct (control_update x acc A C F) as [_ Z]; rewrite Z in L; lia|exact (update_ok x IHx W N acc A F C)] | ]
    | | destruct (control_item x) eqn:C; [exfalso; destruct (control_update x acc A C F) as [Z _]; congruence|exact (update_ok x IHx W N acc A F C)]
    | exact (add_item_ok x IHx W N acc A E F) ];
    (split; [exact A|]; intros w; split; [intros K; left; exact K|intros [K|[_ K]]; [exact K|]];
     exact (accepts_lang (IOr acc) x w eq_refl (or_good_is_any acc (proj2 A)) N E K))
  end.
Qed.
Lemma or_list_words l acc : Forall wf l -> Forall (fun x => is_any x = false) l -> or_state acc ->
  or_state (or_list l acc) /\ or_adds (fun w => exists x, In x l /\ in_or x w) acc (or_list l acc).
Proof. intros W N A. apply or_list_ok; [|exact W|exact N|exact A]. apply Forall_forall. intros x _. apply or_step_ok. Qed.

(** Any alternatives *)
Lemma or_step_any x y : is_any y = true -> or_step x [y] = [y].
Proof.
  intros H. rewrite or_step_eq. assert (A : is_any (IOr [y]) = true) by exact H.
  change (accepts (IOr [y]) x false) with (item_accepts (IOr [y]) x false). unfold item_accepts at 1. rewrite A. cbn [orb andb negb].
  rewrite (any_states (IOr [y]) A). rewrite andb_false_r. reflexivity.
Qed.
Lemma or_list_any_state l y : is_any y = true -> wf y -> Forall wf l -> exists z, or_list l [y] = [z] /\ is_any z = true /\ wf z.
Proof.
  intros H Wy. revert y H Wy. induction l as [|x l IH]; intros y H Wy W; cbn [or_list]; [exists y; split; [reflexivity|split; assumption]|].
  inversion W as [|? ? W1 W2]; subst. destruct (has_any [y]); [exists y; split; [reflexivity|split; assumption]|].
  destruct (is_any x) eqn:E; [exists x; split; [reflexivity|split; assumption]|]. rewrite (or_step_any x y H). apply IH; assumption.
Qed.
Lemma or_list_wf l : forall acc, Forall wf l -> wf (IOr acc) -> wf (IOr (or_list l acc)).
Proof.
  induction l as [|x l IH]; intros acc W A; cbn [or_list]; [exact A|]. inversion W as [|? ? W1 W2]; subst.
  destruct (has_any acc) eqn:H; [exact A|]. destruct (is_any x) eqn:E; [apply wf_or_any; assumption|].
  apply IH; [exact W2|]. inversion A as [| | | | |y Wy Ny|? Wl Gl|]; subst.
  - rewrite (or_step_any x y Ny). exact A.
  - apply or_state_wf. apply (or_step_ok x W1 E). split; assumption.
Qed.
Lemma built_wf x : built x -> wf x.
Proof.
  revert x. fix IH 2. intros x [s H|s H| | | | |acc l H1 H2|acc l H1 H2|l r H1 H2].
  - apply wf_sym. exact H.
  - apply wf_atm. exact H.
  - exact wf_any.
  - exact wf_exp.
  - apply wf_cat; constructor.
  - apply wf_or; [constructor|exact or_good_nil].
  - apply cat_list_wf; [|exact (IH _ H1)]. clear H1. induction H2 as [|y k Hy Hk IHk]; constructor; [exact (IH _ Hy)|exact IHk].
  - apply or_list_wf; [|exact (IH _ H1)]. clear H1. induction H2 as [|y k Hy Hk IHk]; constructor; [exact (IH _ Hy)|exact IHk].
  - apply IH in H1. apply IH in H2. apply wf_alg; [inversion H1; subst; cbn; try assumption; constructor; assumption|inversion H2; subst; cbn; try assumption; constructor; assumption].
Qed.
Lemma built_all l : Forall built l -> Forall wf l.
Proof. intros H. apply Forall_forall. intros x Hx. apply built_wf. exact (proj1 (Forall_forall _ _) H x Hx). Qed.
