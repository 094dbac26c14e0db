From Verif Require Import Base ExpressionModel ExpressionSpec.

(** Induction on expressions *)
Lemma item_ind' (P : item -> Prop) :
  (forall s, P (ISym s)) -> (forall s, P (IAtm s)) -> P IAny -> P IExp ->
  (forall l, Forall P l -> P (ICat l)) -> (forall l, Forall P l -> P (IOr l)) ->
  (forall l r, P l -> P r -> P (IAlg l r)) -> forall x, P x.
Proof.
  intros H1 H2 H3 H4 H5 H6 H7. fix IH 1. intros [s|s| | |l|l|l r].
  - apply H1.
  - apply H2.
  - exact H3.
  - exact H4.
  - apply H5. induction l as [|y r IHl]; constructor; [apply IH|exact IHl].
  - apply H6. induction l as [|y r IHl]; constructor; [apply IH|exact IHl].
  - apply H7; apply IH.
Qed.

(** Comparison of symbols and lists *)
Lemma sy_eqb_spec a b : sy_eqb a b = true <-> a = b /\ a <> Fresh.
Proof.
  destruct a, b; cbn; try (split; [discriminate|intros [H _]; discriminate H]);
    try (split; [intros _; split; [reflexivity|discriminate]|reflexivity]).
  - rewrite Nat.eqb_eq. split; [intros ->; split; [reflexivity|discriminate]|intros [H _]; injection H as H; exact H].
  - rewrite Nat.eqb_eq. split; [intros ->; split; [reflexivity|discriminate]|intros [H _]; injection H as H; exact H].
  - split; [discriminate|intros [_ H]; congruence].
Qed.
Lemma syl_eqb_spec a : forall b, syl_eqb a b = true <-> a = b /\ ~ In Fresh a.
Proof.
  induction a as [|x a IH]; intros [|y b]; cbn [syl_eqb].
  - split; [intros _; split; [reflexivity|intros []]|reflexivity].
  - split; [discriminate|intros [H _]; discriminate H].
  - split; [discriminate|intros [H _]; discriminate H].
  - rewrite andb_true_iff, sy_eqb_spec, IH. split.
    + intros [[-> H1] [-> H2]]. split; [reflexivity|]. intros [->|H]; [congruence|exact (H2 H)].
    + intros [H1 H2]. injection H1 as -> ->. cbn [In] in H2. split; split; try reflexivity.
      * intros ->. apply H2. left; reflexivity.
      * intros H. apply H2. right; exact H.
Qed.
Lemma syl_eps a : syl_eqb a [Eps] = true <-> a = [Eps].
Proof. rewrite syl_eqb_spec. split; [intros [H _]; exact H|intros ->; split; [reflexivity|intros [H|[]]; discriminate H]]. Qed.
Lemma syl_nor a : syl_eqb a [Nor] = true <-> a = [Nor].
Proof. rewrite syl_eqb_spec. split; [intros [H _]; exact H|intros ->; split; [reflexivity|intros [H|[]]; discriminate H]]. Qed.
Lemma mem_list_spec a l : mem_list a l = true <-> In a l /\ ~ In Fresh a.
Proof.
  unfold mem_list. rewrite existsb_exists. split.
  - intros (b & Hb & E). apply syl_eqb_spec in E as [<- H]. split; assumption.
  - intros [H1 H2]. exists a. split; [exact H1|]. apply syl_eqb_spec. split; [reflexivity|exact H2].
Qed.

(** Symbol lists of a concatenation *)
Lemma rotate_spec b : forall a c, rotate (length a) (a ++ c) b = c ++ flat_map (fun s => map (add_sym_lists s) b) a.
Proof.
  induction a as [|s a IH]; intros c; cbn [length rotate flat_map app].
  - rewrite app_nil_r. reflexivity.
  - rewrite <- app_assoc. rewrite IH, app_assoc. reflexivity.
Qed.
Definition product (a b : list (list sy)) : list (list sy) := flat_map (fun s => map (add_sym_lists s) b) a.
Lemma rotate_product a b : rotate (length a) a b = product a b.
Proof. rewrite <- (app_nil_r a) at 2. rewrite rotate_spec. reflexivity. Qed.
Definition cat_symbols (acc : list (list sy)) (ls : list (list (list sy))) : list (list sy) :=
  fold_left (fun acc ls => rotate (length acc) acc ls) ls acc.
Lemma symbols_cat l : symbols (ICat l) = cat_symbols [[Eps]] (map symbols l).
Proof. reflexivity. Qed.
Lemma symbols_or l : l <> [] -> symbols (IOr l) = concat (map symbols l).
Proof. destruct l; [congruence|reflexivity]. Qed.

(** Every list is [eps] alone or without eps and not empty *)
Definition good (l : list sy) : Prop := l = [Eps] \/ (l <> [] /\ ~ In Eps l).
Lemma good_add a b : good a -> good b -> good (add_sym_lists a b).
Proof.
  intros Ha Hb. unfold add_sym_lists.
  destruct (syl_eqb a [Eps]) eqn:E; [exact Hb|]. destruct (syl_eqb b [Eps]) eqn:F; [exact Ha|].
  destruct Ha as [->|[A1 A2]]; [discriminate E|]. destruct Hb as [->|[B1 B2]]; [discriminate F|].
  right. split.
  - destruct a; [congruence|discriminate].
  - rewrite in_app_iff. intros [H|H]; [exact (A2 H)|exact (B2 H)].
Qed.
Lemma good_cat ls : forall acc, Forall good acc -> Forall (Forall good) ls -> Forall good (cat_symbols acc ls).
Proof.
  induction ls as [|b ls IH]; intros acc Ha Hb; [exact Ha|].
  inversion Hb as [|? ? H1 H2]; subst. unfold cat_symbols. cbn [fold_left]. apply IH; [|exact H2].
  rewrite rotate_product. apply Forall_forall. intros l Hl. unfold product in Hl.
  apply in_flat_map in Hl as (s & Hs & Hl). apply in_map_iff in Hl as (t & <- & Ht).
  apply good_add; [exact (proj1 (Forall_forall _ _) Ha s Hs)|exact (proj1 (Forall_forall _ _) H1 t Ht)].
Qed.
Lemma good_one s : good [s].
Proof. destruct s; [left; reflexivity|..]; right; (split; [discriminate|intros [H|[]]; discriminate H]). Qed.
Lemma symbols_good x : Forall good (symbols x).
Proof.
  induction x as [s|s| | |l IH|l IH|l r _ _] using item_ind';
    [constructor; [apply good_one|constructor]|constructor; [apply good_one|constructor]|constructor|constructor|..|constructor].
  - rewrite symbols_cat. apply good_cat; [repeat constructor|]. apply Forall_map. exact IH.
  - destruct l as [|y r]; [constructor; [apply good_one|constructor]|]. rewrite symbols_or by discriminate.
    apply Forall_forall. intros t Ht. apply in_concat in Ht as (ls & Hls & Ht). apply in_map_iff in Hls as (z & <- & Hz).
    pose proof (proj1 (Forall_forall _ _) IH z Hz) as G. exact (proj1 (Forall_forall _ _) G t Ht).
Qed.

(** Words *)
Lemma word_add a b : good a -> good b -> word_of (add_sym_lists a b) = word_of a ++ word_of b.
Proof.
  intros Ha Hb. unfold add_sym_lists.
  destruct (syl_eqb a [Eps]) eqn:E.
  - apply syl_eps in E as ->. reflexivity.
  - destruct (syl_eqb b [Eps]) eqn:F.
    + apply syl_eps in F as ->. cbn [word_of]. rewrite app_nil_r. reflexivity.
    + destruct Ha as [->|[A1 A2]]; [discriminate E|]. destruct Hb as [->|[B1 B2]]; [discriminate F|].
      assert (W : forall c, ~ In Eps c -> word_of c = c)
        by (intros [|[] [|? ?]] Hc; cbn; try reflexivity; exfalso; apply Hc; left; reflexivity).
      rewrite (W a A2), (W b B2). apply W. rewrite in_app_iff. intros [H|H]; [exact (A2 H)|exact (B2 H)].
Qed.
Lemma fresh_add a b : In Fresh (add_sym_lists a b) <-> In Fresh a \/ In Fresh b.
Proof.
  unfold add_sym_lists. destruct (syl_eqb a [Eps]) eqn:E.
  - apply syl_eps in E as ->. split; [intros H; right; exact H|intros [[H|[]]|H]; [discriminate H|exact H]].
  - destruct (syl_eqb b [Eps]) eqn:F.
    + apply syl_eps in F as ->. split; [intros H; left; exact H|intros [H|[H|[]]]; [exact H|discriminate H]].
    + apply in_app_iff.
Qed.
Definition spells (ls : list (list sy)) (w : list sy) : Prop := exists l, In l ls /\ ~ In Fresh l /\ word_of l = w.
Lemma spells_product a b w : Forall good a -> Forall good b ->
  (spells (product a b) w <-> exists u v, w = u ++ v /\ spells a u /\ spells b v).
Proof.
  intros Ga Gb. split.
  - intros (l & Hl & Hf & Hw). apply in_flat_map in Hl as (s & Hs & Hl). apply in_map_iff in Hl as (t & <- & Ht).
    rewrite fresh_add in Hf. exists (word_of s), (word_of t). split; [|split].
    + rewrite <- Hw. apply word_add; [exact (proj1 (Forall_forall _ _) Ga s Hs)|exact (proj1 (Forall_forall _ _) Gb t Ht)].
    + exists s. split; [exact Hs|]. split; [intros F; apply Hf; left; exact F|reflexivity].
    + exists t. split; [exact Ht|]. split; [intros F; apply Hf; right; exact F|reflexivity].
  - intros (u & v & -> & (s & Hs & Fs & <-) & (t & Ht & Ft & <-)).
    exists (add_sym_lists s t). split; [|split].
    + apply in_flat_map. exists s. split; [exact Hs|]. apply in_map. exact Ht.
    + rewrite fresh_add. intros [H|H]; [exact (Fs H)|exact (Ft H)].
    + apply word_add; [exact (proj1 (Forall_forall _ _) Ga s Hs)|exact (proj1 (Forall_forall _ _) Gb t Ht)].
Qed.
Lemma lang_cat_inv x l w : lang (ICat (x :: l)) w <-> exists u v, w = u ++ v /\ lang x u /\ lang (ICat l) v.
Proof.
  split.
  - intros H. inversion H; subst. exists u, v. split; [reflexivity|]. split; assumption.
  - intros (u & v & -> & Hu & Hv). exact (L_cat_cons _ _ _ _ Hu Hv).
Qed.
Lemma spells_one s w : spells [[s]] w <-> s <> Fresh /\ w = word_of [s].
Proof.
  split.
  - intros (l & [<-|[]] & Hf & <-). split; [|reflexivity]. intros ->. apply Hf. left; reflexivity.
  - intros [H ->]. exists [s]. split; [left; reflexivity|]. split; [|reflexivity]. intros [->|[]]. congruence.
Qed.
Lemma spells_cat l : Forall (fun x => forall w, lang x w <-> spells (symbols x) w) l ->
  forall acc w, Forall good acc ->
  (spells (cat_symbols acc (map symbols l)) w <-> exists u v, w = u ++ v /\ spells acc u /\ lang (ICat l) v).
Proof.
  induction l as [|x l IH]; intros Hl acc w Ga.
  - cbn [map]. unfold cat_symbols. cbn [fold_left]. split.
    + intros H. exists w, []. split; [symmetry; apply app_nil_r|]. split; [exact H|constructor].
    + intros (u & v & -> & Hu & Hv). inversion Hv; subst. rewrite app_nil_r. exact Hu.
  - inversion Hl as [|? ? H1 H2]; subst. cbn [map]. unfold cat_symbols. cbn [fold_left]. fold (cat_symbols (rotate (length acc) acc (symbols x)) (map symbols l)).
    rewrite rotate_product. rewrite (IH H2).
    2:{ pose proof (good_cat [symbols x] acc Ga (Forall_cons _ (symbols_good x) (Forall_nil _))) as G.
        unfold cat_symbols in G. cbn [fold_left] in G. rewrite rotate_product in G. exact G. }
    split.
    + intros (u & v & -> & Hu & Hv). apply spells_product in Hu as (u1 & u2 & -> & A & B); [|exact Ga|apply symbols_good].
      exists u1, (u2 ++ v). split; [symmetry; apply app_assoc|]. split; [exact A|]. apply L_cat_cons; [apply H1; exact B|exact Hv].
    + intros (u & v & -> & Hu & Hv). apply lang_cat_inv in Hv as (v1 & v2 & -> & A & B).
      exists (u ++ v1), v2. split; [apply app_assoc|]. split; [|exact B]. apply spells_product; [exact Ga|apply symbols_good|].
      exists u, v1. split; [reflexivity|]. split; [exact Hu|]. apply H1. exact A.
Qed.
Lemma lang_or_inv l w : lang (IOr l) w <-> exists x, In x l /\ lang x w.
Proof. split; [intros H; inversion H; subst; exists x; split; assumption|intros (x & H1 & H2); exact (L_or x l w H1 H2)]. Qed.

Lemma lang_symbols x : forall w, lang x w <-> spells (symbols x) w.
Proof.
  induction x as [s|s| | |l IH|l IH|l r _ _] using item_ind'; intros w;
    try (cbn; split; [intros H; inversion H|intros (a & [] & _)]; fail).
  - cbn [symbols]. rewrite spells_one. split.
    + intros H. inversion H; subst; split; try discriminate; try reflexivity; try assumption. destruct s; cbn; congruence.
    + intros [H ->]. destruct s; cbn; try (apply L_sym; congruence); try congruence. apply L_sym_eps.
  - cbn [symbols]. rewrite spells_one. split.
    + intros H. inversion H; subst; split; try discriminate; try reflexivity; try assumption. destruct s; cbn; congruence.
    + intros [H ->]. destruct s; cbn; try (apply L_atm; congruence); try congruence. apply L_atm_eps.
  - rewrite symbols_cat, (spells_cat l IH) by (repeat constructor). split.
    + intros H. exists [], w. split; [reflexivity|]. split; [|exact H]. apply spells_one. split; [discriminate|reflexivity].
    + intros (u & v & -> & Hu & Hv). apply spells_one in Hu as [_ ->]. exact Hv.
  - rewrite lang_or_inv. destruct l as [|y r].
    + cbn [symbols]. rewrite spells_one. split; [intros (x & [] & _)|intros [H _]; congruence].
    + rewrite symbols_or by discriminate. split.
      * intros (x & Hx & Hw). apply (proj1 (Forall_forall _ _) IH x Hx) in Hw as (a & Ha & Fa & <-).
        exists a. split; [|split; [exact Fa|reflexivity]]. apply in_concat. exists (symbols x). split; [apply in_map; exact Hx|exact Ha].
      * intros (a & Ha & Fa & <-). apply in_concat in Ha as (ls & Hls & Ha). apply in_map_iff in Hls as (x & <- & Hx).
        exists x. split; [exact Hx|]. apply (proj1 (Forall_forall _ _) IH x Hx). exists a. split; [exact Ha|]. split; [exact Fa|reflexivity].
Qed.

(** Any expressions have no symbol lists *)
Lemma any_symbols x : is_any x = true -> symbols x = [].
Proof.
  induction x as [s|s| | |l IH|l IH|l r _ _] using item_ind'; cbn [is_any]; try discriminate; try reflexivity.
  - destruct l as [|y [|z r]]; try discriminate. intros H. inversion IH as [|? ? H1 _]; subst. rewrite symbols_cat. cbn [map].
    rewrite (H1 H). unfold cat_symbols. cbn [fold_left]. rewrite rotate_product. reflexivity.
  - destruct l as [|y [|z r]]; try discriminate. intros H. inversion IH as [|? ? H1 _]; subst. rewrite symbols_or by discriminate. cbn [map concat].
    rewrite (H1 H). reflexivity.
Qed.
Lemma any_lang x w : is_any x = true -> ~ lang x w.
Proof. intros H L. apply lang_symbols in L as (a & Ha & _). rewrite (any_symbols x H) in Ha. exact Ha. Qed.
Lemma any_states x : is_any x = true -> state_count x = 0.
Proof.
  induction x as [s|s| | |l IH|l IH|l r _ _] using item_ind'; cbn [is_any]; try discriminate; try reflexivity.
  - destruct l as [|y [|z r]]; try discriminate. intros H. inversion IH as [|? ? H1 _]; subst. cbn. rewrite (H1 H). reflexivity.
  - destruct l as [|y [|z r]]; try discriminate. intros H. inversion IH as [|? ? H1 _]; subst. cbn. rewrite (H1 H). reflexivity.
Qed.

(** Acceptance *)
Lemma accepts_item x other e : is_alg x = false -> accepts x other e = item_accepts x other e.
Proof. destruct x; cbn; intros H; try reflexivity. discriminate H. Qed.
Lemma item_accepts_spec x y : is_any x = false -> is_any y = false ->
  (item_accepts x y false = true <->
   symbols x <> [] /\ length (symbols y) <= length (symbols x) /\ forall l, In l (symbols y) -> In l (symbols x) /\ ~ In Fresh l).
Proof.
  intros Hx Hy. unfold item_accepts. rewrite Hx, Hy. cbn [orb andb]. rewrite orb_false_r.
  destruct (Nat.eqb_spec (length (symbols x)) 0) as [E|E]; cbn [orb].
  - split; [discriminate|]. intros [H _]. destruct (symbols x); [congruence|discriminate E].
  - destruct (Nat.ltb_spec (length (symbols x)) (length (symbols y))) as [L|L].
    + split; [discriminate|]. intros [_ [H _]]. lia.
    + rewrite forallb_forall. split.
      * intros H. split; [intros H0; rewrite H0 in E; exact (E eq_refl)|]. split; [exact L|]. intros l Hl. apply mem_list_spec. exact (H l Hl).
      * intros (_ & _ & H) l Hl. apply mem_list_spec. exact (H l Hl).
Qed.
Lemma equivalent_spec x y : is_any x = false -> is_any y = false ->
  (item_accepts x y true = true <->
   symbols x <> [] /\ length (symbols y) = length (symbols x) /\ forall l, In l (symbols y) -> In l (symbols x) /\ ~ In Fresh l).
Proof.
  intros Hx Hy. unfold item_accepts. rewrite Hx, Hy. cbn [orb andb].
  destruct (Nat.eqb_spec (length (symbols x)) 0) as [E|E]; cbn [orb].
  - split; [discriminate|]. intros [H _]. destruct (symbols x); [congruence|discriminate E].
  - destruct (Nat.ltb_spec (length (symbols x)) (length (symbols y))) as [L|L]; cbn [orb].
    + split; [discriminate|]. intros [_ [H _]]. lia.
    + destruct (Nat.eqb_spec (length (symbols x)) (length (symbols y))) as [M|M]; cbn [negb].
      * rewrite forallb_forall. split.
        -- intros H. split; [intros H0; rewrite H0 in E; exact (E eq_refl)|]. split; [symmetry; exact M|]. intros l Hl. apply mem_list_spec. exact (H l Hl).
        -- intros (_ & _ & H) l Hl. apply mem_list_spec. exact (H l Hl).
      * split; [discriminate|]. intros [_ [H _]]. congruence.
Qed.
(** An empty alternation is accepted by nothing but any, and accepts what has no words *)
Lemma accepts_empty x : is_any x = false -> accepts x (IOr []) false = false.
Proof.
  intros H. destruct (is_alg x) eqn:A; [destruct x; try discriminate A; reflexivity|]. rewrite accepts_item by exact A.
  destruct (item_accepts x (IOr []) false) eqn:E; [|reflexivity]. apply item_accepts_spec in E; [|exact H|reflexivity].
  destruct E as (_ & _ & E). destruct (E [Fresh] (or_introl eq_refl)) as [_ F]. exfalso. apply F. left; reflexivity.
Qed.
Lemma empty_accepts x : is_any x = false -> (accepts (IOr []) x false = true <-> symbols x = []).
Proof.
  intros H. change (accepts (IOr []) x false) with (item_accepts (IOr []) x false). rewrite item_accepts_spec by (reflexivity || exact H). split.
  - intros (_ & _ & E). destruct (symbols x) as [|l r]; [reflexivity|]. destruct (E l (or_introl eq_refl)) as [[<-|[]] F].
    exfalso. apply F. left; reflexivity.
  - intros ->. split; [discriminate|]. split; [cbn; lia|]. intros l [].
Qed.
