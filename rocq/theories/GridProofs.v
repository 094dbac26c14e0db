From Verif Require Import Base GridModel GridSpec.

Lemma set_nth_len {A} n (v : A) l : length (set_nth n v l) = length l.
Proof. revert n. induction l as [|x l IH]; intros [|n]; cbn; try reflexivity. rewrite IH. reflexivity. Qed.
Lemma set_nth_same {A} n (v : A) l : n < length l -> nth_error (set_nth n v l) n = Some v.
Proof. revert n. induction l as [|x l IH]; intros [|n]; cbn; intros H; try lia; [reflexivity|]. apply IH. lia. Qed.
Lemma set_nth_other {A} n m (v : A) l : n <> m -> nth_error (set_nth n v l) m = nth_error l m.
Proof. revert n m. induction l as [|x l IH]; intros [|n] [|m] H; cbn; try reflexivity; try congruence. apply IH. congruence. Qed.
Lemma nth_len {A} (l : list A) n x : nth_error l n = Some x -> n < length l.
Proof. intros H. apply nth_error_Some. rewrite H. discriminate. Qed.
Lemma set_nth_known {A} n (v u : A) l : nth_error l n = Some u -> nth_error (set_nth n v l) n = Some v.
Proof. intros H. apply set_nth_same. exact (nth_len _ _ _ H). Qed.
Lemma nth_snoc {A} (l : list A) x n y : nth_error (l ++ [x]) n = Some y -> nth_error l n = Some y \/ (n = length l /\ y = x).
Proof.
  intros H. destruct (Nat.lt_ge_cases n (length l)) as [L|L].
  - left. rewrite nth_error_app1 in H by exact L. exact H.
  - right. rewrite nth_error_app2 in H by exact L. pose proof (nth_len _ _ _ H) as K. cbn in K.
    replace (n - length l) with 0 in H by lia. cbn in H. split; [lia|congruence].
Qed.
Lemma nth_keep {A} (l r : list A) n y : nth_error l n = Some y -> nth_error (l ++ r) n = Some y.
Proof. intros H. rewrite nth_error_app1; [exact H|exact (nth_len _ _ _ H)]. Qed.

(** Nodes *)
Lemma node_repeat width height x y c : 
  match nth_error (empty_nodes width height) y with Some row => nth_error row x | None => None end = Some c -> c = None.
Proof.
  unfold empty_nodes. destruct (nth_error (repeat (repeat None width) height) y) as [row|] eqn:E; [|discriminate].
  apply nth_error_In, repeat_spec in E. subst row. intros H. apply nth_error_In, repeat_spec in H. exact H.
Qed.
Lemma repeat_nth {A} (a : A) n k : k < n -> nth_error (repeat a n) k = Some a.
Proof. revert k. induction n as [|n IH]; intros [|k] H; cbn; try lia; [reflexivity|]. apply IH. lia. Qed.
Lemma node_repeat_in width height x y : x < width -> y < height ->
  match nth_error (empty_nodes width height) y with Some row => nth_error row x | None => None end = Some None.
Proof. intros Hx Hy. unfold empty_nodes. rewrite (repeat_nth _ _ _ Hy). apply repeat_nth. exact Hx. Qed.
Lemma node_repeat_out width height x y c : 
  match nth_error (empty_nodes width height) y with Some row => nth_error row x | None => None end = Some c -> x < width /\ y < height.
Proof.
  unfold empty_nodes. destruct (nth_error (repeat (repeat None width) height) y) as [row|] eqn:E; [|discriminate].
  pose proof (nth_len _ _ _ E) as L. rewrite repeat_length in L. apply nth_error_In, repeat_spec in E. subst row.
  intros H. apply nth_len in H. rewrite repeat_length in H. split; assumption.
Qed.
Lemma fill_row_nth width : forall n x, nth_error (fill_row width n) x = if Nat.ltb x width then Some (Some (n + x)) else None.
Proof.
  induction width as [|w IH]; intros n x; cbn [fill_row].
  - destruct x; reflexivity.
  - destruct x as [|x]; cbn [nth_error]; [rewrite Nat.add_0_r; reflexivity|]. rewrite IH.
    change (Nat.ltb (S x) (S w)) with (Nat.ltb x w). destruct (Nat.ltb x w); [|reflexivity]. f_equal. f_equal. lia.
Qed.
Lemma fill_nth width height : forall n x y,
  match nth_error (fill width height n) y with Some row => nth_error row x | None => None end =
  if Nat.ltb x width && Nat.ltb y height then Some (Some (n + y * width + x)) else None.
Proof.
  induction height as [|h IH]; intros n x y; cbn [fill].
  - rewrite andb_false_r. destruct y; reflexivity.
  - destruct y as [|y]; cbn [nth_error].
    + rewrite fill_row_nth. change (Nat.ltb 0 (S h)) with true. rewrite andb_true_r. cbn. rewrite Nat.add_0_r. reflexivity.
    + rewrite IH. change (Nat.ltb (S y) (S h)) with (Nat.ltb y h). destruct (Nat.ltb x width && Nat.ltb y h); [|reflexivity].
      f_equal. f_equal. cbn. lia.
Qed.

Definition shape (L : lat) : Prop := forall x y, (x < l_width L /\ y < l_height L) <-> exists c, node_at L x y = Some c.
Lemma set_node_same L x y s c : node_at L x y = Some c -> node_at (set_node L x y s) x y = Some (Some s).
Proof.
  unfold node_at, set_node. destruct (nth_error (l_nodes L) y) as [row|] eqn:E; [|discriminate]. intros H. cbn [l_nodes].
  rewrite (set_nth_known _ _ _ _ E). exact (set_nth_known _ _ _ _ H).
Qed.
Lemma set_node_other L x y s x' y' : (x, y) <> (x', y') -> node_at (set_node L x y s) x' y' = node_at L x' y'.
Proof.
  intros N. unfold node_at, set_node. destruct (nth_error (l_nodes L) y) as [row|] eqn:E; [|reflexivity]. cbn [l_nodes].
  destruct (Nat.eq_dec y y') as [->|D].
  - rewrite (set_nth_known _ _ _ _ E), E. apply set_nth_other. congruence.
  - rewrite set_nth_other by exact D. reflexivity.
Qed.
Lemma set_node_static L x y s : l_fst (set_node L x y s) = l_fst L /\ l_width (set_node L x y s) = l_width L /\ l_height (set_node L x y s) = l_height L /\ l_err (set_node L x y s) = l_err L.
Proof. unfold set_node. destruct (nth_error (l_nodes L) y); repeat split; reflexivity. Qed.
Lemma set_node_shape L x y s c : node_at L x y = Some c -> shape L -> shape (set_node L x y s).
Proof.
  intros E H x' y'. destruct (set_node_static L x y s) as (_ & -> & -> & _). rewrite (H x' y').
  destruct (Nat.eq_dec x x') as [<-|D]; [destruct (Nat.eq_dec y y') as [<-|D]|].
  - rewrite (set_node_same _ _ _ _ _ E). split; intros _; [exists (Some s); reflexivity|exists c; exact E].
  - rewrite set_node_other by congruence. reflexivity.
  - rewrite set_node_other by congruence. reflexivity.
Qed.
Lemma in_range_node L x y : shape L -> in_range L x y = true -> exists c, node_at L (Z.to_nat x) (Z.to_nat y) = Some c.
Proof.
  intros S H. apply S. unfold in_range in H. rewrite !andb_true_iff, !Z.leb_le, !Z.ltb_lt in H. lia.
Qed.

Record Inv (w : world) : Prop := {
  v_bound : forall k f s, slot w k = Some (f, s) -> exists n, nth_error (fsts w) f = Some n /\ s < n;
  v_inj : forall k k' p, slot w k = Some p -> slot w k' = Some p -> k = k';
  v_lat : forall i L, nth_error (lats w) i = Some L -> shape L /\ exists s, nth_error (errs w) (l_err L) = Some (l_fst L, Some s);
  v_fst : forall i L, nth_error (lats w) i = Some L -> l_fst L < length (fsts w);
  v_err : forall e f s, nth_error (errs w) e = Some (f, s) -> f < length (fsts w)
}.

(** One place gets the next state of an FST *)
Lemma inv_assign w w' f n k :
  Inv w -> nth_error (fsts w) f = Some n -> slot w k = None -> fsts w' = set_nth f (S n) (fsts w) ->
  slot w' k = Some (f, n) -> (forall k', k' <> k -> slot w' k' = slot w k') ->
  (forall i L, nth_error (lats w') i = Some L -> shape L /\ (exists s, nth_error (errs w') (l_err L) = Some (l_fst L, Some s)) /\ l_fst L < length (fsts w)) ->
  (forall e g s, nth_error (errs w') e = Some (g, s) -> g < length (fsts w)) ->
  (forall k1 k2 : key, {k1 = k2} + {k1 <> k2}) -> Inv w'.
Proof.
  intros I Hf Hk Hs Hk' Ho Hl He dec. constructor.
  - intros k0 g s H. rewrite Hs. destruct (dec k0 k) as [->|D].
    + rewrite Hk' in H. injection H as <- <-. exists (S n). split; [exact (set_nth_known _ _ _ _ Hf)|lia].
    + rewrite (Ho _ D) in H. destruct (v_bound w I _ _ _ H) as (m & Hm & L). destruct (Nat.eq_dec f g) as [<-|E].
      * rewrite Hf in Hm. injection Hm as <-. exists (S n). split; [exact (set_nth_known _ _ _ _ Hf)|lia].
      * exists m. rewrite set_nth_other by exact E. split; assumption.
  - intros k1 k2 p H1 H2. destruct (dec k1 k) as [->|D1]; destruct (dec k2 k) as [->|D2]; [reflexivity|exfalso|exfalso|].
    + rewrite Hk' in H1. injection H1 as <-. rewrite (Ho _ D2) in H2. destruct (v_bound w I _ _ _ H2) as (m & Hm & L). rewrite Hf in Hm. injection Hm as <-. lia.
    + rewrite Hk' in H2. injection H2 as <-. rewrite (Ho _ D1) in H1. destruct (v_bound w I _ _ _ H1) as (m & Hm & L). rewrite Hf in Hm. injection Hm as <-. lia.
    + rewrite (Ho _ D1) in H1. rewrite (Ho _ D2) in H2. exact (v_inj w I _ _ _ H1 H2).
  - intros i L H. destruct (Hl i L H) as (A & B & _). split; assumption.
  - intros i L H. rewrite Hs, set_nth_len. apply (Hl i L H).
  - intros e g s H. rewrite Hs, set_nth_len. exact (He e g s H).
Qed.
Lemma key_dec (k1 k2 : key) : {k1 = k2} + {k1 <> k2}.
Proof. decide equality; apply Nat.eq_dec. Qed.

(** Requests *)
Lemma state_cases w i x y L s w' : Inv w -> nth_error (lats w) i = Some L -> state w i x y = Some (s, w') ->
  (w' = w /\ slot w (key_of L i x y) = Some (l_fst L, s)) \/
  (slot w (key_of L i x y) = None /\ nth_error (fsts w) (l_fst L) = Some s /\ in_range L x y = true /\
   w' = World (set_nth (l_fst L) (S s) (fsts w)) (errs w) (set_nth i (set_node L (Z.to_nat x) (Z.to_nat y) s) (lats w)) /\
   node_at L (Z.to_nat x) (Z.to_nat y) = Some None).
Proof.
  intros I HL. unfold state, key_of. rewrite HL. destruct (in_range L x y) eqn:R.
  - destruct (node_at L (Z.to_nat x) (Z.to_nat y)) as [[s0|]|] eqn:N; [| |discriminate].
    + intros H. injection H as -> ->. left. split; [reflexivity|]. cbn [slot]. rewrite HL, N. reflexivity.
    + unfold add_state. destruct (nth_error (fsts w) (l_fst L)) as [n|] eqn:F; [|discriminate]. cbn [fsts errs lats]. intros H. injection H as <- <-.
      right. split; [cbn [slot]; rewrite HL, N; reflexivity|]. split; [reflexivity|]. split; [reflexivity|]. split; [reflexivity|reflexivity].
  - destruct (v_lat w I i L HL) as (_ & s0 & E). rewrite E. intros H. injection H as -> ->. left. split; [reflexivity|].
    cbn [slot]. rewrite E. reflexivity.
Qed.
Lemma state_total w i x y L : Inv w -> nth_error (lats w) i = Some L -> exists s w', state w i x y = Some (s, w').
Proof.
  intros I HL. unfold state. rewrite HL. destruct (in_range L x y) eqn:R.
  - destruct (v_lat w I i L HL) as (S & _). destruct (in_range_node L x y S R) as (c & ->). destruct c as [s|]; [exists s, w; reflexivity|].
    unfold add_state. destruct (nth_error (fsts w) (l_fst L)) as [n|] eqn:F.
    + eexists; eexists; reflexivity.
    + apply nth_error_None in F. pose proof (v_fst w I i L HL). lia.
  - destruct (v_lat w I i L HL) as (_ & s0 & E). rewrite E. exists s0, w. reflexivity.
Qed.
Lemma slot_assigned w i L x y n c : nth_error (lats w) i = Some L -> node_at L x y = Some c ->
  let w' := World (set_nth (l_fst L) (S n) (fsts w)) (errs w) (set_nth i (set_node L x y n) (lats w)) in
  slot w' (KNode i x y) = Some (l_fst L, n) /\ forall k, k <> KNode i x y -> slot w' k = slot w k.
Proof.
  intros HL N w'. destruct (set_node_static L x y n) as (E1 & _ & _ & _). split.
  - cbn [slot w' lats]. rewrite (set_nth_known _ _ _ _ HL), (set_node_same _ _ _ _ _ N), E1. reflexivity.
  - intros [e|j x' y'] D; cbn [slot w' lats errs]; [reflexivity|]. destruct (Nat.eq_dec i j) as [<-|E].
    + rewrite (set_nth_known _ _ _ _ HL), HL, E1. rewrite set_node_other by congruence. reflexivity.
    + rewrite set_nth_other by exact E. reflexivity.
Qed.
Lemma inv_state w i x y s w' : Inv w -> state w i x y = Some (s, w') -> Inv w'.
Proof.
  intros I H. destruct (nth_error (lats w) i) as [L|] eqn:HL; [|unfold state in H; rewrite HL in H; discriminate H].
  destruct (state_cases w i x y L s w' I HL H) as [[-> _]|(K & F & R & -> & N)]; [exact I|].
  unfold key_of in K. rewrite R in K. destruct (slot_assigned w i L _ _ s _ HL N) as [A B].
  destruct (set_node_static L (Z.to_nat x) (Z.to_nat y) s) as (E1 & _ & _ & E4).
  apply (inv_assign w _ (l_fst L) s (KNode i (Z.to_nat x) (Z.to_nat y)) I F K); [reflexivity|exact A|exact B| | | ].
  - cbn [lats errs]. intros j M Hj. destruct (Nat.eq_dec i j) as [<-|E].
    + rewrite (set_nth_known _ _ _ _ HL) in Hj. injection Hj as <-. rewrite E1, E4.
      destruct (v_lat w I i L HL) as (Sh & Er). split; [exact (set_node_shape _ _ _ _ _ N Sh)|]. split; [exact Er|exact (v_fst w I i L HL)].
    + rewrite set_nth_other in Hj by exact E. destruct (v_lat w I j M Hj) as (Sh & Er). split; [exact Sh|]. split; [exact Er|exact (v_fst w I j M Hj)].
  - cbn [errs]. exact (v_err w I).
  - exact key_dec.
Qed.

(** Other operations *)
Lemma inv_grow w f n m : Inv w -> nth_error (fsts w) f = Some n -> n <= m -> Inv (World (set_nth f m (fsts w)) (errs w) (lats w)).
Proof.
  intros I F L. constructor; cbn [fsts errs lats].
  - intros k g s H. change (slot w k = Some (g, s)) in H. destruct (v_bound w I _ _ _ H) as (p & Hp & Lt).
    destruct (Nat.eq_dec f g) as [<-|E].
    + rewrite F in Hp. injection Hp as <-. exists m. split; [exact (set_nth_known _ _ _ _ F)|lia].
    + exists p. rewrite set_nth_other by exact E. split; assumption.
  - intros k k' p H H'. exact (v_inj w I k k' p H H').
  - exact (v_lat w I).
  - intros i M H. rewrite set_nth_len. exact (v_fst w I i M H).
  - intros e g s H. rewrite set_nth_len. exact (v_err w I e g s H).
Qed.
Lemma slot_new_err w k p f : slot (World (fsts w) (errs w ++ [(f, None)]) (lats w)) k = Some p <-> slot w k = Some p.
Proof.
  destruct k as [e|i x y]; cbn [slot errs lats]; [|reflexivity]. destruct (Nat.lt_ge_cases e (length (errs w))) as [L|L].
  - rewrite nth_error_app1 by exact L. reflexivity.
  - rewrite nth_error_app2 by exact L. rewrite (proj2 (nth_error_None _ _) L). destruct (e - length (errs w)) as [|q]; cbn; [split; discriminate|].
    destruct q; split; discriminate.
Qed.
Lemma inv_new_node w f : Inv w -> f < length (fsts w) -> Inv (World (fsts w) (errs w ++ [(f, None)]) (lats w)).
Proof.
  intros I F. constructor.
  - intros k g s H. apply slot_new_err in H. exact (v_bound w I k g s H).
  - intros k k' p H H'. apply slot_new_err in H. apply slot_new_err in H'. exact (v_inj w I k k' p H H').
  - cbn [lats errs]. intros i L H. destruct (v_lat w I i L H) as (Sh & s & E). split; [exact Sh|]. exists s. apply nth_keep. exact E.
  - exact (v_fst w I).
  - cbn [errs fsts]. intros e g s H. apply nth_snoc in H as [H|[_ H]]; [exact (v_err w I e g s H)|]. injection H as -> ->. exact F.
Qed.
Lemma inv_new_fst w : Inv w -> Inv (World (fsts w ++ [0]) (errs w) (lats w)).
Proof.
  intros I. constructor; cbn [fsts errs lats].
  - intros k g s H. change (slot w k = Some (g, s)) in H. destruct (v_bound w I _ _ _ H) as (p & Hp & Lt). exists p. split; [apply nth_keep; exact Hp|exact Lt].
  - intros k k' p H H'. exact (v_inj w I k k' p H H').
  - exact (v_lat w I).
  - intros i L H. rewrite app_length. pose proof (v_fst w I i L H). lia.
  - intros e g s H. rewrite app_length. pose proof (v_err w I e g s H). lia.
Qed.
(** An error node gets its first state *)
Lemma inv_err w e f0 f n : Inv w -> nth_error (errs w) e = Some (f0, None) -> nth_error (fsts w) f = Some n ->
  Inv (World (set_nth f (S n) (fsts w)) (set_nth e (f, Some n) (errs w)) (lats w)).
Proof.
  intros I E F. apply (inv_assign w _ f n (KErr e) I F); cbn [fsts errs lats].
  - cbn [slot]. rewrite E. reflexivity.
  - reflexivity.
  - cbn [slot errs]. rewrite (set_nth_known _ _ _ _ E). reflexivity.
  - intros [e'|i x y] D; cbn [slot errs lats]; [|reflexivity]. rewrite set_nth_other by congruence. reflexivity.
  - intros i L H. destruct (v_lat w I i L H) as (Sh & s & Er). split; [exact Sh|]. split; [|exact (v_fst w I i L H)].
    exists s. rewrite set_nth_other; [exact Er|]. intros ->. rewrite E in Er. discriminate Er.
  - intros e' g s H. destruct (Nat.eq_dec e e') as [<-|D].
    + rewrite (set_nth_known _ _ _ _ E) in H. injection H as <- <-. exact (nth_len _ _ _ F).
    + rewrite set_nth_other in H by exact D. exact (v_err w I e' g s H).
  - exact key_dec.
Qed.
Lemma inv_lattice w f e s n width height (populate : bool) : Inv w -> nth_error (errs w) e = Some (f, Some s) -> nth_error (fsts w) f = Some n ->
  Inv (World (set_nth f (if populate then n + width * height else n) (fsts w)) (errs w)
        (lats w ++ [Lat f width height (if populate then fill width height n else empty_nodes width height) e])).
Proof.
  intros I E F. set (L := Lat f width height (if populate then fill width height n else empty_nodes width height) e).
  set (m := if populate then n + width * height else n).
  assert (Sl : forall k p, slot (World (set_nth f m (fsts w)) (errs w) (lats w ++ [L])) k = Some p ->
             slot w k = Some p \/ (exists x y, k = KNode (length (lats w)) x y /\ populate = true /\ x < width /\ y < height /\ p = (f, n + y * width + x))).
  { intros [e'|i x y] p; cbn [slot errs lats]; [intros H; left; exact H|]. destruct (nth_error (lats w ++ [L]) i) as [M|] eqn:HM; [|discriminate].
    apply nth_snoc in HM as [HM|[-> ->]].
    - rewrite HM. intros H. left. exact H.
    - intros H. right. unfold node_at in H. cbn [l_nodes L] in H. destruct populate.
      + rewrite fill_nth in H. destruct (Nat.ltb x width && Nat.ltb y height) eqn:B; [|discriminate H]. injection H as <-.
        apply andb_true_iff in B as [B1 B2]. apply Nat.ltb_lt in B1, B2. exists x, y. repeat split; assumption.
      + destruct (match nth_error (empty_nodes width height) y with Some row => nth_error row x | None => None end) as [c|] eqn:C; [|discriminate H].
        apply node_repeat in C. subst c. discriminate H. }
  assert (Lm : n <= m) by (unfold m; destruct populate; lia).
  constructor.
  - intros k g t H. cbn [fsts]. apply Sl in H as [H|(x & y & -> & P & Bx & By & Q)].
    + destruct (v_bound w I _ _ _ H) as (p & Hp & Lt). destruct (Nat.eq_dec f g) as [<-|D].
      * rewrite F in Hp. injection Hp as <-. exists m. split; [exact (set_nth_known _ _ _ _ F)|lia].
      * exists p. rewrite set_nth_other by exact D. split; assumption.
    + injection Q as -> ->. exists m. split; [exact (set_nth_known _ _ _ _ F)|]. unfold m. rewrite P. nia.
  - intros k k' p H H'. apply Sl in H. apply Sl in H'. destruct H as [H|(x & y & -> & P & Bx & By & ->)], H' as [H'|(x' & y' & -> & P' & Bx' & By' & Q)].
    + exact (v_inj w I k k' p H H').
    + subst p. exfalso. destruct (v_bound w I _ _ _ H) as (q & Hq & Lt). rewrite F in Hq. injection Hq as <-. lia.
    + exfalso. destruct (v_bound w I _ _ _ H') as (q & Hq & Lt). rewrite F in Hq. injection Hq as <-. lia.
    + injection Q as Q. assert (y = y' /\ x = x') as [-> ->]; [|reflexivity].
      assert (y = y') as <- by (destruct (Nat.lt_trichotomy y y') as [?|[?|?]]; [nia|assumption|nia]). split; [reflexivity|lia].
  - cbn [lats errs]. intros i M H. apply nth_snoc in H as [H|[-> ->]]; [exact (v_lat w I i M H)|].
    split; [|exists s; exact E]. intros x y. unfold node_at. cbn [l_nodes l_width l_height L]. destruct populate.
    + rewrite fill_nth. split.
      * intros [Hx Hy]. apply Nat.ltb_lt in Hx, Hy. rewrite Hx, Hy. eexists. reflexivity.
      * intros (c & Hc). destruct (Nat.ltb x width && Nat.ltb y height) eqn:B; [|discriminate Hc]. apply andb_true_iff in B as [B1 B2]. apply Nat.ltb_lt in B1, B2. split; assumption.
    + split; [intros [Hx Hy]; exists None; exact (node_repeat_in _ _ _ _ Hx Hy)|intros (c & Hc); exact (node_repeat_out _ _ _ _ _ Hc)].
  - cbn [lats fsts]. intros i M H. rewrite set_nth_len. apply nth_snoc in H as [H|[-> ->]]; [exact (v_fst w I i M H)|exact (nth_len _ _ _ F)].
  - cbn [errs fsts]. intros e' g t H. rewrite set_nth_len. exact (v_err w I e' g t H).
Qed.
Lemma set_nth_id {A} n (v : A) l : nth_error l n = Some v -> set_nth n v l = l.
Proof. revert n. induction l as [|x l IH]; intros [|n] H; cbn in *; try reflexivity; [congruence|]. rewrite (IH n H). reflexivity. Qed.
Lemma set_nth_twice {A} n (u v : A) l : set_nth n u (set_nth n v l) = set_nth n u l.
Proof. revert n. induction l as [|x l IH]; intros [|n]; cbn; try reflexivity. rewrite IH. reflexivity. Qed.
Lemma inv_new_lattice w width height f e populate w' : Inv w -> legal w (NewLattice width height f e populate) ->
  new_lattice w width height f e populate = Some w' -> Inv w'.
Proof.
  intros I G. unfold new_lattice. cbn [legal] in G. destruct (nth_error (errs w) e) as [[f0 s]|] eqn:E; [|discriminate].
  destruct (nth_error (fsts w) f) as [n|] eqn:F; [|discriminate]. destruct s as [k|].
  - subst f0. intros H. injection H as <-. rewrite (set_nth_id _ _ _ E). exact (inv_lattice w f e k n width height populate I E F).
  - intros H. injection H as <-.
    pose proof (inv_err w e f0 f n I E F) as J.
    pose proof (inv_lattice _ f e n (S n) width height populate J (set_nth_known _ _ _ _ E) (set_nth_known _ _ _ _ F)) as K.
    cbn [fsts errs lats] in K. rewrite set_nth_twice in K. exact K.
Qed.
Lemma inv_step w o w' : Inv w -> legal w o -> step w o = Some w' -> Inv w'.
Proof.
  intros I G H. destruct o as [|f|width height f e p|f|i x y]; cbn [step] in H.
  - injection H as <-. exact (inv_new_fst w I).
  - destruct (Nat.ltb_spec f (length (fsts w))) as [L|L]; [|discriminate H]. injection H as <-. exact (inv_new_node w f I L).
  - exact (inv_new_lattice w width height f e p w' I G H).
  - unfold add_state in H. destruct (nth_error (fsts w) f) as [n|] eqn:F; [|discriminate H]. cbn in H. injection H as <-.
    apply (inv_grow w f n (S n) I F). lia.
  - destruct (state w i x y) as [[s w1]|] eqn:E; [|discriminate H]. cbn in H. injection H as <-. exact (inv_state w i x y s w1 I E).
Qed.
Lemma inv_initial : Inv initial.
Proof.
  constructor.
  - intros [[|[|e]]|i x y] f s H; cbn in H; try discriminate H. destruct i; discriminate H.
  - intros [[|[|e]]|i x y] k' p H; cbn in H; try discriminate H. destruct i; discriminate H.
  - intros [|i] L H; discriminate H.
  - intros [|i] L H; discriminate H.
  - intros [|[|e]] f s H; cbn in H; try discriminate H. injection H as <- <-. cbn. lia.
Qed.
Lemma reached_inv w : reached w -> Inv w.
Proof. induction 1 as [|w o w' _ IH G H]; [exact inv_initial|exact (inv_step w o w' IH G H)]. Qed.

(** What stays *)
Definition stays (w w' : world) : Prop :=
  (forall k p, slot w k = Some p -> slot w' k = Some p) /\
  (forall i L, nth_error (lats w) i = Some L -> exists L', nth_error (lats w') i = Some L' /\
     l_fst L' = l_fst L /\ l_width L' = l_width L /\ l_height L' = l_height L /\ l_err L' = l_err L).
Lemma stays_refl w : stays w w.
Proof. split; [intros k p H; exact H|]. intros i L H. exists L. repeat split; try reflexivity. exact H. Qed.
Lemma stays_trans a b c : stays a b -> stays b c -> stays a c.
Proof.
  intros [A1 A2] [B1 B2]. split; [intros k p H; apply B1, A1; exact H|]. intros i L H. destruct (A2 i L H) as (L1 & H1 & E1 & E2 & E3 & E4).
  destruct (B2 i L1 H1) as (L2 & H2 & F1 & F2 & F3 & F4). exists L2. split; [exact H2|]. repeat split; congruence.
Qed.
Lemma stays_state w i x y s w' : Inv w -> state w i x y = Some (s, w') -> stays w w'.
Proof.
  intros I H. destruct (nth_error (lats w) i) as [L|] eqn:HL; [|unfold state in H; rewrite HL in H; discriminate H].
  destruct (state_cases w i x y L s w' I HL H) as [[-> _]|(K & F & R & -> & N)]; [apply stays_refl|].
  unfold key_of in K. rewrite R in K. destruct (slot_assigned w i L _ _ s _ HL N) as [A B]. split.
  - intros k p Hk. rewrite B; [exact Hk|]. intros ->. rewrite K in Hk. discriminate Hk.
  - cbn [lats]. intros j M Hj. destruct (Nat.eq_dec i j) as [<-|D].
    + rewrite HL in Hj. injection Hj as <-. exists (set_node L (Z.to_nat x) (Z.to_nat y) s). split; [exact (set_nth_known _ _ _ _ HL)|]. apply set_node_static.
    + exists M. rewrite set_nth_other by exact D. split; [exact Hj|]. repeat split; reflexivity.
Qed.
Lemma stays_step w o w' : Inv w -> legal w o -> step w o = Some w' -> stays w w'.
Proof.
  intros I G H. destruct o as [|f|width height f e p|f|i x y]; cbn [step] in H.
  - injection H as <-. exact (stays_refl w).
  - destruct (Nat.ltb f (length (fsts w))); [|discriminate H]. injection H as <-. split; [intros k q Hk; apply slot_new_err; exact Hk|exact (proj2 (stays_refl w))].
  - unfold new_lattice in H. cbn [legal] in G. destruct (nth_error (errs w) e) as [[f0 s]|] eqn:E; [|discriminate H].
    destruct (nth_error (fsts w) f) as [n|] eqn:F; [|discriminate H].
    destruct (match s with Some k => (k, n) | None => (n, S n) end) as [s' n'] eqn:M. injection H as <-. split.
    + intros [e'|i x y] q; cbn [slot errs lats].
      * destruct (Nat.eq_dec e e') as [<-|D]; [|rewrite set_nth_other by exact D; intros Hk; exact Hk].
        rewrite E, (set_nth_known _ _ _ _ E). destruct s as [k|]; [|discriminate]. injection M as <- <-. subst f0. intros Hk; exact Hk.
      * destruct (nth_error (lats w) i) as [L|] eqn:HL; [|discriminate]. rewrite (nth_keep _ _ _ _ HL). intros Hk; exact Hk.
    + cbn [lats]. intros i L HL. exists L. split; [exact (nth_keep _ _ _ _ HL)|]. repeat split; reflexivity.
  - unfold add_state in H. destruct (nth_error (fsts w) f) as [n|] eqn:F; [|discriminate H]. cbn in H. injection H as <-. exact (stays_refl w).
  - destruct (state w i x y) as [[s w1]|] eqn:E; [|discriminate H]. cbn in H. injection H as <-. exact (stays_state w i x y s w1 I E).
Qed.
Lemma later_stays w w' : later w w' -> Inv w -> Inv w' /\ stays w w'.
Proof.
  induction 1 as [w|w o w1 w2 G H _ IH]; intros I; [split; [exact I|apply stays_refl]|].
  destruct (IH (inv_step w o w1 I G H)) as [J K]. split; [exact J|]. exact (stays_trans _ _ _ (stays_step w o w1 I G H) K).
Qed.
Lemma state_slot w i x y s w' L : Inv w -> nth_error (lats w) i = Some L -> state w i x y = Some (s, w') -> slot w' (key_of L i x y) = Some (l_fst L, s).
Proof.
  intros I HL H. destruct (state_cases w i x y L s w' I HL H) as [[-> K]|(K & F & R & -> & N)]; [exact K|].
  unfold key_of. rewrite R. exact (proj1 (slot_assigned w i L _ _ s _ HL N)).
Qed.
Lemma key_static L L' i x y : l_width L' = l_width L -> l_height L' = l_height L -> l_err L' = l_err L -> key_of L' i x y = key_of L i x y.
Proof. intros E1 E2 E3. unfold key_of, in_range. rewrite E1, E2, E3. reflexivity. Qed.
Lemma state_known w i x y L f s : Inv w -> nth_error (lats w) i = Some L -> slot w (key_of L i x y) = Some (f, s) -> state w i x y = Some (s, w).
Proof.
  intros I HL K. destruct (state_total w i x y L I HL) as (s0 & w0 & H). rewrite H.
  destruct (state_cases w i x y L s0 w0 I HL H) as [[-> K']|(K' & _)]; rewrite K in K'; [injection K' as -> ->; reflexivity|discriminate K'].
Qed.
(** A state once given stays *)
Lemma same_again w i x y s w1 w2 : reached w -> state w i x y = Some (s, w1) -> later w1 w2 -> state w2 i x y = Some (s, w2).
Proof.
  intros R H T. pose proof (reached_inv w R) as I. destruct (nth_error (lats w) i) as [L|] eqn:HL; [|unfold state in H; rewrite HL in H; discriminate H].
  pose proof (inv_state w i x y s w1 I H) as I1. destruct (later_stays w1 w2 T I1) as [I2 S2].
  destruct (stays_trans _ _ _ (stays_state w i x y s w1 I H) S2) as [_ Q]. destruct (Q i L HL) as (L2 & H2 & E1 & E2 & E3 & E4).
  apply (state_known w2 i x y L2 (l_fst L) s I2 H2). rewrite (key_static L L2 i x y E2 E3 E4).
  apply (proj1 S2). exact (state_slot w i x y s w1 L I HL H).
Qed.
(** Requests give equal states exactly for equal places *)
Lemma requests_slots l : forall w ss w', Inv w -> requests w l = Some (ss, w') ->
  Inv w' /\ stays w w' /\
  forall a i x y L, nth_error l a = Some (i, x, y) -> nth_error (lats w) i = Some L ->
    exists s, nth_error ss a = Some s /\ slot w' (key_of L i x y) = Some (l_fst L, s).
Proof.
  induction l as [|[[i x] y] l IH]; intros w ss w' I H; cbn [requests] in H.
  - injection H as <- <-. split; [exact I|]. split; [apply stays_refl|]. intros [|a] ? ? ? ? K; discriminate K.
  - destruct (state w i x y) as [[s w1]|] eqn:E; [|discriminate H]. destruct (requests w1 l) as [[ss' w2]|] eqn:F; [|discriminate H]. injection H as <- <-.
    destruct (IH w1 ss' w2 (inv_state w i x y s w1 I E) F) as (I2 & S2 & P). pose proof (stays_state w i x y s w1 I E) as S1.
    split; [exact I2|]. split; [exact (stays_trans _ _ _ S1 S2)|]. intros [|a] j u v L Ha HL; cbn [nth_error] in Ha.
    + injection Ha as <- <- <-. exists s. split; [reflexivity|]. apply (proj1 S2). exact (state_slot w i x y s w1 L I HL E).
    + destruct (proj2 S1 j L HL) as (L1 & H1 & E1 & E2 & E3 & E4). destruct (P a j u v L1 Ha H1) as (t & Ht & K). exists t. split; [exact Ht|].
      rewrite (key_static L L1 j u v E2 E3 E4), E1 in K. exact K.
Qed.
Lemma requests_pattern w l ss w' a b i x y j u v s t L M : reached w -> requests w l = Some (ss, w') ->
  nth_error l a = Some (i, x, y) -> nth_error l b = Some (j, u, v) -> nth_error ss a = Some s -> nth_error ss b = Some t ->
  nth_error (lats w) i = Some L -> nth_error (lats w) j = Some M -> l_fst L = l_fst M ->
  (s = t <-> key_of L i x y = key_of M j u v).
Proof.
  intros R H Ha Hb Hs Ht HL HM F. destruct (requests_slots l w ss w' (reached_inv w R) H) as (I & _ & P).
  destruct (P a i x y L Ha HL) as (s' & Hs' & K1). destruct (P b j u v M Hb HM) as (t' & Ht' & K2).
  rewrite Hs in Hs'. injection Hs' as <-. rewrite Ht in Ht'. injection Ht' as <-. split.
  - intros ->. rewrite F in K1. exact (v_inj w' I _ _ _ K1 K2).
  - intros E. rewrite E in K1. rewrite K1 in K2. congruence.
Qed.
Lemma requests_total l : forall w, reached w -> Forall (fun q => exists L, nth_error (lats w) (fst (fst q)) = Some L) l ->
  exists ss w', requests w l = Some (ss, w') /\ length ss = length l.
Proof.
  induction l as [|[[i x] y] l IH]; intros w R H; cbn [requests]; [exists [], w; split; reflexivity|].
  inversion H as [|? ? (L & HL) H2]; subst. cbn [fst] in HL. destruct (state_total w i x y L (reached_inv w R) HL) as (s & w1 & E). rewrite E.
  destruct (IH w1) as (ss & w2 & F & G).
  - apply (R_step w (Request i x y) w1 R Logic.I). cbn [step]. rewrite E. reflexivity.
  - apply Forall_forall. intros q Hq. destruct (proj1 (Forall_forall _ _) H2 q Hq) as (M & HM).
    destruct (proj2 (stays_state w i x y s w1 (reached_inv w R) E) _ M HM) as (M' & HM' & _). exists M'. exact HM'.
  - rewrite F. exists (s :: ss), w2. split; [reflexivity|]. cbn. rewrite G. reflexivity.
Qed.
(** A new place gets the next state, a known one changes nothing *)
Lemma request_effect w i x y L s w' : reached w -> nth_error (lats w) i = Some L -> state w i x y = Some (s, w') ->
  match slot w (key_of L i x y) with
  | Some (f, t) => s = t /\ f = l_fst L /\ w' = w
  | None => nth_error (fsts w) (l_fst L) = Some s /\ fsts w' = set_nth (l_fst L) (S s) (fsts w)
  end.
Proof.
  intros R HL H. destruct (state_cases w i x y L s w' (reached_inv w R) HL H) as [[-> K]|(K & F & _ & -> & _)]; rewrite K.
  - split; [reflexivity|]. split; reflexivity.
  - split; [exact F|reflexivity].
Qed.
(** A populated lattice is numbered by rows *)
Lemma populated w width height f e w' n : reached w -> legal w (NewLattice width height f e true) -> nth_error (fsts w) f = Some n ->
  new_lattice w width height f e true = Some w' ->
  exists n', (n' = n \/ n' = S n) /\ nth_error (fsts w') f = Some (n' + width * height) /\
  forall x y, x < width -> y < height -> state w' (length (lats w)) (Z.of_nat x) (Z.of_nat y) = Some (n' + y * width + x, w').
Proof.
  intros R G F H. pose proof (inv_new_lattice w width height f e true w' (reached_inv w R) G H) as I.
  unfold new_lattice in H. destruct (nth_error (errs w) e) as [[f0 s]|] eqn:E; [|discriminate H]. rewrite F in H.
  set (n' := match s with Some _ => n | None => S n end).
  assert (W : exists s', w' = World (set_nth f (n' + width * height) (fsts w)) (set_nth e (f, Some s') (errs w)) (lats w ++ [Lat f width height (fill width height n') e])).
  { destruct s as [k|]; injection H as <-; eexists; reflexivity. }
  destruct W as (s' & W). exists n'. split; [unfold n'; destruct s; [left|right]; reflexivity|]. split.
  - rewrite W. cbn [fsts]. exact (set_nth_known _ _ _ _ F).
  - intros x y Hx Hy.
    assert (HL : nth_error (lats w') (length (lats w)) = Some (Lat f width height (fill width height n') e)).
    { rewrite W. cbn [lats]. rewrite nth_error_app2 by lia. rewrite Nat.sub_diag. reflexivity. }
    apply (state_known w' _ _ _ _ f _ I HL). unfold key_of, in_range. cbn [l_width l_height l_err].
    assert (B : (Z.leb 0 (Z.of_nat x) && Z.ltb (Z.of_nat x) (Z.of_nat width) && (Z.leb 0 (Z.of_nat y) && Z.ltb (Z.of_nat y) (Z.of_nat height)))%Z = true)
      by (rewrite !andb_true_iff, !Z.leb_le, !Z.ltb_lt; lia). rewrite B.
    rewrite !Nat2Z.id. cbn [slot]. rewrite HL. unfold node_at. cbn [l_nodes l_fst]. rewrite fill_nth.
    apply Nat.ltb_lt in Hx, Hy. rewrite Hx, Hy. reflexivity.
Qed.
(** Lattices on two FSTs with the default error node *)
Lemma shared_error : exists w s w1 t w2, reached_any w /\ length (fsts w) = 3 /\
  state w 1 0 0 = Some (s, w1) /\ state w1 1 (-1) 0 = Some (t, w2) /\ s = t.
Proof.
  pose (w0 := World [0; 0; 0] [(1, None)] []).
  pose (w1 := World [1; 0; 0] [(0, Some 0)] [Lat 0 2 2 (empty_nodes 2 2) 0]).
  pose (w2 := World [1; 0; 0] [(2, Some 0)] [Lat 0 2 2 (empty_nodes 2 2) 0; Lat 2 2 2 (empty_nodes 2 2) 0]).
  pose (w3 := World [1; 0; 1] [(2, Some 0)] [Lat 0 2 2 (empty_nodes 2 2) 0; Lat 2 2 2 [[Some 0; None]; [None; None]] 0]).
  exists w2, 0, w3, 0, w3. split.
  - apply (A_step w1 (NewLattice 2 2 2 0 false)); [|reflexivity]. apply (A_step w0 (NewLattice 2 2 0 0 false)); [|reflexivity].
    apply (A_step initial NewFst); [exact A_init|reflexivity].
  - split; [reflexivity|]. split; [reflexivity|]. split; reflexivity.
Qed.
Lemma key_eq L i x y M j u v : key_of L i x y = key_of M j u v <->
  match in_range L x y, in_range M u v with
  | true, true => i = j /\ x = u /\ y = v
  | false, false => l_err L = l_err M
  | _, _ => False
  end.
Proof.
  unfold key_of. destruct (in_range L x y) eqn:A, (in_range M u v) eqn:B.
  - unfold in_range in A, B. rewrite !andb_true_iff, !Z.leb_le in A, B. split.
    + intros H. injection H as -> Hx Hy. split; [reflexivity|lia].
    + intros (-> & -> & ->). reflexivity.
  - split; [discriminate|intros []].
  - split; [discriminate|intros []].
  - split; [intros H; injection H as H; exact H|intros ->; reflexivity].
Qed.
Lemma requests_equal w l ss w' a b i x y j u v s t L M : reached w -> requests w l = Some (ss, w') ->
  nth_error l a = Some (i, x, y) -> nth_error l b = Some (j, u, v) -> nth_error ss a = Some s -> nth_error ss b = Some t ->
  nth_error (lats w) i = Some L -> nth_error (lats w) j = Some M -> l_fst L = l_fst M ->
  (s = t <-> match in_range L x y, in_range M u v with
             | true, true => i = j /\ x = u /\ y = v
             | false, false => l_err L = l_err M
             | _, _ => False
             end).
Proof. intros R H Ha Hb Hs Ht HL HM F. rewrite <- key_eq. exact (requests_pattern w l ss w' a b i x y j u v s t L M R H Ha Hb Hs Ht HL HM F). Qed.
Lemma requests_order w l ss w1 l' ss' w2 a b a' b' q r s t s' t' L M : reached w ->
  requests w l = Some (ss, w1) -> requests w l' = Some (ss', w2) ->
  nth_error l a = Some q -> nth_error l b = Some r -> nth_error l' a' = Some q -> nth_error l' b' = Some r ->
  nth_error ss a = Some s -> nth_error ss b = Some t -> nth_error ss' a' = Some s' -> nth_error ss' b' = Some t' ->
  nth_error (lats w) (fst (fst q)) = Some L -> nth_error (lats w) (fst (fst r)) = Some M -> l_fst L = l_fst M ->
  (s = t <-> s' = t').
Proof.
  destruct q as [[i x] y], r as [[j u] v]. cbn [fst]. intros R H H' A B A' B' S1 S2 S3 S4 HL HM F.
  rewrite (requests_pattern w l ss w1 a b i x y j u v s t L M R H A B S1 S2 HL HM F).
  rewrite (requests_pattern w l' ss' w2 a' b' i x y j u v s' t' L M R H' A' B' S3 S4 HL HM F). reflexivity.
Qed.
Lemma out_of_range w i x y L s w' : reached w -> nth_error (lats w) i = Some L -> in_range L x y = false -> state w i x y = Some (s, w') ->
  w' = w /\ nth_error (errs w) (l_err L) = Some (l_fst L, Some s).
Proof.
  intros R HL O H. pose proof (reached_inv w R) as I. unfold state in H. rewrite HL, O in H. destruct (v_lat w I i L HL) as (_ & s0 & E). rewrite E in H.
  injection H as -> ->. split; [reflexivity|exact E].
Qed.
Lemma state_exists w i x y s w' : reached w -> state w i x y = Some (s, w') ->
  exists L n, nth_error (lats w') i = Some L /\ nth_error (fsts w') (l_fst L) = Some n /\ s < n.
Proof.
  intros R H. pose proof (reached_inv w R) as I. destruct (nth_error (lats w) i) as [L|] eqn:HL; [|unfold state in H; rewrite HL in H; discriminate H].
  destruct (v_bound w' (inv_state w i x y s w' I H) _ _ _ (state_slot w i x y s w' L I HL H)) as (n & Hn & Lt).
  destruct (proj2 (stays_state w i x y s w' I H) i L HL) as (L' & HL' & E & _). exists L', n. rewrite E. split; [exact HL'|]. split; assumption.
Qed.
Lemma all_requests w l : reached w -> (forall i x y, In (i, x, y) l -> i < length (lats w)) -> exists ss w', requests w l = Some (ss, w') /\ length ss = length l.
Proof.
  intros R H. apply requests_total; [exact R|]. apply Forall_forall. intros [[i x] y] Hq. cbn [fst]. specialize (H i x y Hq).
  destruct (nth_error (lats w) i) as [L|] eqn:E; [exists L; reflexivity|apply nth_error_None in E; lia].
Qed.
