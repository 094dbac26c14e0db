From Verif Require Import Base SharedModel GrammarSpec.
From Coq Require Import Lia.

Definition holds (b : nat) (o : option nat) : bool := match o with Some b' => Nat.eqb b' b | None => false end.
Definition holders (b : nat) (l : list (option nat)) : nat := length (filter (holds b) l).
Lemma nth_update {A} (l : list A) i f j : nth_error (update l i f) j = if Nat.eqb i j then option_map f (nth_error l j) else nth_error l j.
Proof.
  revert i j. induction l as [|x l IH]; intros i j; cbn [update].
  - destruct j; cbn [nth_error option_map]; destruct (Nat.eqb i _); reflexivity.
  - destruct i as [|i], j as [|j]; try reflexivity. cbn [nth_error]. rewrite IH. reflexivity.
Qed.
Lemma update_fst (l : list (nat * nat)) i f : (forall p n, fst (f (p, n)) = p) -> map fst (update l i f) = map fst l.
Proof. intros H. revert i. induction l as [|[p n] l IH]; intros [|i]; cbn [update map]; [reflexivity|reflexivity|rewrite H; reflexivity|rewrite IH; reflexivity]. Qed.
Lemma holders_app b l l' : holders b (l ++ l') = holders b l + holders b l'.
Proof. unfold holders. rewrite filter_app, app_length. reflexivity. Qed.
Lemma holders_drop l g b c : nth_error l g = Some (Some b) -> holders c l = holders c (update l g (fun _ => None)) + (if Nat.eqb b c then 1 else 0).
Proof.
  revert g. induction l as [|o l IH]; intros [|g] H; cbn [nth_error] in H; try discriminate H; unfold holders in *; cbn [update filter].
  - injection H as ->. cbn [holds]. destruct (Nat.eqb b c); cbn [length]; lia.
  - destruct (holds c o); cbn [length]; rewrite (IH _ H); lia.
Qed.
Lemma holders_some l g b : nth_error l g = Some (Some b) -> 0 < holders b l.
Proof. intros H. pose proof (holders_drop l g b b H) as E. rewrite Nat.eqb_refl in E. lia. Qed.
Lemma nodup_nth (l : list (nat * nat)) i j p m n : NoDup (map fst l) -> nth_error l i = Some (p, m) -> nth_error l j = Some (p, n) -> i = j.
Proof.
  intros D Hi Hj. assert (Li : i < length (map fst l)) by (rewrite map_length; apply nth_error_Some; congruence). apply (proj1 (NoDup_nth_error _) D i j Li).
  rewrite !nth_error_map, Hi, Hj. reflexivity.
Qed.

Record good (s : state) : Prop := {
  g_dist : NoDup (map fst (blocks s));
  g_count : forall b p n, nth_error (blocks s) b = Some (p, n) -> n = holders b (owners s);
  g_dom : forall g b, nth_error (owners s) g = Some (Some b) -> b < length (blocks s);
  g_del : forall p, In p (deleted s) <-> exists b, nth_error (blocks s) b = Some (p, 0);
  g_once : NoDup (deleted s) }.
Lemma good_new s p m : good s -> ~ In p (map fst (blocks s)) ->
  good (State m (blocks s ++ [(p, 1)]) (owners s ++ [Some (length (blocks s))]) (deleted s)).
Proof.
  intros G NI. constructor; cbn [blocks owners deleted].
  - rewrite map_app. cbn [map fst]. apply (NoDup_Add (a := p) (l := map fst (blocks s))); [|split; [exact (g_dist s G)|exact NI]]. rewrite <- (app_nil_r (map fst (blocks s))) at 1. apply Add_app.
  - intros b q n H. rewrite holders_app. destruct (Nat.lt_ge_cases b (length (blocks s))) as [L|L].
    + rewrite nth_error_app1 in H by exact L. rewrite (g_count s G _ _ _ H). unfold holders at 3. cbn [filter holds]. destruct (Nat.eqb (length (blocks s)) b) eqn:E; [apply Nat.eqb_eq in E; lia|]. cbn; lia.
    + rewrite nth_error_app2 in H by exact L. destruct (b - length (blocks s)) as [|k] eqn:D; [|destruct k; discriminate H]. injection H as <- <-. assert (b = length (blocks s)) by lia. subst b.
      unfold holders at 2. cbn [filter holds]. rewrite Nat.eqb_refl. cbn [length].
      assert (Z : holders (length (blocks s)) (owners s) = 0); [|lia]. unfold holders. assert (F : forall o, In o (owners s) -> holds (length (blocks s)) o = false).
      { intros [b|] I'; [|reflexivity]. apply In_nth_error in I' as (g & I'). apply (g_dom s G) in I'. cbn. apply Nat.eqb_neq. lia. }
      clear - F. induction (owners s) as [|o l IH]; [reflexivity|]. cbn [filter]. rewrite F by (left; reflexivity). apply IH. intros o' H. apply F. right. exact H.
  - intros g b H. rewrite app_length. cbn [length]. destruct (Nat.lt_ge_cases g (length (owners s))) as [L|L].
    + rewrite nth_error_app1 in H by exact L. apply (g_dom s G) in H. lia.
    + rewrite nth_error_app2 in H by exact L. destruct (g - length (owners s)) as [|k]; [injection H as <-; lia|destruct k; discriminate H].
  - intros q. rewrite (g_del s G). split; intros (b & H); exists b.
    + rewrite nth_error_app1; [exact H|]. apply nth_error_Some. congruence.
    + destruct (Nat.lt_ge_cases b (length (blocks s))) as [L|L]; [rewrite nth_error_app1 in H by exact L; exact H|]. rewrite nth_error_app2 in H by exact L. destruct (b - length (blocks s)) as [|k]; [discriminate H|destruct k; discriminate H].
  - exact (g_once s G).
Qed.
Lemma good_copy s g b : good s -> nth_error (owners s) g = Some (Some b) ->
  good (State (managers s) (update (blocks s) b (fun '(p, n) => (p, S n))) (owners s ++ [Some b]) (deleted s)).
Proof.
  intros G H. pose proof (holders_some _ _ _ H) as HS. constructor; cbn [blocks owners deleted].
  - rewrite update_fst by reflexivity. exact (g_dist s G).
  - intros c q n E. rewrite holders_app. unfold holders at 2. cbn [filter holds]. rewrite nth_update in E. destruct (Nat.eqb b c) eqn:B.
    + destruct (nth_error (blocks s) c) as [[p m]|] eqn:N0; [|discriminate E]. injection E as <- <-. rewrite (g_count s G _ _ _ N0). cbn [length]. lia.
    + rewrite (g_count s G _ _ _ E). cbn [length]. lia.
  - intros k c E. assert (L : length (update (blocks s) b (fun '(p, n) => (p, S n))) = length (blocks s)) by (rewrite <- (map_length fst), update_fst by reflexivity; apply map_length). rewrite L.
    destruct (Nat.lt_ge_cases k (length (owners s))) as [Lk|Lk].
    + rewrite nth_error_app1 in E by exact Lk. exact (g_dom s G _ _ E).
    + rewrite nth_error_app2 in E by exact Lk. destruct (k - length (owners s)) as [|j]; [injection E as <-; exact (g_dom s G _ _ H)|destruct j; discriminate E].
  - intros p. rewrite (g_del s G). split; intros (c & E); exists c.
    + rewrite nth_update. destruct (Nat.eqb b c) eqn:B; [|exact E]. apply Nat.eqb_eq in B. subst c. apply (g_count s G) in E. lia.
    + rewrite nth_update in E. destruct (Nat.eqb b c); [|exact E]. destruct (nth_error (blocks s) c) as [[q m]|]; discriminate E.
  - exact (g_once s G).
Qed.
Lemma good_destroy s g b p n : good s -> nth_error (owners s) g = Some (Some b) -> nth_error (blocks s) b = Some (p, n) ->
  good (State (managers s) (update (blocks s) b (fun '(p, n) => (p, pred n))) (update (owners s) g (fun _ => None)) (if Nat.eqb n 1 then p :: deleted s else deleted s)).
Proof.
  intros G H N0. pose proof (holders_some _ _ _ H) as HS. pose proof (g_count s G _ _ _ N0) as HC. constructor; cbn [blocks owners deleted].
  - rewrite update_fst by reflexivity. exact (g_dist s G).
  - intros c q m E. pose proof (holders_drop _ _ _ c H) as D. rewrite nth_update in E. destruct (Nat.eqb b c) eqn:B.
    + apply Nat.eqb_eq in B. subst c. rewrite N0 in E. injection E as <- <-. lia.
    + rewrite (g_count s G _ _ _ E). lia.
  - intros k c E. assert (L : length (update (blocks s) b (fun '(p, n) => (p, pred n))) = length (blocks s)) by (rewrite <- (map_length fst), update_fst by reflexivity; apply map_length). rewrite L.
    rewrite nth_update in E. destruct (Nat.eqb g k); [destruct (nth_error (owners s) k); discriminate E|]. exact (g_dom s G _ _ E).
  - intros q. assert (D : In q (deleted s) <-> exists c, nth_error (blocks s) c = Some (q, 0)) by apply (g_del s G). destruct (Nat.eqb n 1) eqn:E1.
    + apply Nat.eqb_eq in E1. cbn [In]. rewrite D. split.
      * intros [<-|(c & E)]; [exists b; rewrite nth_update, Nat.eqb_refl, N0, E1; reflexivity|]. exists c. rewrite nth_update. destruct (Nat.eqb b c) eqn:B; [|exact E]. apply Nat.eqb_eq in B. subst c. rewrite N0 in E. injection E as _ E. lia.
      * intros (c & E). rewrite nth_update in E. destruct (Nat.eqb b c) eqn:B; [|right; exists c; exact E]. apply Nat.eqb_eq in B. subst c. rewrite N0 in E. injection E as <- _. left. reflexivity.
    + apply Nat.eqb_neq in E1. rewrite D. split; intros (c & E); exists c.
      * rewrite nth_update. destruct (Nat.eqb b c) eqn:B; [|exact E]. apply Nat.eqb_eq in B. subst c. rewrite N0 in E. injection E as _ E. lia.
      * rewrite nth_update in E. destruct (Nat.eqb b c) eqn:B; [|exact E]. apply Nat.eqb_eq in B. subst c. rewrite N0 in E. injection E as _ E. lia.
  - destruct (Nat.eqb n 1) eqn:E1; [|exact (g_once s G)]. apply Nat.eqb_eq in E1. constructor; [|exact (g_once s G)]. intros I'. apply (g_del s G) in I' as (c & E).
    assert (b = c) by (eapply nodup_nth; [exact (g_dist s G)|exact N0|exact E]). subst c. rewrite N0 in E. injection E as E. lia.
Qed.
Lemma run_good l : forall s s', good s -> NoDup (map fst (blocks s) ++ owned (managers s) l) -> run s l = Some s' -> good s' /\ map fst (blocks s') = map fst (blocks s) ++ owned (managers s) l.
Proof.
  induction l as [|o l IH]; intros s s' G D E; cbn [run owned] in *.
  - injection E as <-. rewrite app_nil_r. split; [exact G|reflexivity].
  - assert (New : forall p m rest, NoDup (map fst (blocks s) ++ p :: rest) -> good (State m (blocks s ++ [(p, 1)]) (owners s ++ [Some (length (blocks s))]) (deleted s)) /\ NoDup (map fst (blocks s ++ [(p, 1)]) ++ rest)).
    { intros p m rest Dp. split; [|rewrite map_app, <- app_assoc; exact Dp]. apply good_new; [exact G|]. apply NoDup_remove_2 in Dp. intros I'. apply Dp. apply in_or_app. left. exact I'. }
    destruct o as [| |p|g|g]; cbn [step] in E.
    + destruct (New _ (S (managers s)) _ D) as [G' D']. destruct (IH _ _ G' D' E) as [R1 R2]. split; [exact R1|]. rewrite R2. cbn [blocks managers]. rewrite map_app, <- app_assoc. reflexivity.
    + apply (IH (State (S (managers s)) (blocks s) (owners s) (deleted s))); [destruct G; constructor; assumption|exact D|exact E].
    + destruct (Nat.ltb p (managers s)); [|discriminate E]. destruct (New _ (managers s) _ D) as [G' D']. destruct (IH _ _ G' D' E) as [R1 R2]. split; [exact R1|]. rewrite R2. cbn [blocks managers]. rewrite map_app, <- app_assoc. reflexivity.
    + destruct (nth_error (owners s) g) as [[b|]|] eqn:O; try discriminate E. pose proof (good_copy _ _ _ G O) as G'.
      specialize (IH _ s' G'). cbn [blocks managers] in IH. rewrite update_fst in IH by reflexivity. destruct (IH D E) as [R1 R2]. split; [exact R1|exact R2].
    + destruct (nth_error (owners s) g) as [[b|]|] eqn:O; try discriminate E. destruct (nth_error (blocks s) b) as [[p n]|] eqn:B; [|discriminate E]. pose proof (good_destroy _ _ _ _ _ G O B) as G'.
      specialize (IH _ s' G'). cbn [blocks managers] in IH. rewrite update_fst in IH by reflexivity. destruct (IH D E) as [R1 R2]. split; [exact R1|exact R2].
Qed.
Lemma start_good : good start.
Proof.
  constructor; cbn [start blocks owners deleted map]; try constructor.
  - intros b p n H. destruct b; discriminate H.
  - intros g b H. destruct g; discriminate H.
  - intros [].
  - intros (b & H). destruct b; discriminate H.
Qed.
Lemma owned_once l s : NoDup (owned 0 l) -> run start l = Some s -> NoDup (deleted s).
Proof. intros D E. apply (run_good l start s start_good) in E as [G _]; [exact (g_once s G)|exact D]. Qed.
Lemma owned_alive l s g p : NoDup (owned 0 l) -> run start l = Some s -> manager_of s g = Some p -> ~ In p (deleted s).
Proof.
  intros D E M I'. apply (run_good l start s start_good) in E as [G _]; [|exact D]. unfold manager_of in M. destruct (nth_error (owners s) g) as [[b|]|] eqn:O; try discriminate M.
  destruct (nth_error (blocks s) b) as [[q n]|] eqn:B; [|discriminate M]. injection M as ->. apply (g_del s G) in I' as (c & C). assert (b = c) by (eapply nodup_nth; [exact (g_dist s G)|exact B|exact C]). subst c.
  rewrite B in C. injection C as ->. apply (g_count s G) in B. pose proof (holders_some _ _ _ O). lia.
Qed.
Lemma owned_freed l s p : NoDup (owned 0 l) -> run start l = Some s -> (forall g, manager_of s g = None) -> In p (owned 0 l) -> In p (deleted s).
Proof.
  intros D E M I'. apply (run_good l start s start_good) in E as [G B]; [|exact D]. cbn [start blocks map app managers] in B. rewrite <- B in I'. apply in_map_iff in I' as ([q n] & Eq & I'). cbn in Eq. subst q.
  apply In_nth_error in I' as (b & I'). apply (g_del s G). exists b. rewrite I'. do 2 f_equal. rewrite (g_count s G _ _ _ I').
  destruct (holders b (owners s)) as [|k] eqn:H; [reflexivity|]. exfalso. assert (X : exists g, nth_error (owners s) g = Some (Some b)).
  { assert (Y : exists o, In o (owners s) /\ holds b o = true). { unfold holders in H. destruct (filter (holds b) (owners s)) as [|o r] eqn:F; [discriminate H|]. exists o. apply filter_In. rewrite F. left. reflexivity. }
    destruct Y as ([b'|] & Y & Hb); [|discriminate Hb]. apply Nat.eqb_eq in Hb. subst b'. apply In_nth_error in Y. exact Y. }
  destruct X as (g & X). specialize (M g). unfold manager_of in M. rewrite X, I' in M. discriminate M.
Qed.
Lemma sharing_deletes_twice : exists l s, (forall g, ~ In (Copy g) l) /\ run start l = Some s /\ ~ NoDup (deleted s).
Proof.
  exists [Raw; Adopt 0; Adopt 0; Destroy 1; Destroy 0]. eexists. split; [cbn; intuition discriminate|]. split; [reflexivity|]. cbn. intros H. inversion H as [|x y N0 _]. apply N0. left. reflexivity.
Qed.
Lemma sharing_dangles : exists l s g p, run start l = Some s /\ manager_of s g = Some p /\ In p (deleted s).
Proof. exists [Raw; Adopt 0; Adopt 0; Destroy 1]. eexists. exists 0, 0. split; [reflexivity|]. cbn. tauto. Qed.
