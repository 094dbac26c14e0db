(** The cost of a romanization is at least what its letters cost where they stand. *)
From Verif Require Import Base VisualModel ScriptData IsoPieceSpec.
From Coq Require Import Lia.

Inductive cls := kC | kX | kY | kV | kS | kI | kK | kO.
Definition cost (p n : option cls) (a : cls) : N :=
  match a with
  | kC => match n with Some (kS | kV | kI | kX | kO) => 0 | _ => 1 end
  | kX => match n with Some (kS | kV | kI | kO) => 0 | _ => 1 end
  | kY => match n with Some (kC | kO) => 0 | _ => 1 end
  | kV => match n with Some (kI | kO) => 0 | _ => 1 end
  | kI => match p with Some (kC | kX | kS | kV | kI | kO) => 0 | _ => 1 end
  | kK => 1
  | kS | kO => 0
  end.
Definition first_of (l : list cls) (n : option cls) : option cls := match l with [] => n | a :: _ => Some a end.
Definition last_of (p : option cls) (l : list cls) : option cls := fold_left (fun _ a => Some a) l p.
Fixpoint seg (p : option cls) (l : list cls) (n : option cls) : N :=
  match l with [] => 0 | a :: l' => cost p (first_of l' n) a + seg (Some a) l' n end.
Lemma first_of_app a b n : first_of (a ++ b) n = first_of a (first_of b n). Proof. destruct a; reflexivity. Qed.
Lemma last_of_app p a b : last_of p (a ++ b) = last_of (last_of p a) b. Proof. apply fold_left_app. Qed.
Lemma seg_app p a b n : seg p (a ++ b) n = (seg p a (first_of b n) + seg (last_of p a) b n)%N.
Proof. revert p. induction a as [|x a IH]; intros p; cbn [app seg last_of fold_left]; [reflexivity|]. rewrite first_of_app, IH. fold (last_of (Some x) a). lia. Qed.

Definition spots : list (option cls) := [None; Some kC; Some kX; Some kY; Some kV; Some kS; Some kI; Some kK; Some kO].
Lemma spots_all p : In p spots. Proof. destruct p as [[]|]; cbn; tauto. Qed.
Definition under (l : list cls) (w : N) : bool := forallb (fun p => forallb (fun n => N.leb (seg p l n) w) spots) spots.
Lemma under_seg l w : under l w = true -> forall p n, (seg p l n <= w)%N.
Proof.
  intros H p n. unfold under in H. rewrite forallb_forall in H. specialize (H p (spots_all p)). cbv beta in H. rewrite forallb_forall in H. exact (proj1 (N.leb_le _ _) (H n (spots_all n))).
Qed.
Definition carries (a : option cls) : bool := match a with Some (kC | kX | kS | kV | kI | kO) => true | _ => false end.
(** before an independent vowel *)
Definition held (l : list cls) : bool := forallb (fun p => N.eqb (seg p l (Some kI)) 0 && carries (last_of p l)) spots.
Lemma held_seg l : held l = true -> forall p, seg p l (Some kI) = 0%N /\ carries (last_of p l) = true.
Proof. intros H p. unfold held in H. rewrite forallb_forall in H. specialize (H p (spots_all p)). apply andb_prop in H as [H K]. apply N.eqb_eq in H. split; assumption. Qed.

Section Script.
Variable d : script_data.
Variable cl : N -> cls.
Local Notation cs := (map cl).
Definition nuclei : list (list cls * N) := ([], 1%N) :: map (fun r => (cs (fst r), 0%N)) (sd_vowel_sign d) ++ map (fun r => (cs (fst r), 1%N)) (sd_virama d).
Definition all_I (l : list cls) : bool := match l with [kI] => true | _ => false end.
Definition costs_ok : bool :=
  forallb (fun r => forallb (fun q => under (cs (fst r) ++ fst q) (snd q) && held (cs (fst r) ++ fst q)) nuclei) (sd_consonant d) &&
  match sd_subjoined_consonant d, sd_dead_consonant d, sd_vowel_length_sign d with [], [], [] => true | _, _, _ => false end &&
  forallb (fun r => all_I (cs (fst r))) (sd_vowel d) &&
  forallb (fun r => under (cs (fst r)) 1 && held (cs (fst r))) (sd_vowel_sign d) &&
  forallb (fun r => under (cs (fst r)) 1) (sd_coda d ++ sd_standalone d ++ sd_virama d) &&
  under (cs [8204%N]) 0 && under (cs [8205%N]) 0.
Hypothesis ok : costs_ok = true.

Lemma row_in f i o : row f i o -> exists c, In (i, c) f. Proof. intros [H|[H _]]; eauto. Qed.
Lemma hiatus_cls n h h' : hiatus d n h h' -> cs h = repeat kI n.
Proof.
  unfold costs_ok in ok. repeat rewrite andb_true_iff in ok. destruct ok as [[[[[[_ _] V] _] _] _] _]. rewrite forallb_forall in V.
  induction 1 as [|n i o i' o' R _ IH]; [reflexivity|]. apply row_in in R as (c & R). specialize (V _ R). cbn [fst] in V.
  rewrite map_app, IH. destruct (cs i) as [|[] [|]]; try discriminate V. reflexivity.
Qed.
Lemma seg_I n p x : carries p = true -> seg p (repeat kI n) x = 0%N.
Proof. revert p. induction n as [|n IH]; intros p H; [reflexivity|]. cbn [repeat seg cost]. rewrite (IH (Some kI) eq_refl). destruct p as [[]|]; try discriminate H; reflexivity. Qed.
Lemma seg_held l n p x w : held l = true -> under l w = true -> (seg p (l ++ repeat kI n) x <= match n with O => w | _ => 0 end)%N.
Proof.
  intros H U. destruct n as [|n].
  - cbn [repeat]. rewrite app_nil_r. apply under_seg, U.
  - rewrite seg_app. destruct (held_seg _ H p) as [E K]. rewrite (seg_I (S n)) by exact K. cbn [repeat first_of]. rewrite E. lia.
Qed.
Lemma seg_piece i o w : piece d i o w -> forall p n, (seg p (cs i) n <= w)%N.
Proof.
  pose proof ok as Q. unfold costs_ok in Q. repeat rewrite andb_true_iff in Q. destruct Q as [[[[[[C Z] V] S] L] J] J'].
  destruct (sd_subjoined_consonant d) eqn:Es; [|discriminate Z]. destruct (sd_dead_consonant d) eqn:Ed; [|discriminate Z]. destruct (sd_vowel_length_sign d) eqn:El; [|discriminate Z].
  rewrite forallb_forall in C, V, S, L.
  assert (R0 : forall i o, ~ row [] i o) by (intros i0 o0 [[]|[[] _]]).
  intros H p x. destruct H as [i o i' o' w n h h' Hc Hn Hh|i o n h h' Hr Hh|i o Hr|i o Hr|i o Hr|i o Hr|i o n h h' Hr Hh|v c Hv| |].
  - destruct Hc as [i o Hr|i o i2 o2 _ Hr]; [|rewrite Es in Hr; destruct (R0 _ _ Hr)]. apply row_in in Hr as (c & Hr). specialize (C _ Hr). cbn [fst] in C. rewrite forallb_forall in C.
    assert (N : In (cs i', w) nuclei). { unfold nuclei. destruct Hn as [i' o' Hs|v c' _|v c' Hv].
      - right. apply in_or_app. left. apply row_in in Hs as (c' & Hs). exact (in_map (fun r => (cs (fst r), 0%N)) _ _ Hs).
      - left. reflexivity.
      - right. apply in_or_app. right. exact (in_map (fun r => (cs (fst r), 1%N)) _ _ Hv). }
    specialize (C _ N). cbn [fst snd] in C. apply andb_prop in C as [U H]. rewrite !map_app, (hiatus_cls _ _ _ Hh), app_assoc. apply seg_held; assumption.
  - apply row_in in Hr as (c & Hr). specialize (V _ Hr). cbn [fst] in V. rewrite map_app, (hiatus_cls _ _ _ Hh). destruct (cs i) as [|[] [|]]; try discriminate V.
    cbn [app seg]. rewrite seg_I by reflexivity. cbn [cost]. destruct p as [[]|]; lia.
  - apply row_in in Hr as (c & Hr). apply under_seg. exact (L (i, c) (in_or_app _ _ _ (or_introl Hr))).
  - rewrite Ed in Hr. destruct (R0 _ _ Hr).
  - rewrite El in Hr. destruct (R0 _ _ Hr).
  - apply row_in in Hr as (c & Hr). apply under_seg. exact (L (i, c) (in_or_app _ _ _ (or_intror (in_or_app _ _ _ (or_introl Hr))))).
  - apply row_in in Hr as (c & Hr). specialize (S _ Hr). cbn [fst] in S. apply andb_prop in S as [U H]. rewrite map_app, (hiatus_cls _ _ _ Hh). pose proof (seg_held _ n p x _ H U). destruct n; lia.
  - pose proof (under_seg _ _ (L (v, c) (in_or_app _ _ _ (or_intror (in_or_app _ _ _ (or_intror Hv))))) p x). cbn [fst] in H. lia.
  - apply under_seg, J.
  - apply under_seg, J'.
Qed.
Lemma seg_pieces i o w : in_pieces d i o w -> forall p, (seg p (cs i) None <= w)%N.
Proof.
  induction 1 as [|i o w i' o' w' H _ IH]; intros p; [cbn; lia|]. rewrite map_app, seg_app. pose proof (seg_piece _ _ _ H p (first_of (cs i') None)). specialize (IH (last_of p (cs i))). lia.
Qed.
End Script.
