(** The texts of the deromanizers agree. *)
From Coq Require Import String Lia.
From Verif Require Import Base RuleModel VisualModel ScriptData ScriptModel ScriptTables IsoFullModel IsoFull Utf8Model Utf8Spec Utf8Proofs NatModel NatSpec.
From Verif Require Import DeromModel DeromSpec DeromText DeromIso DeromRun DeromTamil DeromJoin DeromHindi DeromCost DeromAgree DeromTexts.
Local Open Scope list_scope.

(** ** No nasal before a vowel *)
Fixpoint linked (l : list sound) : Prop :=
  match l with
  | [] => True
  | Cons cs :: l' => cs <> [] /\ linked l'
  | Nas :: l' => match l' with Vow _ :: _ => False | _ => True end /\ linked l'
  | Vow _ :: l' => linked l'
  end.
Definition starts_vow (l : list sound) : Prop := match l with Vow _ :: _ => True | _ => False end.
Definition solid (last : string -> akshara) : Prop := forall c l b, chained true l -> chained b (last c :: l).
Lemma cluster_chained last cs l b : solid last -> cs <> [] -> chained true l -> chained b (cluster last cs ++ l).
Proof.
  intros S N C. revert b. induction cs as [|c cs IH]; intros b; [congruence|]. destruct cs as [|c' cs]; [apply S, C|]. change (chained true (cluster last (c' :: cs) ++ l)). apply IH. discriminate.
Qed.
Lemma write_chained final n : solid final -> forall l b, length l <= n -> linked l -> (starts_vow l -> b = true) -> chained b (write final l).
Proof.
  intros S. induction n as [|n IH]; intros l b Ln L H; [destruct l; [exact Logic.I|cbn in Ln; lia]|]. destruct l as [|x l]; [exact Logic.I|]. cbn [length] in Ln. destruct x as [cs|v|].
  - destruct L as [N L]. assert (G : chained b (cluster final cs ++ write final l)) by (apply cluster_chained; [exact S|exact N|apply IH; [lia|exact L|auto]]).
    destruct l as [|[cs'|v|] l]; try exact G. cbn [write]. apply cluster_chained; [intros c m b' C; exact C|exact N|]. apply IH; [cbn in Ln; lia|exact L|auto].
  - cbn [write chained]. split; [apply H; exact Logic.I|]. apply IH; [lia|exact L|auto].
  - destruct L as [N L]. cbn [write chained]. apply IH; [lia|exact L|]. intros V. destruct l as [|[]]; solve [destruct V | destruct N].
Qed.
Definition shape (x : akshara) : option bool := match x with Ind _ => Some true | Nasal => Some false | _ => None end.
Lemma chained_shape l : forall m b, map shape l = map shape m -> chained b l -> chained b m.
Proof.
  induction l as [|x l IH]; intros [|y m] b E C; try discriminate E; [exact Logic.I|]. cbn [map] in E. assert (Ex : shape x = shape y) by congruence. assert (El : map shape l = map shape m) by congruence.
  destruct x, y; try discriminate Ex; cbn [chained] in *; try (destruct C as [Cb C]; split; [exact Cb|]); exact (IH _ _ El C).
Qed.
Lemma start_shape l : map shape (join_start l) = map shape l.
Proof. destruct l as [|[] [|[]]]; reflexivity. Qed.
Lemma end_shape l : map shape (join_end l) = map shape l.
Proof.
  induction l as [|x l IH]; [reflexivity|]. destruct x as [v|c v|c|c|]; cbn [join_end map] in *; try (rewrite IH; reflexivity).
  destruct l as [|[v|c' v|c'|c'|] [|y l]]; cbn [map] in *; try (rewrite IH; reflexivity); reflexivity.
Qed.
Lemma long_shape l : map shape (lengthen l) = map shape l.
Proof.
  induction l as [|x l IH]; [reflexivity|]. assert (H : lengthen (x :: l) = x :: lengthen l \/ exists c, x = Syl c "a" /\ l = [] /\ lengthen (x :: l) = [Syl c "aa"]).
  { destruct x as [v|c v|c|c|]; try (left; reflexivity). destruct l as [|y l]; [|left; cbn [lengthen]; repeat match goal with |- context [match ?s with EmptyString => _ | String _ _ => _ end] => destruct s; try reflexivity | |- context [match ?a with Ascii.Ascii _ _ _ _ _ _ _ _ => _ end] => destruct a; try reflexivity | |- context [if ?b then _ else _] => destruct b; try reflexivity end].
    destruct (string_dec v "a") as [->|N]; [right; eauto|left]. cbn [lengthen]. repeat match goal with |- context [match ?s with EmptyString => _ | String _ _ => _ end] => destruct s; try reflexivity | |- context [match ?a with Ascii.Ascii _ _ _ _ _ _ _ _ => _ end] => destruct a; try reflexivity | |- context [if ?b then _ else _] => destruct b; try reflexivity end. congruence. }
  destruct H as [-> |(c & -> & -> & ->)]; [cbn [map]; rewrite IH; reflexivity|reflexivity].
Qed.

(** ** Hindi *)
Definition first_vowel (s : string) : bool := match bytes s with c :: _ => existsb (N.eqb c) (bytes "aeiou") | [] => false end.
Lemma hi_firsts : forallb (forallb (fun p : string * sound => match snd p with Vow _ => first_vowel (fst p) | Cons [] => false | _ => true end)) hindi_spellings = true. Proof. vm_compute. reflexivity. Qed.
Lemma hi_spelled rank p : spelled hindi_spellings rank p -> match snd p with Vow _ => first_vowel (fst p) = true | Cons cs => cs <> [] | Nas => True end.
Proof.
  intros (l & En & I). pose proof (proj1 (forallb_forall _ _) hi_firsts _ (nth_error_In _ _ En)) as K. pose proof (proj1 (forallb_forall _ _) K _ I) as K2. cbv beta in K2. destruct (snd p) as [[|c cs]|v|]; [discriminate K2|discriminate|exact K2|exact Logic.I].
Qed.
Lemma hi_linked w R : hindi_reading w R -> linked (map snd R).
Proof.
  intros (_ & SP & _ & _ & HN). assert (H : forall B A, R = A ++ B -> linked (map snd B)).
  { induction B as [|[s x] B IH]; intros A E; [exact Logic.I|]. assert (L : linked (map snd B)) by (apply (IH (A ++ [(s, x)])); rewrite <- app_assoc; exact E).
    cbn [map snd linked]. destruct x as [cs|v|]; [|exact L|]; (split; [|exact L]).
    - assert (I : In (s, Cons cs) R) by (rewrite E, in_app_iff; right; left; reflexivity). destruct (proj1 (Forall_forall _ _) SP _ I) as [Q|(rk & Q)]; [discriminate Q|exact (hi_spelled rk _ Q)].
    - destruct B as [|[s' [cs|v|]] B]; try exact Logic.I. cbn [map snd]. assert (I : In (s', Vow v) R) by (rewrite E, in_app_iff; right; right; left; reflexivity). destruct (proj1 (Forall_forall _ _) SP _ I) as [Q|(rk & Q)]; [discriminate Q|]. apply hi_spelled in Q. cbn [snd fst] in Q. unfold first_vowel in Q.
      pose proof (proj1 (HN A s Nas _ E) eq_refl) as (_ & P). unfold typed in P. cbn [flat_map fst] in P. destruct (bytes s') as [|c u]; [discriminate Q|]. apply existsb_exists in Q as (c' & Ic & Ec). apply N.eqb_eq in Ec. subst c'.
      destruct P as [(_ & [P|(c1 & u1 & P & N)])|(_ & c1 & u1 & P & Ib)]; [discriminate P| |]; cbn [app] in P; injection P as <- _.
      + apply N. cbn in Ic |- *. tauto.
      + cbn in Ic, Ib. intuition congruence. }
  exact (H R [] eq_refl).
Qed.
Lemma hi_known w R : hindi_reading w R -> Forall (known hindi) (hindi_write (map snd R)) /\ chained true (hindi_write (map snd R)).
Proof.
  intros HR. pose proof HR as (_ & SP & _). split.
  - unfold hindi_write. apply (end_known hindi), (long_known hindi hi_join), (start_known hindi). apply (write_known hindi Bare (List.length (map snd R))); [intros c H; exact H|lia|]. apply (read_known hindi hindi_spellings R hi_sounds). eapply Forall_impl; [|exact SP]. intros p [H|H]; [left; split; [exact H|discriminate]|right; exact H].
  - unfold hindi_write. apply (chained_shape (write Bare (map snd R))); [rewrite end_shape, long_shape, start_shape; reflexivity|]. apply (write_chained Bare (List.length (map snd R))); [intros c l b C; exact C|lia|exact (hi_linked w R HR)|auto].
Qed.

(** ** Tamil *)
Lemma ta_firsts : forallb (forallb (fun p : string * sound => match snd p with Nas | Cons [] => false | _ => true end)) tamil_spellings = true. Proof. vm_compute. reflexivity. Qed.
Lemma ta_linked w R : tamil_reading w R -> linked (map snd R).
Proof.
  intros (_ & SP & _). induction SP as [|[s x] R (rk & l & En & I) _ IH]; [exact Logic.I|]. pose proof (proj1 (forallb_forall _ _) ta_firsts _ (nth_error_In _ _ En)) as K. pose proof (proj1 (forallb_forall _ _) K _ I) as K2. cbn [snd] in K2. cbn [map snd linked]. destruct x as [[|c cs]|v|]; try discriminate K2; [split; [discriminate|exact IH]|exact IH].
Qed.
Lemma ta_known w R : tamil_reading w R -> Forall (known tamil) (tamil_write (map snd R)) /\ chained true (tamil_write (map snd R)).
Proof.
  intros HR. pose proof HR as (_ & SP & _). split.
  - apply (write_known tamil Dead (List.length (map snd R))); [intros c H; exact H|lia|]. apply (read_known tamil tamil_spellings R ta_sounds). eapply Forall_impl; [|exact SP]. intros p H. right. exact H.
  - apply (write_chained Dead (List.length (map snd R))); [intros c l b C; exact C|lia|exact (ta_linked w R HR)|auto].
Qed.

(** ** The agreement *)
Lemma lower_dec c : {lower c} + {~ lower c}.
Proof. unfold lower. destruct (N.leb 97 c) eqn:A, (N.leb c 122) eqn:B; rewrite ?N.leb_le, ?N.leb_gt in *; [left|right|right|right]; lia. Defined.
Lemma agree_text ns d cl o l b i : In d all_scripts -> costs_ok d cl = true -> forallb (akshara_b d cl o) (all_aksharas o) = true -> nfc_free d o = true -> texts_ok o = true -> Forall (known o) l -> chained true l ->
  native o l = Some b -> iso o l = Some i -> exists x y r r', (exists ps, spells x ps (bytes b)) /\ (exists ps, spells y ps (bytes i)) /\
  from_script ns d x = Some r /\ (forall z, In z (best_among r) <-> z = y) /\ to_script ns d y = Some r' /\ forall z, In z (best_among r') <-> z = x.
Proof.
  intros Hd C A Nf T F Ch Eb Ei. pose proof (native_codes o l b T F Eb) as Cb. pose proof (iso_codes o l i T F Ei) as Ci. apply code_points_spec in Cb, Ci. destruct (agree ns d cl o l Hd C A Nf F Ch) as (r & Er & B).
  destruct (nfc_text ns d o l Hd Nf F) as (O & f & Hf & Ef). destruct (full_round_trip ns d Hd _ r _ O Er (proj2 (B _) eq_refl)) as (f' & t & r' & Hf' & Et & Er' & B').
  rewrite Hf in Hf'. injection Hf' as <-. rewrite Ef in Et. injection Et as <-. exists (native_code o l), (iso_code o l), r, r'. repeat (split; [assumption|]). exact B'.
Qed.
Lemma hi_agree ns w b i : In b (HI_DEVA w) -> In i (HI_ISO w) -> exists x y r r', (exists ps, spells x ps b) /\ (exists ps, spells y ps i) /\
  from_script ns data_Deva x = Some r /\ (forall z, In z (best_among r) <-> z = y) /\ to_script ns data_Deva y = Some r' /\ forall z, In z (best_among r') <-> z = x.
Proof.
  intros Ib Ii. assert (L : Forall lower w). { destruct (Forall_dec lower lower_dec w) as [L|N]; [exact L|]. destruct (hi_none w N) as [E _]. rewrite E in Ib. destruct Ib. }
  destruct (hi_texts w L) as (R & b' & i' & HR & Eb & Ei & Ob & Oi). pose proof (proj1 (Ob b) Ib) as ->. pose proof (proj1 (Oi i) Ii) as ->. destruct (hi_known w R HR) as [F Ch].
  exact (agree_text ns data_Deva (cls_of data_Deva) hindi _ b' i' deva_all hi_costs hi_aksharas hi_nfc_free hi_texts_ok F Ch Eb Ei).
Qed.
Lemma ta_agree ns w b i : In b (TA_TAML w) -> In i (TA_ISO w) -> exists x y r r', (exists ps, spells x ps b) /\ (exists ps, spells y ps i) /\
  from_script ns data_Taml x = Some r /\ (forall z, In z (best_among r) <-> z = y) /\ to_script ns data_Taml y = Some r' /\ forall z, In z (best_among r') <-> z = x.
Proof.
  intros Ib Ii. assert (L : Forall lower w). { destruct (Forall_dec lower lower_dec w) as [L|N]; [exact L|]. destruct (ta_none w N) as [E _]. rewrite E in Ib. destruct Ib. }
  destruct (ta_texts w L) as (R & b' & i' & HR & Eb & Ei & Ob & Oi). pose proof (proj1 (Ob b) Ib) as ->. pose proof (proj1 (Oi i) Ii) as ->. destruct (ta_known w R HR) as [F Ch].
  exact (agree_text ns data_Taml (cls_of data_Taml) tamil _ b' i' taml_all ta_costs ta_aksharas ta_nfc_free ta_texts_ok F Ch Eb Ei).
Qed.
