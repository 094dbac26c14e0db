From Coq Require Import String Ascii List NArith Bool Lia.
From Verif Require Import PhonTables PhonModel PhonSpec PhonProofs.
Import ListNotations.
Local Open Scope string_scope.
Local Open Scope list_scope.

(** ** Checkers *)
Fixpoint leqb {A} (e : A -> A -> bool) (a b : list A) : bool :=
  match a, b with [], [] => true | x :: a', y :: b' => if e x y then leqb e a' b' else false | _, _ => false end.
Lemma leqb_eq {A} (e : A -> A -> bool) : (forall x y, e x y = true <-> x = y) -> forall a b, leqb e a b = true <-> a = b.
Proof.
  intro E. induction a as [|x a IH]; intros [|y b]; cbn; try (split; congruence). destruct (e x y) eqn:X.
  - apply E in X. subst. rewrite IH. split; congruence.
  - split; [discriminate|]. intros [= -> ->]. rewrite (proj2 (E y y) eq_refl) in X. discriminate.
Qed.
Definition seqb := leqb String.eqb.
Lemma seqb_eq a b : seqb a b = true <-> a = b. Proof. apply leqb_eq, String.eqb_eq. Qed.
Definition neqb := leqb N.eqb.
Lemma neqb_eq a b : neqb a b = true <-> a = b. Proof. apply leqb_eq, N.eqb_eq. Qed.
Definition row_eqb (a b : string * string * list string * list N * list string) : bool :=
  let '(a1, a2, a3, a4, a5) := a in let '(b1, b2, b3, b4, b5) := b in
  if String.eqb a1 b1 then if String.eqb a2 b2 then if seqb a3 b3 then if neqb a4 b4 then seqb a5 b5 else false else false else false else false.
Lemma row_eqb_eq a b : row_eqb a b = true <-> a = b.
Proof.
  destruct a as [[[[a1 a2] a3] a4] a5], b as [[[[b1 b2] b3] b4] b5]. unfold row_eqb.
  destruct (String.eqb a1 b1) eqn:E1; [apply String.eqb_eq in E1|apply String.eqb_neq in E1; split; congruence].
  destruct (String.eqb a2 b2) eqn:E2; [apply String.eqb_eq in E2|apply String.eqb_neq in E2; split; congruence].
  destruct (seqb a3 b3) eqn:E3; [apply seqb_eq in E3|split; [discriminate|]; intros [= _ _ X]; apply seqb_eq in X; congruence].
  destruct (neqb a4 b4) eqn:E4; [apply neqb_eq in E4|split; [discriminate|]; intros [= _ _ _ X]; apply neqb_eq in X; congruence].
  rewrite seqb_eq. split; congruence.
Qed.
(** Pairs of elements with equal values come from a list of exceptions *)
Fixpoint pairs_ok {A B} (e : B -> B -> bool) (g : A -> B) (ok : A -> A -> bool) (l : list A) : bool :=
  match l with [] => true | x :: l' => if forallb (fun y => if e (g x) (g y) then ok x y else true) l' then pairs_ok e g ok l' else false end.
Lemma pairs_ok_spec {A B} (e : B -> B -> bool) (g : A -> B) ok l : (forall x y, e x y = true <-> x = y) -> pairs_ok e g ok l = true ->
  forall x y, In x l -> In y l -> g x = g y -> x = y \/ ok x y = true \/ ok y x = true.
Proof.
  intros E. induction l as [|z l IH]; intros H x y X Y G; [destruct X|]. cbn in H.
  destruct (forallb (fun y0 => if e (g z) (g y0) then ok z y0 else true) l) eqn:F; [|discriminate]. rewrite forallb_forall in F.
  destruct X as [<-|X], Y as [<-|Y]; [now left| | |now apply IH].
  - specialize (F y Y). rewrite (proj2 (E _ _) G) in F. auto.
  - specialize (F x X). rewrite (proj2 (E _ _) (eq_sym G)) in F. auto.
Qed.
Fixpoint distinct {A} (e : A -> A -> bool) (l : list A) : bool :=
  match l with [] => true | x :: l' => if existsb (e x) l' then false else distinct e l' end.
Lemma distinct_spec {A} (e : A -> A -> bool) l : (forall x y, e x y = true <-> x = y) -> distinct e l = true -> NoDup l.
Proof.
  intros E. induction l as [|x l IH]; cbn; intro H; [constructor|]. destruct (existsb (e x) l) eqn:X; [discriminate|]. constructor; auto.
  intro I. assert (existsb (e x) l = true); [|congruence]. apply existsb_exists. exists x. split; [exact I|]. now apply E.
Qed.
Definition pair_in (ex : list (string * string)) (x y : phon) : bool :=
  existsb (fun p => if String.eqb (fst p) (alias (body x)) then String.eqb (snd p) (alias (body y)) else false) ex.
Lemma pair_in_spec ex x y : pair_in ex x y = true -> In (alias (body x), alias (body y)) ex.
Proof.
  unfold pair_in. rewrite existsb_exists. intros [[a b] [I H]]. cbn [fst snd] in H. destruct (String.eqb a _) eqn:E; [|discriminate].
  apply String.eqb_eq in E, H. now subst.
Qed.
Definition cleanb (s : string) : bool := forallb (fun c => negb (Ascii.eqb c "}")) (list_ascii_of_string s).
Lemma cleanb_spec s : cleanb s = true -> clean s.
Proof. unfold cleanb, clean. rewrite forallb_forall. intros H I. specialize (H _ I). now rewrite Ascii.eqb_refl in H. Qed.
Definition categoryb (c f : string) : bool := existsb (fun p => if String.eqb (fst p) f then String.eqb (snd p) c else false) feature_table.
Lemma categoryb_spec c f : categoryb c f = true <-> in_category c f.
Proof.
  unfold categoryb, in_category. rewrite existsb_exists. split.
  - intros [[a b] [I H]]. cbn [fst snd] in H. destruct (String.eqb a f) eqn:E; [|discriminate]. apply String.eqb_eq in E, H. now subst.
  - intro I. exists (f, c). split; [exact I|]. cbn [fst snd]. now rewrite !String.eqb_refl.
Qed.
Definition oneb {A} (f : A -> bool) (l : list A) : bool := match filter f l with [_] => true | _ => false end.
Lemma oneb_spec {A} (f : A -> bool) (P : A -> Prop) l : (forall x, f x = true <-> P x) -> oneb f l = true -> exactly_one P l.
Proof.
  intros E. unfold oneb. induction l as [|x l IH]; cbn; [discriminate|]. destruct (f x) eqn:F.
  - destruct (filter f l) eqn:G; [|discriminate]. intros _. exists [], x, l. split; [reflexivity|]. split; [now apply E|]. cbn. intros y Y Q.
    assert (In y (filter f l)) by (apply filter_In; split; [exact Y|now apply E]). rewrite G in H. destruct H.
  - intro H. destruct (IH H) as (a & y & b & -> & Py & N). exists (x :: a), y, b. split; [reflexivity|]. split; [exact Py|]. cbn. intros z [<-|Z] Q; [|now apply (N z Z)].
    apply E in Q. congruence.
Qed.

(** ** The inventory *)
Definition same_features : list (string * string) := [("V_TNT", "V_PRN"); ("Y", "GU")].
Definition same_ipa : list (string * string) := [("SIL", "V_TNT"); ("SIL", "V_PRN"); ("V_TNT", "V_PRN"); ("OU", "OWN"); ("SL", "SHL"); ("ZL", "ZHL"); ("SLE", "SHLE")].
Definition long_rows : list (string * string * list string * list N * list string) :=
  [("DURB", ":b", [":b"], [774%N], ["long"; "bottom"]); ("DURM", ":m", [":m"], [721%N], ["long"; "middle"]);
   ("DURH", ":h", [":h"], [720%N], ["long"; "high"]); ("DURT", ":t", [":t"], [720%N; 720%N], ["long"; "top"])].
Definition known (l : list phon) : bool := forallb (fun p => forallb (fun f => existsb (String.eqb f) (map fst feature_table)) (ftr (body p))) l.
Definition checks (l m : list phon) : bool :=
  if leqb row_eqb phon_table (map row_of l ++ long_rows) then
  if distinct String.eqb (map (fun p => alias (body p)) (l ++ m)) then
  if pairs_ok seqb (fun p => ph (body p)) (fun _ _ => false) (l ++ m) then
  if known (l ++ m) then
  if forallb (fun p => shape (ph (body p))) l then
  if forallb (fun p => forallb cleanb (ph (body p))) (l ++ m) then
  if pairs_ok seqb (fun p => ftr (body p)) (pair_in same_features) (l ++ m) then
  if pairs_ok neqb (fun p => ipa (body p)) (pair_in same_ipa) (l ++ m) then Nat.eqb (List.length (l ++ m)) 354 else false else false else false else false else false else false else false else false.
Definition all_checks : bool := match phonemes, combining_modifiers with Some l, Some m => checks l m | _, _ => false end.
Lemma all_checks_ok : all_checks = true.
Proof. vm_cast_no_check (eq_refl true). Qed.
Lemma checked : exists l m, phonemes = Some l /\ combining_modifiers = Some m /\ inventory = Some (l ++ m) /\
  phon_table = map row_of l ++ long_rows /\ NoDup (map (fun p => alias (body p)) (l ++ m)) /\
  (forall p q, In p (l ++ m) -> In q (l ++ m) -> ph (body p) = ph (body q) -> p = q) /\
  (forall p f, In p (l ++ m) -> In f (ftr (body p)) -> exists c, In (f, c) feature_table) /\
  forallb shape (map (fun p => ph (body p)) l) = true /\ (forall p t, In p (l ++ m) -> In t (ph (body p)) -> clean t) /\
  (forall p q, In p (l ++ m) -> In q (l ++ m) -> ftr (body p) = ftr (body q) -> p = q \/ In (alias (body p), alias (body q)) same_features \/ In (alias (body q), alias (body p)) same_features) /\
  (forall p q, In p (l ++ m) -> In q (l ++ m) -> ipa (body p) = ipa (body q) -> p = q \/ In (alias (body p), alias (body q)) same_ipa \/ In (alias (body q), alias (body p)) same_ipa) /\
  List.length (l ++ m) = 354.
Proof.
  assert (G : forall x y, (match x, y with Some l, Some m => checks l m | _, _ => false end) = true -> exists l m, x = Some l /\ y = Some m /\ checks l m = true).
  { intros [l|] [m|] H; try discriminate. eauto. }
  destruct (G phonemes combining_modifiers all_checks_ok) as (l & m & El & Em & C). clear G. exists l, m. split; [exact El|]. split; [exact Em|].
  split; [unfold inventory; rewrite El, Em; reflexivity|]. unfold checks in C.
  destruct (leqb row_eqb phon_table (map row_of l ++ long_rows)) eqn:C1; [|discriminate].
  destruct (distinct String.eqb (map (fun p => alias (body p)) (l ++ m))) eqn:C2; [|discriminate].
  destruct (pairs_ok seqb (fun p => ph (body p)) (fun _ _ => false) (l ++ m)) eqn:C3; [|discriminate].
  destruct (known (l ++ m)) eqn:C4; [|discriminate].
  destruct (forallb (fun p => shape (ph (body p))) l) eqn:C5; [|discriminate].
  destruct (forallb (fun p => forallb cleanb (ph (body p))) (l ++ m)) eqn:C6; [|discriminate].
  destruct (pairs_ok seqb (fun p => ftr (body p)) (pair_in same_features) (l ++ m)) eqn:C7; [|discriminate].
  destruct (pairs_ok neqb (fun p => ipa (body p)) (pair_in same_ipa) (l ++ m)) eqn:C8; [|discriminate].
  split; [exact (proj1 (leqb_eq row_eqb row_eqb_eq _ _) C1)|]. split; [exact (distinct_spec _ _ String.eqb_eq C2)|].
  split. { intros p q P Q E. destruct (pairs_ok_spec seqb (fun p => ph (body p)) _ _ seqb_eq C3 p q P Q E) as [H|[H|H]]; [exact H|discriminate|discriminate]. }
  split. { intros p f P F. unfold known in C4. rewrite forallb_forall in C4. specialize (C4 p P). rewrite forallb_forall in C4. specialize (C4 f F).
    apply existsb_exists in C4 as [g [I E]]. apply String.eqb_eq in E. subst g. apply in_map_iff in I as [[a c] [E I]]. cbn in E. subst a. eauto. }
  split. { clear -C5. induction l as [|p l IH]; [reflexivity|]. cbn in *. apply andb_true_iff in C5 as [A B]. now rewrite A, IH. }
  split. { intros p t P T. rewrite forallb_forall in C6. specialize (C6 p P). rewrite forallb_forall in C6. apply cleanb_spec. auto. }
  split. { intros p q P Q E. destruct (pairs_ok_spec seqb (fun p => ftr (body p)) _ _ seqb_eq C7 p q P Q E) as [H|[H|H]]; auto using pair_in_spec. }
  split. { intros p q P Q E. destruct (pairs_ok_spec neqb (fun p => ipa (body p)) _ _ neqb_eq C8 p q P Q E) as [H|[H|H]]; auto using pair_in_spec. }
  now apply PeanoNat.Nat.eqb_eq.
Qed.

(** Parts of it *)
Lemma inventory_ok : exists l, inventory = Some l /\ List.length l = 354 /\ NoDup (map (fun p => alias (body p)) l) /\
  (forall p q, In p l -> In q l -> ph (body p) = ph (body q) -> p = q) /\ (forall p f, In p l -> In f (ftr (body p)) -> exists c, In (f, c) feature_table).
Proof. destruct checked as (l & m & _ & _ & E & _ & A & B & C & _ & _ & _ & _ & D). exists (l ++ m). auto. Qed.
Lemma table_ok : exists l, phonemes = Some l /\ phon_table = map row_of l ++ long_rows.
Proof. destruct checked as (l & m & E & _ & _ & A & _). exists l. auto. Qed.
Lemma long_refuted : exists a t p i f l x, In (a, t, p, i, f) phon_table /\ inventory = Some l /\ In x l /\ alias (body x) = a /\ ftr (body x) <> f /\
  ~ exists c, In ("long", c) feature_table.
Proof.
  assert (G : forall o, (match o with Some l => existsb (fun x => if String.eqb (alias (body x)) "DURH" then seqb (ftr (body x)) ["duration"; "high"] else false) l | None => false end) = true ->
    exists l x, o = Some l /\ In x l /\ alias (body x) = "DURH" /\ ftr (body x) = ["duration"; "high"]).
  { intros [l|] H; [|discriminate]. apply existsb_exists in H as [x [I H]]. destruct (String.eqb (alias (body x)) "DURH") eqn:E; [|discriminate].
    apply String.eqb_eq in E. apply seqb_eq in H. eauto 10. }
  destruct (G inventory) as (l & x & E & I & A & F); [vm_cast_no_check (eq_refl true)|].
  exists "DURH", ":h", [":h"], [720%N], ["long"; "high"], l, x. split.
  { assert (H : existsb (row_eqb ("DURH", ":h", [":h"], [720%N], ["long"; "high"])) phon_table = true) by (vm_cast_no_check (eq_refl true)).
    apply existsb_exists in H as [r [R H]]. apply row_eqb_eq in H. now subst r. }
  split; [exact E|]. split; [exact I|]. split; [exact A|]. split; [rewrite F; discriminate|].
  intros [c C]. assert (H : existsb (String.eqb "long") (map fst feature_table) = false) by (vm_cast_no_check (eq_refl false)).
  assert (existsb (String.eqb "long") (map fst feature_table) = true); [|congruence]. apply existsb_exists. exists "long". split; [|reflexivity].
  apply in_map_iff. exists ("long", c). auto.
Qed.
Lemma features_ok l : inventory = Some l -> forall p q, In p l -> In q l -> ftr (body p) = ftr (body q) -> alias (body p) <> alias (body q) ->
  In (alias (body p), alias (body q)) [("V_TNT", "V_PRN"); ("V_PRN", "V_TNT"); ("Y", "GU"); ("GU", "Y")].
Proof.
  intros E p q P Q F N. destruct checked as (l' & m & _ & _ & E' & _ & _ & _ & _ & _ & _ & A & _ & _). assert (l = l' ++ m) by congruence. subst l.
  destruct (A p q P Q F) as [->|[H|H]]; [congruence| |]; destruct H as [H|[H|[]]]; injection H as <- <-; cbn; tauto.
Qed.
Lemma ipa_ok l : inventory = Some l -> forall p q, In p l -> In q l -> ipa (body p) = ipa (body q) -> ipa (body p) <> [] -> alias (body p) <> alias (body q) ->
  In (alias (body p), alias (body q)) [("OU", "OWN"); ("SL", "SHL"); ("ZL", "ZHL"); ("SLE", "SHLE")] \/
  In (alias (body q), alias (body p)) [("OU", "OWN"); ("SL", "SHL"); ("ZL", "ZHL"); ("SLE", "SHLE")].
Proof.
  intros E p q P Q F Z N. destruct checked as (l' & m & _ & _ & E' & _ & D & _ & _ & _ & _ & _ & A & _). assert (l = l' ++ m) by congruence. subst l.
  assert (S : forall p, In p (l' ++ m) -> alias (body p) = "SIL" \/ alias (body p) = "V_TNT" \/ alias (body p) = "V_PRN" -> ipa (body p) = []).
  { assert (G : forall o, (match o with Some l => forallb (fun x => if existsb (String.eqb (alias (body x))) ["SIL"; "V_TNT"; "V_PRN"] then neqb (ipa (body x)) [] else true) l | None => false end) = true ->
      forall l, o = Some l -> forall p, In p l -> alias (body p) = "SIL" \/ alias (body p) = "V_TNT" \/ alias (body p) = "V_PRN" -> ipa (body p) = []).
    { intros o H l -> x X Y. rewrite forallb_forall in H. specialize (H x X). assert (existsb (String.eqb (alias (body x))) ["SIL"; "V_TNT"; "V_PRN"] = true) as K.
      { apply existsb_exists. exists (alias (body x)). split; [cbn; intuition auto|apply String.eqb_refl]. } rewrite K in H. now apply neqb_eq. }
    apply (G inventory); [vm_cast_no_check (eq_refl true)|exact E']. }
  destruct (A p q P Q F) as [->|[H|H]]; [congruence| |]; cbn [same_ipa In] in H.
  - destruct H as [H|[H|[H|[H|[H|[H|[H|[]]]]]]]]; injection H as H1 H2; [exfalso; apply Z; apply (S p P); auto..| | | |]; left; rewrite <- H1, <- H2; cbn; tauto.
  - destruct H as [H|[H|[H|[H|[H|[H|[H|[]]]]]]]]; injection H as H1 H2; [exfalso; apply Z; apply (S p P); auto..| | | |]; right; rewrite <- H1, <- H2; cbn; tauto.
Qed.
Lemma in_by_alias o a : (match o with Some l => existsb (fun x => String.eqb (alias (body x)) a) l | None => false end) = true ->
  exists l x, o = Some l /\ In x l /\ alias (body x) = a.
Proof. destruct o as [l|]; [|discriminate]. intro H. apply existsb_exists in H as [x [I H]]. apply String.eqb_eq in H. eauto. Qed.
Definition two_same (a b : string) (o : option (list phon)) : bool :=
  match o with Some l => existsb (fun x => if String.eqb (alias (body x)) a then existsb (fun y => if String.eqb (alias (body y)) b then if seqb (ftr (body x)) (ftr (body y)) then true else false else false) l else false) l | None => false end.
Definition two_ipa (a b : string) (o : option (list phon)) : bool :=
  match o with Some l => existsb (fun x => if String.eqb (alias (body x)) a then existsb (fun y => if String.eqb (alias (body y)) b then if neqb (ipa (body x)) (ipa (body y)) then true else false else false) l else false) l | None => false end.
Lemma two_same_spec a b o : two_same a b o = true -> exists l p q, o = Some l /\ In p l /\ In q l /\ alias (body p) = a /\ alias (body q) = b /\ ftr (body p) = ftr (body q).
Proof.
  unfold two_same. destruct o as [l|]; [|discriminate]. intro H. apply existsb_exists in H as [x [X H]]. destruct (String.eqb (alias (body x)) a) eqn:E; [|discriminate].
  apply existsb_exists in H as [y [Y H]]. destruct (String.eqb (alias (body y)) b) eqn:E2; [|discriminate]. destruct (seqb _ _) eqn:E3; [|discriminate].
  apply String.eqb_eq in E, E2. apply seqb_eq in E3. exists l, x, y. auto 10.
Qed.
Lemma two_ipa_spec a b o : two_ipa a b o = true -> exists l p q, o = Some l /\ In p l /\ In q l /\ alias (body p) = a /\ alias (body q) = b /\ ipa (body p) = ipa (body q).
Proof.
  unfold two_ipa. destruct o as [l|]; [|discriminate]. intro H. apply existsb_exists in H as [x [X H]]. destruct (String.eqb (alias (body x)) a) eqn:E; [|discriminate].
  apply existsb_exists in H as [y [Y H]]. destruct (String.eqb (alias (body y)) b) eqn:E2; [|discriminate]. destruct (neqb _ _) eqn:E3; [|discriminate].
  apply String.eqb_eq in E, E2. apply neqb_eq in E3. exists l, x, y. auto 10.
Qed.
Lemma features_refuted : exists l p q, inventory = Some l /\ In p l /\ In q l /\ alias (body p) = "Y" /\ alias (body q) = "GU" /\ ftr (body p) = ftr (body q).
Proof. apply two_same_spec. vm_cast_no_check (eq_refl true). Qed.
Lemma ipa_refuted : exists l p q, inventory = Some l /\ In p l /\ In q l /\ alias (body p) = "SL" /\ alias (body q) = "SHL" /\ ipa (body p) = ipa (body q).
Proof. apply two_ipa_spec. vm_cast_no_check (eq_refl true). Qed.

(** ** Decoding *)
Lemma decode_ok l : phonemes = Some l -> forall ps qs, (forall p, In p ps -> In p l) -> (forall p, In p qs -> In p l) ->
  written (flat_map (fun p => ph (body p)) ps) = written (flat_map (fun p => ph (body p)) qs) -> ps = qs.
Proof.
  intros E ps qs P Q W. destruct checked as (l' & m & E' & _ & _ & _ & _ & A & _ & S & C & _). assert (l' = l) by congruence. subst l'.
  assert (T : flat_map (fun p => ph (body p)) ps = flat_map (fun p => ph (body p)) qs).
  { apply written_inj; [| |exact W]; intros t T; apply in_flat_map in T as [p [I J]]; apply (C p); auto; apply in_or_app; left; auto. }
  rewrite !flat_map_concat_map in T.
  assert (X : map (fun p => ph (body p)) ps = map (fun p => ph (body p)) qs).
  { apply (decode_tokens _ S); [| |exact T]; intros x I; apply in_map_iff in I as [p [<- I]]; apply in_map_iff; exists p; auto. }
  clear -A P Q X. revert qs Q X. induction ps as [|p ps IH]; intros [|q qs] Q X; [reflexivity|discriminate|discriminate|]. cbn in X. injection X as X1 X2.
  assert (p = q). { apply A; auto; apply in_or_app; left; [apply P|apply Q]; now left. } subst q. f_equal. apply IH; auto.
  - intros; apply P; now right.
  - intros; apply Q; now right.
Qed.
Definition four (o : option (list phon)) : bool :=
  match o with Some l => match find_phon "T" l, find_phon "CMB" l, find_phon "SH" l, find_phon "T_SH" l with
    | Some a, Some b, Some c, Some d => seqb (ph (body a) ++ ph (body b) ++ ph (body c)) (ph (body d)) | _, _, _, _ => false end | None => false end.
Lemma decode_refuted : exists l ps qs, inventory = Some l /\ (forall p, In p ps -> In p l) /\ (forall p, In p qs -> In p l) /\ ps <> qs /\
  written (flat_map (fun p => ph (body p)) ps) = written (flat_map (fun p => ph (body p)) qs).
Proof.
  assert (G : forall o, four o = true -> exists l ps qs, o = Some l /\ (forall p, In p ps -> In p l) /\ (forall p, In p qs -> In p l) /\ ps <> qs /\
    written (flat_map (fun p => ph (body p)) ps) = written (flat_map (fun p => ph (body p)) qs)).
  { unfold four. intros [l|]; [|discriminate]. destruct (find_phon "T" l) as [a|] eqn:A; [|discriminate]. destruct (find_phon "CMB" l) as [b|] eqn:B; [|discriminate].
    destruct (find_phon "SH" l) as [c|] eqn:C; [|discriminate]. destruct (find_phon "T_SH" l) as [d|] eqn:D; [|discriminate]. intro H. apply seqb_eq in H.
    exists l, [a; b; c], [d]. unfold find_phon in *. apply find_some in A as [A _], B as [B _], C as [C _], D as [D _].
    split; [reflexivity|]. split; [intros p [<-|[<-|[<-|[]]]]; assumption|]. split; [intros p [<-|[]]; assumption|]. split; [discriminate|].
    cbn [flat_map]. rewrite !app_nil_r. now rewrite H. }
  apply G. vm_cast_no_check (eq_refl true).
Qed.

(** ** Vowels and consonants *)
Definition names (c : string) : list string := map fst (filter (fun p => String.eqb (snd p) c) feature_table).
Lemma names_in c f : in_category c f -> In f (names c).
Proof. intro I. unfold names. apply in_map_iff. exists (f, c). split; [reflexivity|]. apply filter_In. split; [exact I|apply String.eqb_refl]. Qed.
Lemma vowel_checks : forallb (fun h => forallb (fun b => forallb (fun r => oneb (fun p => seqb (ftr (body p)) ["vowel"; h; b; r]) (base_phons base_vowel)) ["labial"; "nonlabial"]) (names "backness")) (names "height") = true.
Proof. vm_cast_no_check (eq_refl true). Qed.
Lemma vowels_ok : List.length (base_phons base_vowel) = 70 /\ forall h b r, in_category "height" h -> in_category "backness" b -> r = "labial" \/ r = "nonlabial" ->
  exactly_one (fun p => ftr (body p) = ["vowel"; h; b; r]) (base_phons base_vowel).
Proof.
  split; [vm_compute; reflexivity|]. intros h b r H B R. pose proof vowel_checks as V. rewrite forallb_forall in V. specialize (V h (names_in _ _ H)).
  rewrite forallb_forall in V. specialize (V b (names_in _ _ B)). rewrite forallb_forall in V. assert (I : In r ["labial"; "nonlabial"]) by (cbn; intuition auto).
  specialize (V r I). refine (oneb_spec _ _ _ _ V). intro p. apply seqb_eq.
Qed.
Definition cons_check (l : list phon) : bool := forallb (fun p => if existsb (String.eqb "click") (ftr (body p)) then true else
  if oneb (categoryb "voicing") (ftr (body p)) then if oneb (categoryb "manner") (ftr (body p)) then existsb (categoryb "place") (ftr (body p)) else false else false) l.
Lemma cons_ok : exists l, simple_cons = Some l /\ forall p, In p l -> ~ In "click" (ftr (body p)) ->
  exactly_one (in_category "voicing") (ftr (body p)) /\ exactly_one (in_category "manner") (ftr (body p)) /\ exists f, In f (ftr (body p)) /\ in_category "place" f.
Proof.
  assert (G : forall o, (match o with Some l => cons_check l | None => false end) = true -> exists l, o = Some l /\ cons_check l = true).
  { intros [l|] H; [eauto|discriminate]. }
  destruct (G simple_cons) as (l & E & C); [vm_cast_no_check (eq_refl true)|]. exists l. split; [exact E|]. intros p P N. unfold cons_check in C.
  rewrite forallb_forall in C. specialize (C p P). destruct (existsb (String.eqb "click") (ftr (body p))) eqn:K.
  { apply existsb_exists in K as [x [I X]]. apply String.eqb_eq in X. subst x. contradiction. }
  destruct (oneb (categoryb "voicing") _) eqn:V; [|discriminate]. destruct (oneb (categoryb "manner") _) eqn:M; [|discriminate].
  split; [exact (oneb_spec _ _ _ (categoryb_spec "voicing") V)|]. split; [exact (oneb_spec _ _ _ (categoryb_spec "manner") M)|].
  apply existsb_exists in C as [f [I F]]. exists f. split; [exact I|]. now apply categoryb_spec.
Qed.
