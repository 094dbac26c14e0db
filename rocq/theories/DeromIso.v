(** Syllables in Brahmic scripts and in ISO 15919. *)
From Coq Require Import String.
From Verif Require Import Base RuleModel RegexModel RegexProofs IsoModel AlignModel AlignSpec AlignProofs AlignMore NatModel NatSpec NatProofs NatBytes NatBlocks NatBlocksProofs NatTyp NatTypMain DeromModel DeromBytes DeromPieces DeromSpec DeromReading DeromText.
Local Open Scope list_scope.

Definition known (o : orthography) (x : akshara) : Prop :=
  match x with
  | Ind v => In v (map fst (o_vowels o))
  | Syl c v => In c (map fst (o_consonants o)) /\ In v (map fst (o_vowels o))
  | Bare c | Dead c => In c (map fst (o_consonants o))
  | Nasal => o_anusvara o <> None
  end.
Definition iso_toks (first : bool) (x : akshara) : word :=
  match x with
  | Ind v => [name (if first then v else v ++ "_i")]
  | Syl c v => [name c; name v]
  | Bare c => [name c; name "a"]
  | Dead c => [name c; name "vir"]
  | Nasal => [name "ans"]
  end.
Definition iso_word (l : list akshara) : word := match l with [] => [] | x :: l' => iso_toks true x ++ flat_map (iso_toks false) l' end.
Definition mid_toks (x : akshara) : word :=
  match x with
  | Ind v => [name (v ++ "_i")]
  | Syl c v => [name c; name "a"; name v]
  | Bare c => [name c; name "a"]
  | Dead c => [name c; name "a"; name "vir"]
  | Nasal => [name "ans"]
  end.
Definition sch : list word := trs (SIMPLE_CONSONANT ++ ASPIRATED_CONSONANT).
Definition signs : list word := VOWEL_S_TR ++ [trl "vir"].
Definition is_a (t : tok) : bool := tok_eqb (name "a") t.
Definition check_cons (d : deromanizer) (o : orthography) : bool :=
  forallb (fun c => in_words (name c) sch && negb (in_words (name c) signs) && negb (is_a (name c)) && tok_eqb (fold_left (fun x op => first_do op x) (d_ind_to_sign d) (name c)) (name c)) (map fst (o_consonants o)).
Definition check_vow (d : deromanizer) (o : orthography) : bool :=
  forallb (fun v => negb (in_words (name v) sch) && in_words (name v) signs && negb (in_words (name (v ++ "_i")) sch) && negb (in_words (name (v ++ "_i")) signs) && negb (is_a (name (v ++ "_i")))
    && tok_eqb (fold_left (fun x op => first_do op x) (d_ind_to_sign d) (name (v ++ "_i"))) (name v)) (map fst (o_vowels o)).
Definition check_marks (d : deromanizer) : bool :=
  negb (in_words (name "vir") sch) && in_words (name "vir") signs && negb (is_a (name "vir")) && negb (in_words (name "ans") sch) && negb (in_words (name "ans") signs) && negb (is_a (name "ans"))
    && tok_eqb (fold_left (fun x op => first_do op x) (d_ind_to_sign d) (name "ans")) (name "ans").

Section Iso.
Variables (d : deromanizer) (o : orthography).
Hypothesis sch_single : singles sch = true.
Hypothesis signs_single : singles signs = true.
Hypothesis cons_ok : check_cons d o = true.
Hypothesis vow_ok : check_vow d o = true.
Hypothesis marks_ok : check_marks d = true.
Hypothesis first_ok : forallb first_op (d_ind_to_sign d) = true.

Notation start := (fold_left (fun x op => first_do op x) (d_ind_to_sign d)).
Lemma cons_facts c : In c (map fst (o_consonants o)) -> in_words (name c) sch = true /\ in_words (name c) signs = false /\ is_a (name c) = false /\ start (name c) = name c.
Proof. intros I. apply (proj1 (forallb_forall _ _) cons_ok) in I. rewrite !andb_true_iff, !negb_true_iff in I. destruct I as [[[A B] C] D]. apply tok_eqb_spec in D. auto. Qed.
Lemma vow_facts v : In v (map fst (o_vowels o)) -> in_words (name v) sch = false /\ in_words (name v) signs = true /\ in_words (name (v ++ "_i")) sch = false /\ in_words (name (v ++ "_i")) signs = false /\ is_a (name (v ++ "_i")) = false /\ start (name (v ++ "_i")) = name v.
Proof. intros I. apply (proj1 (forallb_forall _ _) vow_ok) in I. rewrite !andb_true_iff, !negb_true_iff in I. destruct I as [[[[[A B] C] D] E] F]. apply tok_eqb_spec in F. auto 10. Qed.
Lemma mark_facts : in_words (name "vir") sch = false /\ in_words (name "vir") signs = true /\ is_a (name "vir") = false /\ in_words (name "ans") sch = false /\ in_words (name "ans") signs = false /\ is_a (name "ans") = false /\ start (name "ans") = name "ans".
Proof. pose proof marks_ok as I. unfold check_marks in I. rewrite !andb_true_iff, !negb_true_iff in I. destruct I as [[[[[[A B] C] D] E] F] G]. apply tok_eqb_spec in G. auto 10. Qed.

Lemma insert_true ws new ts : insert_after ws new true ts = new ++ insert_after ws new false ts. Proof. destruct ts; reflexivity. Qed.
Lemma insert_false ws new t ts : insert_after ws new false (t :: ts) = t :: insert_after ws new (in_words t ws) ts. Proof. reflexivity. Qed.
Lemma inserted l : Forall (known o) l -> insert_after sch [name "a"] false (word_toks l) = flat_map mid_toks l.
Proof.
  induction 1 as [|x l K _ IH]; [reflexivity|]. pose proof mark_facts as M. unfold word_toks in *. cbn [flat_map]. destruct x as [v|c v|c|c|]; cbn [known akshara_toks mid_toks app] in *.
  - destruct (vow_facts v K) as (_ & _ & E & _). rewrite insert_false, E, IH. reflexivity.
  - destruct K as [Kc Kv]. destruct (cons_facts c Kc) as (E & _). destruct (vow_facts v Kv) as (E' & _). rewrite insert_false, E, insert_true, insert_false, E', IH. reflexivity.
  - destruct (cons_facts c K) as (E & _). rewrite insert_false, E, insert_true, IH. reflexivity.
  - destruct (cons_facts c K) as (E & _). rewrite insert_false, E, insert_true, insert_false, (proj1 M), IH. reflexivity.
  - rewrite insert_false. destruct M as (_ & _ & _ & -> & _). rewrite IH. reflexivity.
Qed.
Definition plain_start (ts : word) : Prop := match ts with [] => True | t :: _ => in_words t signs = false end.
Lemma delete_keep t ts : is_a t = false \/ plain_start ts -> delete_before signs (name "a") (t :: ts) = t :: delete_before signs (name "a") ts.
Proof. unfold is_a. cbn [delete_before]. intros [->|P]; [reflexivity|]. destruct (tok_eqb _ t); [|reflexivity]. destruct ts as [|n ts]; [reflexivity|]. cbn [plain_start] in P. rewrite P. reflexivity. Qed.
Lemma delete_drop t ts : in_words t signs = true -> delete_before signs (name "a") (name "a" :: t :: ts) = delete_before signs (name "a") (t :: ts).
Proof. intros E. cbn [delete_before]. rewrite tok_eqb_refl, E. reflexivity. Qed.
Lemma mid_start l : Forall (known o) l -> plain_start (flat_map mid_toks l).
Proof.
  destruct 1 as [|x l K _]; [exact Logic.I|]. pose proof mark_facts as M. cbn [flat_map]. destruct x as [v|c v|c|c|]; cbn [known mid_toks app plain_start] in *.
  - exact (proj1 (proj2 (proj2 (proj2 (vow_facts v K))))).
  - exact (proj1 (proj2 (cons_facts c (proj1 K)))).
  - exact (proj1 (proj2 (cons_facts c K))).
  - exact (proj1 (proj2 (cons_facts c K))).
  - exact (proj1 (proj2 (proj2 (proj2 (proj2 M))))).
Qed.
Lemma deleted l : Forall (known o) l -> delete_before signs (name "a") (flat_map mid_toks l) = flat_map (iso_toks false) l.
Proof.
  induction 1 as [|x l K Kl IH]; [reflexivity|]. pose proof mark_facts as M. pose proof (mid_start l Kl) as P. cbn [flat_map]. destruct x as [v|c v|c|c|]; cbn [known mid_toks iso_toks app] in *.
  - rewrite delete_keep, IH by (right; exact P). reflexivity.
  - destruct K as [Kc Kv]. rewrite delete_keep by (left; apply cons_facts; exact Kc). rewrite delete_drop by (apply vow_facts; exact Kv). rewrite delete_keep, IH by (right; exact P). reflexivity.
  - rewrite delete_keep by (left; apply cons_facts; exact K). rewrite delete_keep, IH by (right; exact P). reflexivity.
  - rewrite delete_keep by (left; apply cons_facts; exact K). rewrite delete_drop by tauto. rewrite delete_keep, IH by (right; exact P). reflexivity.
  - rewrite delete_keep, IH by (right; exact P). reflexivity.
Qed.
Lemma unsigned_names l : Forall (fun t => exists s, t = name s) l -> unsigned l.
Proof. intros F I. apply (proj1 (Forall_forall _ _) F) in I as (s & E). discriminate E. Qed.
Lemma names_word l : Forall (fun t => exists s, t = name s) (word_toks l).
Proof. unfold word_toks. induction l as [|x l IH]; [constructor|]. cbn [flat_map]. apply Forall_app. split; [|exact IH]. destruct x; cbn; repeat (constructor; [eexists; reflexivity|]); constructor. Qed.
Lemma names_mid l : Forall (fun t => exists s, t = name s) (flat_map mid_toks l).
Proof. induction l as [|x l IH]; [constructor|]. cbn [flat_map]. apply Forall_app. split; [|exact IH]. destruct x; cbn; repeat (constructor; [eexists; reflexivity|]); constructor. Qed.
Lemma names_iso b l : Forall (fun t => exists s, t = name s) (flat_map (iso_toks b) l).
Proof. induction l as [|x l IH]; [constructor|]. cbn [flat_map]. apply Forall_app. split; [|exact IH]. destruct x; cbn; repeat (constructor; [eexists; reflexivity|]); constructor. Qed.
Lemma names_iso_word l : Forall (fun t => exists s, t = name s) (iso_word l).
Proof. destruct l as [|x l]; [constructor|]. cbn [iso_word]. apply Forall_app. split; [|apply names_iso]. pose proof (names_iso true [x]) as H. cbn [flat_map] in H. rewrite app_nil_r in H. exact H. Qed.
Lemma iso_performs l : Forall (known o) l -> performs_all (typ2iso_ops d) (word_toks l) (iso_word l).
Proof.
  intros K. unfold typ2iso_ops. cbn [app]. apply (pa_op _ _ _ (flat_map mid_toks l)).
  { cbn [performs]. change (SCH_CONS) with (TWords sch). change (trl "a") with [name "a"]. rewrite <- inserted by exact K. apply inserting_after; [exact sch_single|exact (unsigned_names _ (names_word l))|intros []|intros [H|[]]; discriminate H|]. split; [discriminate|]. intros P. destruct (nil_before _ sch_single P). }
  apply (pa_op _ _ _ (flat_map (iso_toks false) l)).
  { change (rw_ctx (trl "a") [] None (some_of (VOWEL_S_TR ++ [trl "vir"]))) with (Rewrite [([name "a"], [])] None (Some (false, TWords signs))). cbn [performs]. rewrite <- deleted by exact K. apply deleting_before; [exact signs_single|exact (unsigned_names _ (names_mid l))]. }
  destruct l as [|x l]; [exact (proj2 (first_all _ first_ok (name "a") [] ltac:(intros [H|[]]; discriminate H) ltac:(discriminate)))|]. inversion K as [|? ? Kx Kl]; subst.
  assert (H : exists t u t', iso_toks false x = t :: u /\ iso_toks true x = t' :: u /\ t <> Eq /\ start t = t').
  { pose proof mark_facts as M. destruct x as [v|c v|c|c|]; cbn [known iso_toks] in *.
    - exists (name (v ++ "_i")), [], (name v). destruct (vow_facts v Kx) as (_ & _ & _ & _ & _ & E). repeat split; [discriminate|exact E].
    - exists (name c), [name v], (name c). destruct (cons_facts c (proj1 Kx)) as (_ & _ & _ & E). repeat split; [discriminate|exact E].
    - exists (name c), [name "a"], (name c). destruct (cons_facts c Kx) as (_ & _ & _ & E). repeat split; [discriminate|exact E].
    - exists (name c), [name "vir"], (name c). destruct (cons_facts c Kx) as (_ & _ & _ & E). repeat split; [discriminate|exact E].
    - exists (name "ans"), [], (name "ans"). repeat split; [discriminate|tauto]. }
  destruct H as (t & u & t' & E1 & E2 & Nt & Es). pose proof (names_iso false (x :: l)) as N. cbn [iso_word flat_map] in *. rewrite E1 in *. rewrite E2. cbn [app] in *. rewrite <- Es. apply first_all; [exact first_ok|apply unsigned_names; exact N|exact Nt].
Qed.
End Iso.

(** ** The texts *)
Definition brh_table (script : string) : list (tok * str) := map (fun r : string * (string * string) => (name (fst r), bytes (get_brh script (snd r)))) TO_BRAHMIC.
Definition iso_table : list (tok * str) := map (fun c => (Tr (typ c), glyph c)) (map bchar_char CHARS).
Definition same (a : option str) (b : option string) : bool := match a, b with Some x, Some y => str_eqb x (bytes y) | _, _ => false end.
Definition all_aksharas (o : orthography) : list akshara :=
  let cs := map fst (o_consonants o) in let vs := map fst (o_vowels o) in
  map Ind vs ++ flat_map (fun c => map (Syl c) vs) cs ++ map Bare cs ++ map Dead cs ++ match o_anusvara o with Some _ => [Nasal] | None => [] end.
Lemma known_all o x : known o x -> In x (all_aksharas o).
Proof.
  unfold all_aksharas. rewrite !in_app_iff. destruct x as [v|c v|c|c|]; cbn [known]; intros K.
  - left. apply in_map. exact K.
  - right. left. apply in_flat_map. exists c. split; [tauto|]. apply in_map. tauto.
  - do 2 right. left. apply in_map. exact K.
  - do 3 right. left. apply in_map. exact K.
  - do 4 right. destruct (o_anusvara o); [left; reflexivity|congruence].
Qed.
Lemma same_ok a b : same a b = true -> exists y, a = Some (bytes y) /\ b = Some y.
Proof. destruct a as [x|], b as [y|]; try discriminate. intros H. apply str_eqb_eq in H. subst. eauto. Qed.
Lemma native_text tab o l : forallb (fun x => same (values tab (akshara_toks x)) (native_akshara o x)) (all_aksharas o) = true -> Forall (known o) l -> exists t, native o l = Some t /\ values tab (word_toks l) = Some (bytes t).
Proof.
  intros C. unfold word_toks. induction 1 as [|x l K _ (t & E1 & E2)]; [exists ""%string; auto|]. cbn [native flat_map]. rewrite values_app, E1, E2. apply known_all in K. apply (proj1 (forallb_forall _ _) C) in K. apply same_ok in K as (y & -> & ->). exists (y ++ t)%string. rewrite bytes_app. auto.
Qed.
Lemma iso_text tab o l : forallb (fun b => forallb (fun x => same (values tab (iso_toks b x)) (iso_akshara o b x)) (all_aksharas o)) [true; false] = true -> Forall (known o) l -> exists t, iso o l = Some t /\ values tab (iso_word l) = Some (bytes t).
Proof.
  intros C K. cbn [forallb] in C. rewrite !andb_true_iff in C. destruct C as (C1 & C2 & _).
  assert (H : forall l, Forall (known o) l -> exists t, fold_right (fun y t => both (iso_akshara o false y) t) (Some ""%string) l = Some t /\ values tab (flat_map (iso_toks false) l) = Some (bytes t)).
  { clear K l. induction 1 as [|x l K _ (t & E1 & E2)]; [exists ""%string; auto|]. cbn [fold_right flat_map]. rewrite values_app, E1, E2. apply known_all in K. apply (proj1 (forallb_forall _ _) C2) in K. apply same_ok in K as (y & -> & ->). exists (y ++ t)%string. rewrite bytes_app. auto. }
  destruct l as [|x l]; [exists ""%string; auto|]. inversion K as [|? ? Kx Kl]; subst. destruct (H l Kl) as (t & E1 & E2). unfold iso, iso_word. rewrite values_app, E1, E2. apply known_all in Kx. apply (proj1 (forallb_forall _ _) C1) in Kx. apply same_ok in Kx as (y & -> & ->). exists (y ++ t)%string. rewrite bytes_app. auto.
Qed.
