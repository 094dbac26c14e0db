(** Joined consonants and long vowels at the ends of Hindi words. *)
From Coq Require Import String.
From Verif Require Import Base RuleModel RegexModel RegexProofs IsoModel AlignModel AlignSpec AlignProofs AlignMore NatModel NatSpec NatProofs NatBytes NatBlocks NatBlocksProofs NatTyp NatTypMain DeromModel DeromBytes DeromPieces DeromSpec DeromReading DeromText DeromIso DeromRun.
Local Open Scope list_scope.

Definition onset : list word := trs (SIMPLE_CONSONANT ++ ASPIRATED_CONSONANT ++ DEAD_CONSONANT).

(** ** After the first symbol *)
Lemma first_before ws d : unsigned d -> (preceded (Some (true, TCat (TQues TSKIP_LEFT) (TWords ws))) d <-> In d ws).
Proof.
  intros N. unfold preceded. split.
  - intros (u & a & x & -> & M & Sk & H). rewrite !unsigned_app in N. rewrite (H eq_refl), (unsigned_skipped x ltac:(tauto) Sk), app_nil_r. apply tcat_inv in M as (y & z & -> & M1 & M2). rewrite (unsigned_app y z) in N. rewrite (skip_left_unsigned y ltac:(tauto) M1). apply words_inv in M2. exact M2.
  - intros I. exists [], d, []. rewrite app_nil_r. split; [reflexivity|split; [|split; [left; reflexivity|reflexivity]]]. apply (m_cat _ _ [] d); [apply m_none|apply m_words; exact I].
Qed.
Lemma last_after ws d : unsigned d -> (followed (Some (true, TCat (TWords ws) (TQues TSKIP_RIGHT))) d <-> In d ws).
Proof.
  intros N. unfold followed. split.
  - intros (x & a & u & -> & M & Sk & H). rewrite !unsigned_app in N. rewrite (H eq_refl), (unsigned_skipped x ltac:(tauto) Sk), app_nil_r. apply tcat_inv in M as (y & z & -> & M1 & M2). rewrite (unsigned_app y z) in N. rewrite (skip_right_unsigned z ltac:(tauto) M2), app_nil_r. apply words_inv in M1. exact M1.
  - intros I. exists [], d, []. rewrite app_nil_r. split; [reflexivity|split; [|split; [left; reflexivity|reflexivity]]]. rewrite <- (app_nil_r d). apply m_cat; [apply m_words; exact I|apply m_none].
Qed.
Lemma in_words_ok t ws : in_words t ws = true <-> In [t] ws. Proof. apply existsb_word. Qed.
Lemma singles_len ws d : singles ws = true -> In d ws -> exists t, d = [t].
Proof. intros S I. pose proof (proj1 (forallb_forall _ _) S _ I) as K. destruct d as [|t [|]]; try discriminate K. eauto. Qed.
Definition insert_second (ps fs : list word) (new ts : word) : word :=
  match ts with c :: t :: rest => if in_words c ps then if in_words t fs then c :: new ++ t :: rest else ts else ts | _ => ts end.
Section Start.
Variables (ps fs : list word) (new : word).
Hypothesis ps_single : singles ps = true.
Hypothesis fs_single : singles fs = true.
Hypothesis new_unsigned : unsigned new.
Notation P := (Some (true, TCat (TQues TSKIP_LEFT) (TWords ps))).
Notation F := (Some (false, TWords fs)).
Lemma far_copy ts : unsigned ts -> forall done, unsigned done -> 2 <= List.length done -> inserting new P F done ts ts.
Proof.
  induction ts as [|t ts IH]; intros N done Nd Ln.
  - apply in_end. intros [H _]. apply first_before in H; [|exact Nd]. destruct (singles_len _ _ ps_single H) as (x & ->). cbn in Ln. lia.
  - apply unsigned_cons in N as [Nt N]. apply in_copy; [intros [H _]; apply first_before in H; [|exact Nd]; destruct (singles_len _ _ ps_single H) as (x & ->); cbn in Ln; lia|]. apply IH; [exact N|apply unsigned_app; split; [exact Nd|apply unsigned_cons; split; [exact Nt|intros []]]|rewrite app_length; lia].
Qed.
Lemma inserting_second ts : unsigned ts -> inserting new P F [] ts (insert_second ps fs new ts).
Proof.
  intros N. assert (N0 : ~ preceded P []) by (intros H; apply first_before in H; [|intros []]; destruct (singles_len _ _ ps_single H) as (x & E); discriminate E).
  destruct ts as [|c ts]; [apply in_end; tauto|]. pose proof N as N'. apply unsigned_cons in N' as [Nc Nts]. assert (Uc : unsigned [c]) by (apply unsigned_cons; split; [exact Nc|intros []]).
  destruct ts as [|t rest]; cbn [insert_second].
  - apply in_copy; [tauto|]. apply in_end. intros [_ H]. exact (nil_after fs fs_single H).
  - apply unsigned_cons in Nts as [Nt Nr]. assert (Ut : unsigned [t]) by (apply unsigned_cons; split; [exact Nt|intros []]).
    assert (Cp : ~ (preceded P [c] /\ followed F (t :: rest)) -> inserting new P F [] (c :: t :: rest) (c :: t :: rest)).
    { intros H. apply in_copy; [tauto|]. cbn [app]. apply in_copy; [exact H|]. apply far_copy; [exact Nr|cbn [app]; change [c; t] with ([c] ++ [t]); apply unsigned_app; auto|cbn; lia]. }
    destruct (in_words c ps) eqn:Ec; [destruct (in_words t fs) eqn:Et|].
    + apply in_copy; [tauto|]. cbn [app]. apply in_new; [apply first_before; [exact Uc|apply in_words_ok; exact Ec]|apply single_after; [exact fs_single|apply unsigned_cons; auto|exact Et]|].
      apply far_copy; [exact Nr|rewrite !unsigned_app; auto|rewrite !app_length; cbn; lia].
    + apply Cp. intros [_ H]. apply single_after in H; [congruence|exact fs_single|apply unsigned_cons; auto].
    + apply Cp. intros [H _]. apply first_before in H; [|exact Uc]. apply in_words_ok in H. congruence.
Qed.
End Start.

(** ** The last symbol *)
Fixpoint replace_last (x y : tok) (ts : word) : word :=
  match ts with [] => [] | t :: ts' => (if tok_eqb x t then match ts' with [] => y | _ => t end else t) :: replace_last x y ts' end.
Lemma replacing_last x y ts : unsigned ts -> forall done, rewriting [([x], [y])] None TEOW done ts (replace_last x y ts).
Proof.
  induction ts as [|t ts IH]; intros N done; cbn [replace_last]; [constructor|]. apply unsigned_cons in N as [_ N]. destruct (tok_eqb x t) eqn:E.
  - apply tok_eqb_spec in E. subst t. destruct ts as [|t ts].
    + apply (re_apply _ _ _ done [x] [y] []); [left; reflexivity|exact Logic.I|apply eow_unsigned; [intros []|reflexivity]|constructor].
    + apply re_copy; [|apply IH; exact N]. intros l r u [H|[]] Eu H2 _. injection H as <- <-. injection Eu as <-. apply eow_unsigned in H2; [discriminate H2|exact N].
  - apply re_copy; [|apply IH; exact N]. intros l r u [H|[]] Eu _ _. injection H as <- <-. injection Eu as -> _. rewrite tok_eqb_refl in E. discriminate E.
Qed.
Fixpoint insert_last (ps fs : list word) (new : word) (b : bool) (ts : word) : word :=
  match ts with
  | [] => []
  | t :: ts' => (match ts' with [] => if b then if in_words t fs then new else [] else [] | _ => [] end) ++ t :: insert_last ps fs new (in_words t ps) ts'
  end.
Section End.
Variables (ps fs : list word) (new : word).
Hypothesis ps_single : singles ps = true.
Hypothesis fs_single : singles fs = true.
Hypothesis new_unsigned : unsigned new.
Notation P := (Some (false, TWords ps)).
Notation F := (Some (true, TCat (TWords fs) (TQues TSKIP_RIGHT))).
Lemma inserting_last ts : unsigned ts -> forall done b, unsigned done -> (b = true <-> preceded P done) -> inserting new P F done ts (insert_last ps fs new b ts).
Proof.
  assert (N0 : ~ followed F []) by (intros H; apply last_after in H; [|intros []]; destruct (singles_len _ _ fs_single H) as (x & E); discriminate E).
  induction ts as [|t ts IH]; intros N done b Nd Eb; cbn [insert_last]; [apply in_end; tauto|]. pose proof N as Ntts. apply unsigned_cons in N as [Nt N]. assert (Ut : unsigned [t]) by (apply unsigned_cons; split; [exact Nt|intros []]).
  assert (NX : inserting new P F (done ++ [t]) ts (insert_last ps fs new (in_words t ps) ts)) by (apply IH; [exact N|apply unsigned_app; auto|rewrite single_before; [tauto|exact ps_single|apply unsigned_app; auto]]).
  assert (Cp : ~ (preceded P done /\ followed F (t :: ts)) -> inserting new P F done (t :: ts) (t :: insert_last ps fs new (in_words t ps) ts)) by (intros H; apply in_copy; [exact H|exact NX]).
  destruct ts as [|t2 ts]; cbn [app].
  - destruct b; [destruct (in_words t fs) eqn:Et|]; cbn [app].
    + apply in_new; [apply Eb; reflexivity|apply last_after; [exact Ut|apply in_words_ok; exact Et]|]. cbn [insert_last]. apply in_end. tauto.
    + apply Cp. intros [_ H]. apply last_after in H; [|exact Ut]. apply in_words_ok in H. congruence.
    + apply Cp. intros [H _]. apply Eb in H. discriminate H.
  - apply Cp. intros [_ H]. apply last_after in H; [|exact Ntts]. destruct (singles_len _ _ fs_single H) as (x & E). discriminate E.
Qed.
End End.

(** ** On syllables *)
Definition check_joins_o (o : orthography) : bool :=
  forallb (fun c => in_words (name c) sch && in_words (name c) onset && negb (is_a (name c))) (map fst (o_consonants o)) &&
  forallb (fun v => negb (in_words (name v) sch) && negb (in_words (name v) onset) && negb (in_words (name (v ++ "_i")) sch) && negb (in_words (name (v ++ "_i")) onset) && negb (is_a (name (v ++ "_i")))) (map fst (o_vowels o)) &&
  forallb (fun m => negb (in_words (name m) sch) && negb (in_words (name m) onset) && negb (is_a (name m))) ["vir"; "ans"]%string &&
  has (map fst (o_vowels o)) "aa".
Lemma code_inj a b : bytes a = bytes b -> a = b.
Proof.
  revert b. induction a as [|c a IH]; intros [|d b] E; try reflexivity; try discriminate E. unfold bytes in E. cbn in E. injection E as Ec E. rewrite (IH b E). f_equal. rewrite <- (Ascii.ascii_N_embedding c), <- (Ascii.ascii_N_embedding d). f_equal. exact Ec.
Qed.
Lemma is_a_ok v : is_a (name v) = String.eqb v "a".
Proof.
  unfold is_a. destruct (String.eqb v "a") eqn:E; [apply String.eqb_eq in E; subst v; apply tok_eqb_refl|]. destruct (tok_eqb (name "a") (name v)) eqn:H; [|reflexivity]. apply tok_eqb_spec in H. injection H as H. change [97%N] with (bytes "a") in H. apply code_inj in H. subst v. discriminate E.
Qed.
Lemma lengthen_cons x y l : lengthen (x :: y :: l) = x :: lengthen (y :: l).
Proof. destruct x as [v|c v|c|c|]; try reflexivity. destruct v as [|a v]; [reflexivity|]. destruct a as [[] [] [] [] [] [] [] []]; destruct v; reflexivity. Qed.
Lemma lengthen_one c v : lengthen [Syl c v] = [Syl c (if String.eqb v "a" then "aa" else v)].
Proof. destruct v as [|a v]; [reflexivity|]. destruct a as [[] [] [] [] [] [] [] []]; destruct v; reflexivity. Qed.
Section Syllables.
Variable o : orthography.
Hypothesis o_ok : check_joins_o o = true.
Lemma jc c : In c (map fst (o_consonants o)) -> in_words (name c) sch = true /\ in_words (name c) onset = true /\ is_a (name c) = false.
Proof. intros I. pose proof o_ok as C. unfold check_joins_o in C. rewrite !andb_true_iff in C. destruct C as [[[C _] _] _]. apply (proj1 (forallb_forall _ _) C) in I. rewrite !andb_true_iff, !negb_true_iff in I. tauto. Qed.
Lemma jv v : In v (map fst (o_vowels o)) -> in_words (name v) sch = false /\ in_words (name v) onset = false /\ in_words (name (v ++ "_i")) sch = false /\ in_words (name (v ++ "_i")) onset = false /\ is_a (name (v ++ "_i")) = false.
Proof. intros I. pose proof o_ok as C. unfold check_joins_o in C. rewrite !andb_true_iff in C. destruct C as [[[_ C] _] _]. apply (proj1 (forallb_forall _ _) C) in I. rewrite !andb_true_iff, !negb_true_iff in I. tauto. Qed.
Lemma jm m : In m ["vir"; "ans"]%string -> in_words (name m) sch = false /\ in_words (name m) onset = false /\ is_a (name m) = false.
Proof. intros I. pose proof o_ok as C. unfold check_joins_o in C. rewrite !andb_true_iff in C. destruct C as [[_ C] _]. apply (proj1 (forallb_forall _ _) C) in I. rewrite !andb_true_iff, !negb_true_iff in I. tauto. Qed.
Lemma j_aa : In "aa"%string (map fst (o_vowels o)).
Proof. pose proof o_ok as C. unfold check_joins_o in C. rewrite !andb_true_iff in C. apply has_ok. tauto. Qed.
Notation vir := [name "vir"].
Lemma second_start l : Forall (known o) l -> insert_second sch onset vir (word_toks l) = word_toks (join_start l).
Proof.
  intros K. destruct K as [|x l Kx Kl]; [reflexivity|]. unfold word_toks. destruct x as [v|c v|c|c|]; cbn [known flat_map akshara_toks app] in *.
  - cbn [join_start flat_map akshara_toks app]. destruct (jv v Kx) as (_ & _ & E & _). unfold insert_second. rewrite E. destruct (flat_map akshara_toks l); reflexivity.
  - cbn [join_start flat_map akshara_toks app]. destruct (jv v (proj2 Kx)) as (_ & E & _). unfold insert_second. rewrite E. destruct (in_words (name c) sch); reflexivity.
  - destruct (jc c Kx) as (E & _). destruct Kl as [|y l Ky _]; [reflexivity|]. destruct y as [v|c' v|c'|c'|]; cbn [known flat_map akshara_toks app join_start] in *; unfold insert_second; rewrite E.
    + destruct (jv v Ky) as (_ & _ & _ & -> & _). reflexivity.
    + destruct (jc c' (proj1 Ky)) as (_ & -> & _). reflexivity.
    + destruct (jc c' Ky) as (_ & -> & _). reflexivity.
    + destruct (jc c' Ky) as (_ & -> & _). reflexivity.
    + destruct (jm "ans" (or_intror (or_introl eq_refl))) as (_ & -> & _). reflexivity.
  - cbn [join_start flat_map akshara_toks app]. destruct (jm "vir" (or_introl eq_refl)) as (_ & E & _). unfold insert_second. rewrite E. destruct (in_words (name c) sch); reflexivity.
  - cbn [join_start flat_map akshara_toks app]. destruct (jm "ans" (or_intror (or_introl eq_refl))) as (E & _). unfold insert_second. rewrite E. destruct (flat_map akshara_toks l); reflexivity.
Qed.
Lemma word_start y l : exists t u, word_toks (y :: l) = t :: u. Proof. unfold word_toks. destruct y; cbn; eauto. Qed.
Lemma replace_keep t ts : is_a t = false \/ ts <> [] -> replace_last (name "a") (name "aa") (t :: ts) = t :: replace_last (name "a") (name "aa") ts.
Proof. cbn [replace_last]. unfold is_a. intros [->|N]; [reflexivity|]. destruct ts; [congruence|]. destruct (tok_eqb _ t); reflexivity. Qed.
Lemma last_long l : Forall (known o) l -> replace_last (name "a") (name "aa") (word_toks l) = word_toks (lengthen l).
Proof.
  induction 1 as [|x l Kx Kl IH]; [reflexivity|]. destruct l as [|y l].
  - destruct x as [v|c v|c|c|]; cbn [known] in Kx.
    + unfold word_toks. cbn [flat_map akshara_toks app lengthen]. rewrite replace_keep by (left; apply jv; exact Kx). reflexivity.
    + rewrite lengthen_one. unfold word_toks. cbn [flat_map akshara_toks app]. rewrite replace_keep by (right; discriminate). cbn [replace_last]. fold (is_a (name v)). rewrite is_a_ok. destruct (String.eqb v "a"); reflexivity.
    + unfold word_toks. cbn [flat_map akshara_toks app lengthen]. rewrite replace_keep by (left; apply jc; exact Kx). reflexivity.
    + unfold word_toks. cbn [flat_map akshara_toks app lengthen]. rewrite replace_keep by (right; discriminate). rewrite replace_keep by (left; apply jm; left; reflexivity). reflexivity.
    + unfold word_toks. cbn [flat_map akshara_toks app lengthen]. rewrite replace_keep by (left; apply jm; right; left; reflexivity). reflexivity.
  - rewrite lengthen_cons. change (word_toks (x :: y :: l)) with (akshara_toks x ++ word_toks (y :: l)). change (word_toks (x :: lengthen (y :: l))) with (akshara_toks x ++ word_toks (lengthen (y :: l))). rewrite <- IH. destruct (word_start y l) as (t & u & ->).
    destruct x; cbn [akshara_toks app]; rewrite !replace_keep by (right; discriminate); reflexivity.
Qed.
Notation ins := (insert_last sch onset vir).
Lemma ins_two b t u ts : ins b (t :: u :: ts) = t :: ins (in_words t sch) (u :: ts). Proof. reflexivity. Qed.
Lemma ins_true l : Forall (known o) l -> ins true (word_toks l) = (match l with [Bare d] => name "vir" :: [name d] | _ => ins false (word_toks l) end).
Proof.
  intros K. destruct K as [|x l Kx Kl]; [reflexivity|]. destruct l as [|y l].
  - unfold word_toks. destruct x as [v|c v|c|c|]; cbn [known] in Kx; cbn [flat_map akshara_toks app].
    + destruct (jv v Kx) as (_ & _ & _ & E & _). cbn [insert_last]. rewrite E. reflexivity.
    + reflexivity.
    + destruct (jc c Kx) as (_ & E & _). cbn [insert_last]. rewrite E. reflexivity.
    + reflexivity.
    + destruct (jm "ans" (or_intror (or_introl eq_refl))) as (_ & E & _). cbn [insert_last]. rewrite E. reflexivity.
  - change (word_toks (x :: y :: l)) with (akshara_toks x ++ word_toks (y :: l)). destruct (word_start y l) as (t & u & ->). destruct x; cbn [akshara_toks app]; reflexivity.
Qed.
Lemma last_end l : Forall (known o) l -> ins false (word_toks l) = word_toks (join_end l).
Proof.
  induction 1 as [|x l Kx Kl IH]; [reflexivity|]. destruct l as [|y l].
  - unfold word_toks. destruct x as [v|c v|c|c|]; cbn [known] in Kx; cbn [flat_map akshara_toks app join_end]; try reflexivity; cbn [insert_last].
    + destruct (jv v (proj2 Kx)) as (_ & E & _). rewrite E. destruct (in_words (name c) sch); reflexivity.
    + destruct (jm "vir" (or_introl eq_refl)) as (_ & E & _). rewrite E. destruct (in_words (name c) sch); reflexivity.
  - assert (Q : (forall c, x <> Bare c) \/ (forall d, y :: l <> [Bare d]) -> join_end (x :: y :: l) = x :: join_end (y :: l)).
    { intros [H|H]; [destruct x; try reflexivity; destruct (H _ eq_refl)|]. destruct x; try reflexivity. destruct y; try reflexivity. destruct l; [destruct (H _ eq_refl)|reflexivity]. }
    assert (W : forall b, ins b (word_toks (y :: l)) = match (if b then match y :: l with [Bare d] => true | _ => false end else false) with true => name "vir" :: word_toks (y :: l) | false => word_toks (join_end (y :: l)) end).
    { intros [|]; [|exact IH]. rewrite (ins_true (y :: l) Kl). destruct y; try exact IH. destruct l; [reflexivity|exact IH]. }
    destruct x as [v|c v|c|c|]; cbn [known] in Kx.
    + rewrite Q by (left; discriminate). change (word_toks (Ind v :: y :: l)) with (name (v ++ "_i") :: word_toks (y :: l)). destruct (word_start y l) as (t & u & Et). rewrite Et, ins_two, <- Et. destruct (jv v Kx) as (_ & _ & -> & _). rewrite IH. reflexivity.
    + rewrite Q by (left; discriminate). change (word_toks (Syl c v :: y :: l)) with (name c :: name v :: word_toks (y :: l)). destruct (word_start y l) as (t & u & Et). rewrite Et, !ins_two, <- Et. destruct (jv v (proj2 Kx)) as (-> & _). rewrite IH. reflexivity.
    + change (word_toks (Bare c :: y :: l)) with (name c :: word_toks (y :: l)). destruct (word_start y l) as (t & u & Et). rewrite Et, ins_two, <- Et. destruct (jc c Kx) as (-> & _). rewrite W. destruct y as [v|c' v|c'|c'|]; try reflexivity. destruct l as [|z l]; reflexivity.
    + rewrite Q by (left; discriminate). change (word_toks (Dead c :: y :: l)) with (name c :: name "vir" :: word_toks (y :: l)). destruct (word_start y l) as (t & u & Et). rewrite Et, !ins_two, <- Et. destruct (jm "vir" (or_introl eq_refl)) as (-> & _). rewrite IH. reflexivity.
    + rewrite Q by (left; discriminate). change (word_toks (Nasal :: y :: l)) with (name "ans" :: word_toks (y :: l)). destruct (word_start y l) as (t & u & Et). rewrite Et, ins_two, <- Et. destruct (jm "ans" (or_intror (or_introl eq_refl))) as (-> & _). rewrite IH. reflexivity.
Qed.
Lemma start_known l : Forall (known o) l -> Forall (known o) (join_start l).
Proof. intros K. destruct K as [|x l Kx Kl]; [constructor|]. destruct x; try (constructor; assumption). destruct Kl as [|y l Ky Kl]; [repeat constructor; exact Kx|]. destruct y; cbn [join_start]; repeat (constructor; try assumption). Qed.
Lemma long_known l : Forall (known o) l -> Forall (known o) (lengthen l).
Proof.
  induction 1 as [|x l Kx Kl IH]; [constructor|]. destruct l as [|y l]; [|rewrite lengthen_cons; constructor; assumption]. destruct x as [v|c v|c|c|]; try (constructor; [exact Kx|constructor]). rewrite lengthen_one. constructor; [|constructor]. destruct Kx as [Kc Kv]. split; [exact Kc|]. destruct (String.eqb v "a"); [exact j_aa|exact Kv].
Qed.
Lemma end_known l : Forall (known o) l -> Forall (known o) (join_end l).
Proof.
  induction 1 as [|x l Kx Kl IH]; [constructor|]. destruct l as [|y l]; [destruct x; constructor; try assumption; constructor|]. destruct x; try (constructor; assumption). destruct y; try (constructor; assumption). destruct l; [|constructor; assumption]. cbn [join_end]. constructor; [exact Kx|exact Kl].
Qed.
Hypothesis sch_single : singles sch = true.
Hypothesis onset_single : singles onset = true.
Lemma joins l : Forall (known o) l -> performs_all (rw_cluster_wi ++ rw_cluster_wf) (word_toks l) (word_toks (join_end (lengthen (join_start l)))).
Proof.
  intros K. pose proof (start_known l K) as K1. pose proof (long_known _ K1) as K2. unfold rw_cluster_wi, rw_cluster_wf. cbn [app]. assert (Uv : unsigned vir) by (intros [H|[]]; discriminate H).
  apply (pa_op _ _ _ (word_toks (join_start l))). { cbn [performs]. change SCH_CONS with (TWords sch). change ONSET_CONS with (TWords onset). change (trl "vir") with vir. rewrite <- second_start by exact K. apply inserting_second; auto. exact (unsigned_names _ (names_word l)). }
  apply (pa_op _ _ _ (word_toks (lengthen (join_start l)))). { change (rw_ctx (trl "a") (trl "aa") None TEOW) with (Rewrite [([name "a"], [name "aa"])] None TEOW). cbn [performs]. rewrite <- last_long by exact K1. apply replacing_last. exact (unsigned_names _ (names_word _)). }
  apply (pa_op _ _ _ (word_toks (join_end (lengthen (join_start l))))); [|constructor]. cbn [performs]. change SCH_CONS with (TWords sch). change ONSET_CONS with (TWords onset). change (trl "vir") with vir. rewrite <- last_end by exact K2. apply inserting_last; auto; [exact (unsigned_names _ (names_word _))|intros []|]. split; [discriminate|]. intros H. destruct (nil_before _ sch_single H).
Qed.
End Syllables.
