(** Romanization: the languages. *)
From Coq Require Import String.
From Verif Require Import Base RuleModel RegexModel IsoModel AlignModel AlignSpec AlignProofs AlignMore NatModel NatSpec NatProofs NatBytes NatBlocks NatBlocksProofs NatTyp NatTypMain NatRepeats NatMain NatRoman.
Local Open Scope list_scope.

(** ** The letters that a character is written with *)
Fixpoint parse (fuel : nat) (s : str) : option (list bchar) :=
  match fuel with
  | 0 => None
  | S k => match s with
           | [] => Some []
           | _ => match find (fun d => prefixb (bglyph d) s) SINGLE_POINT with
                  | None => None
                  | Some d => match parse k (skipn (List.length (bglyph d)) s) with None => None | Some r => Some (d :: r) end
                  end
           end
  end.
Lemma parse_ok k : forall s r, parse k s = Some r -> letters r /\ text_of r = s.
Proof.
  induction k as [|k IH]; intros s r H; [discriminate H|]. cbn [parse] in H. destruct s as [|x s]; [injection H as <-; split; [constructor|reflexivity]|].
  destruct (find (fun d => prefixb (bglyph d) (x :: s)) SINGLE_POINT) as [d|] eqn:F; [|discriminate H]. destruct (parse k _) as [r'|] eqn:P; [|discriminate H]. injection H as <-. apply find_some in F as [I F]. destruct (IH _ _ P) as [L T]. split; [constructor; assumption|].
  cbn [text_of flat_map]. change (flat_map bglyph r') with (text_of r'). rewrite T. apply prefixb_spec in F. symmetry. apply is_prefix_skipn. exact F.
Qed.
Definition expand (c : bchar) : list bchar := match parse 9 (bglyph c) with Some r => r | None => [] end.
(** Of which the last two are a diphthong *)
Definition ends_diphthong (l : list bchar) : bool :=
  match rev l with x :: y :: _ => if String.eqb (btyp y) "a" then if String.eqb (btyp x) "i" then true else String.eqb (btyp x) "u" else false | _ => false end.
Lemma expands : forallb (fun c => match parse 9 (bglyph c) with None => false | Some r => if diphthong c then ends_diphthong r else true end) CHARS = true.
Proof. vm_compute. reflexivity. Qed.
Lemma expand_ok c : In c CHARS -> letters (expand c) /\ text_of (expand c) = bglyph c /\ (diphthong c = true -> ends_diphthong (expand c) = true).
Proof.
  intros I. pose proof (proj1 (forallb_forall _ _) expands c I) as K. cbn beta in K. unfold expand. destruct (parse 9 (bglyph c)) as [r|] eqn:P; [|discriminate K]. destruct (parse_ok _ _ _ P) as [L T]. split; [exact L|split; [exact T|]]. intros D. rewrite D in K. exact K.
Qed.
Lemma text_app a b : text_of (a ++ b) = text_of a ++ text_of b.
Proof. apply flat_map_app. Qed.
Lemma expand_all ds : (forall c, In c ds -> In c CHARS) -> letters (flat_map expand ds) /\ text_of (flat_map expand ds) = text_of ds.
Proof.
  induction ds as [|d ds IH]; intros H; [split; [constructor|reflexivity]|]. destruct IH as [L T]; [intros c I; apply H; right; exact I|]. destruct (expand_ok d (H d (or_introl eq_refl))) as (L1 & T1 & _). cbn [flat_map]. split; [apply Forall_app; auto|]. rewrite text_app, T, T1. reflexivity.
Qed.
Lemma letter_named c t : In c SINGLE_POINT -> In t known_letters -> String.eqb (btyp c) t = true -> c = sp t.
Proof.
  intros I It E. apply String.eqb_eq in E. pose proof (proj1 (forallb_forall _ _) known t It) as K. cbn beta in K. destruct (find (fun c => String.eqb (btyp c) t) SINGLE_POINT) as [d|] eqn:F; [|discriminate K]. destruct (sp_char t d F) as [-> J]. apply find_some in F as [_ F]. apply String.eqb_eq in F.
  apply symbol_inj; [exact (letter_char c I)|exact (letter_char d J)|]. unfold symbol_of. rewrite E, F. reflexivity.
Qed.
Lemma ends_diphthong_ok l : letters l -> ends_diphthong l = true -> exists u c, In c [sp "i"; sp "u"] /\ l = u ++ [sp "a"; c].
Proof.
  intros L H. unfold ends_diphthong in H. destruct (rev l) as [|x [|y r]] eqn:E; try discriminate H. assert (El : l = rev r ++ [y; x]) by (rewrite <- (rev_involutive l), E; cbn [rev]; rewrite <- app_assoc; reflexivity).
  assert (Iy : In y SINGLE_POINT) by (apply (proj1 (Forall_forall _ _) L); rewrite El, in_app_iff; right; left; reflexivity). assert (Ix : In x SINGLE_POINT) by (apply (proj1 (Forall_forall _ _) L); rewrite El, in_app_iff; right; right; left; reflexivity).
  destruct (String.eqb (btyp y) "a") eqn:Ey; [|discriminate H]. apply (letter_named y "a" Iy ltac:(cbn; tauto)) in Ey. destruct (String.eqb (btyp x) "i") eqn:Exi.
  - apply (letter_named x "i" Ix ltac:(cbn; tauto)) in Exi. exists (rev r), x. split; [left; symmetry; exact Exi|rewrite El, Ey; reflexivity].
  - apply (letter_named x "u" Ix ltac:(cbn; tauto)) in H. exists (rev r), x. split; [right; left; symmetry; exact H|rewrite El, Ey; reflexivity].
Qed.
Lemma ind_letter : In (sp "ind") SINGLE_POINT.
Proof. assert (H : existsb (fun c => String.eqb (btyp c) "ind") SINGLE_POINT = true) by (vm_compute; reflexivity). unfold sp. destruct (find _ SINGLE_POINT) as [c|] eqn:F; [apply find_some in F as [I _]; exact I|]. apply existsb_exists in H as (c & I & E). pose proof (find_none _ _ F c I) as K. cbn beta in K. congruence. Qed.
Lemma reading_letters cs ds : letters cs -> reading cs ds -> flat_map expand ds = cs \/ flat_map expand ds = sp "ind" :: cs.
Proof.
  intros H (Hd & _ & T). destruct (expand_all ds Hd) as [L E]. destruct T as [T|T]; [right|left]; apply text_inj; try assumption; [constructor; [exact ind_letter|exact H]| |]; rewrite E, T; [|reflexivity]. cbn [text_of flat_map]. rewrite ind_glyph. reflexivity.
Qed.
Lemma ind_not_a : sp "ind" <> sp "a".
Proof. intros E. apply (f_equal btyp) in E. vm_compute in E. discriminate E. Qed.
Lemma reading_plain cs ds : letters cs -> no_diphthong cs -> reading cs ds -> forall c, In c ds -> In c PLAIN.
Proof.
  intros H N R c I. pose proof R as (Hd & _ & _). apply filter_In. split; [exact (Hd c I)|]. destruct (diphthong c) eqn:D; [exfalso|reflexivity].
  destruct (expand_ok c (Hd c I)) as (L & _ & K). destruct (ends_diphthong_ok _ L (K D)) as (u & x & Ix & Ex). apply in_split in I as (d1 & d2 & ->). destruct (reading_letters cs _ H R) as [E|E]; rewrite flat_map_app in E; cbn [flat_map] in E; rewrite Ex, <- app_assoc in E; cbn [app] in E; rewrite app_assoc in E.
  - exact (N _ _ x Ix (eq_sym E)).
  - destruct (flat_map expand d1 ++ u) as [|y v] eqn:Ev; cbn [app] in E.
    + apply (f_equal (@hd_error bchar)) in E. cbn [hd_error] in E. apply ind_not_a. congruence.
    + apply (f_equal (@tl bchar)) in E. cbn [tl] in E. exact (N v _ x Ix (eq_sym E)).
Qed.
Lemma reading_chars cs ds : reading cs ds -> forall c, In c ds -> In c CHARS.
Proof. intros (H & _). exact H. Qed.

Lemma romanize_seven e l s f cs : romanize e l s = Some f -> l <> Gu -> l <> Pa -> letters cs -> exists x, only x (f (text_of cs)) /\ lower_case x.
Proof.
  intros E N1 N2 H. destruct (reading_exists cs H) as (ds & R). assert (I : In l [Hi; Bn; Ta; Kn; Te; Ml; Mr]) by (destruct l; cbn; tauto || congruence).
  destruct (romanize_ok true CHARS e l s f cs ds E (latin_all_ok true CHARS l s (proj1 (forallb_forall _ _) latin_seven l I)) H R (reading_chars cs ds R)) as (_ & Lo & U). destruct (U eq_refl) as (x & On). exists x. split; [exact On|]. apply Lo, On. reflexivity.
Qed.
Lemma romanize_gu e s f cs : romanize e Gu s = Some f -> letters cs -> no_diphthong cs -> exists x, only x (f (text_of cs)) /\ lower_case x.
Proof.
  intros E H N. destruct (reading_exists cs H) as (ds & R).
  destruct (romanize_ok true PLAIN e Gu s f cs ds E (latin_all_ok true PLAIN Gu s latin_gu) H R (reading_plain cs ds H N R)) as (_ & Lo & U). destruct (U eq_refl) as (x & On). exists x. split; [exact On|]. apply Lo, On. reflexivity.
Qed.
Lemma romanize_pa e s f cs : romanize e Pa s = Some f -> letters cs -> f (text_of cs) <> [] /\ forall x, In x (f (text_of cs)) -> lower_case x.
Proof.
  intros E H. destruct (reading_exists cs H) as (ds & R). destruct (romanize_ok false CHARS e Pa s f cs ds E (latin_all_ok false CHARS Pa s latin_pa) H R (reading_chars cs ds R)) as ((x & I) & Lo & _). split; [intros Ez; rewrite Ez in I; destruct I|exact Lo].
Qed.
Lemma has_scheme e s : exists f, romanize e Gu s = Some f.
Proof. destruct s; eexists; reflexivity. Qed.
