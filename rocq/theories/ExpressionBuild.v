From Verif Require Import Base ExpressionModel ExpressionSpec ExpressionProofs.

Lemma cat_step_eq x acc : cat_step x acc =
  if is_any x then acc ++ [x] else
  match x with
  | ICat l => cat_list l acc
  | ISym s | IAtm s => if is_control s then acc else acc ++ [IAtm s]
  | IOr [y] => cat_step y acc
  | _ => acc ++ [copy x]
  end.
Proof. destruct x as [s|s| | |l|l|l r]; reflexivity. Qed.
Definition update (x : item) : list item := if accepts (IOr []) x false then [] else add_item_code x [].
Lemma or_step_eq x acc : or_step x acc =
  if accepts (IOr acc) x false then
    if accepts x (IOr acc) false && Nat.ltb (state_count x) (state_count (IOr acc)) then update x else acc
  else if accepts x (IOr acc) false then update x
  else add_item_code x acc.
Proof. destruct x as [s|s| | |l|l|l r]; reflexivity. Qed.
Lemma copy_eq x : copy x = match x with ICat l => ICat (cat_list l []) | IOr l => IOr (or_list l []) | IAlg l r => IAlg (copy l) (copy r) | _ => x end.
Proof. destruct x; reflexivity. Qed.

(** Or._update adds the item to the emptied alternation *)
Lemma update_code x : is_any x = false -> update x = or_list [x] [].
Proof.
  intros H. cbn [or_list has_any existsb]. rewrite H. rewrite or_step_eq. unfold update.
  cbn [state_count map list_sum fold_right]. rewrite Nat.ltb_irrefl || idtac.
  destruct (accepts (IOr []) x false) eqn:E.
  - rewrite (accepts_empty x H). reflexivity.
  - rewrite (accepts_empty x H). reflexivity.
Qed.

(** Well-formed expressions: what the constructors make *)
Definition cat_ok (x : item) : Prop :=
  is_any x = true \/
  match x with IAtm s => is_control s = false | ISym _ => False | ICat _ => False | IOr l => length l <> 1 | _ => True end.
Definition or_ok (x : item) : Prop :=
  match x with IAtm s => is_control s = false | ISym _ => False | IOr _ => False | ICat l => length l <> 1 | _ => True end.
Definition or_good (l : list item) : Prop :=
  forall p x r, l = p ++ x :: r ->
  is_any x = false /\ symbols x <> [] /\ or_ok x /\ accepts (IOr p) x false = false /\ accepts x (IOr p) false = false.
Inductive wf : item -> Prop :=
| wf_sym : forall s, s <> Fresh -> wf (ISym s)
| wf_atm : forall s, s <> Fresh -> wf (IAtm s)
| wf_any : wf IAny
| wf_exp : wf IExp
| wf_cat : forall l, Forall wf l -> Forall cat_ok l -> wf (ICat l)
| wf_or_any : forall y, wf y -> is_any y = true -> wf (IOr [y])
| wf_or : forall l, Forall wf l -> or_good l -> wf (IOr l)
| wf_alg : forall l r, wf l -> wf r -> wf (IAlg l r).

Lemma or_good_in l x : or_good l -> In x l -> is_any x = false /\ symbols x <> [] /\ or_ok x.
Proof. intros G H. apply in_split in H as (p & r & ->). destruct (G p x r eq_refl) as (A & B & C & _). split; [exact A|]. split; assumption. Qed.
Lemma or_good_nil : or_good [].
Proof. intros [|] ? ? H; discriminate H. Qed.
Lemma or_good_prefix p r : or_good (p ++ r) -> or_good p.
Proof. intros G p' x r' ->. apply (G p' x (r' ++ r)). rewrite <- app_assoc. reflexivity. Qed.
Lemma or_good_app l x : or_good l -> is_any x = false -> symbols x <> [] -> or_ok x ->
  accepts (IOr l) x false = false -> accepts x (IOr l) false = false -> or_good (l ++ [x]).
Proof.
  intros G A B C D E p y r H. destruct r as [|z r].
  - apply app_inj_tail in H as [<- <-]. repeat split; assumption.
  - assert (N : z :: r <> []) by discriminate. destruct (exists_last N) as (r' & t & Hr). rewrite Hr in H.
    change (l ++ [x] = p ++ [y] ++ (r' ++ [t])) in H. rewrite !app_assoc in H. apply app_inj_tail in H as [H _].
    apply (G p y r'). rewrite H, <- app_assoc. reflexivity.
Qed.
Lemma or_good_has_any l : or_good l -> has_any l = false.
Proof.
  intros G. destruct (has_any l) eqn:E; [|reflexivity]. apply existsb_exists in E as (x & Hx & E).
  destruct (or_good_in l x G Hx) as (A & _). destruct x; try discriminate E. discriminate A.
Qed.
Lemma or_good_is_any l : or_good l -> is_any (IOr l) = false.
Proof. intros G. destruct l as [|y [|z r]]; try reflexivity. cbn [is_any]. apply (or_good_in [y] y G). left; reflexivity. Qed.
Lemma or_good_symbols l : or_good l -> symbols (IOr l) <> [].
Proof.
  intros G. destruct l as [|y r]; [discriminate|]. rewrite symbols_or by discriminate. cbn [map concat].
  destruct (or_good_in (y :: r) y G (or_introl eq_refl)) as (_ & B & _). destruct (symbols y); [congruence|discriminate].
Qed.

(** Copies *)
Lemma cat_list_copies l : Forall (fun y => copy y = y) l -> Forall cat_ok l -> forall acc, cat_list l acc = acc ++ l.
Proof.
  induction l as [|y l IH]; intros H1 H2 acc; cbn [cat_list]; [symmetry; apply app_nil_r|].
  inversion H1 as [|? ? C1 C2]; subst. inversion H2 as [|? ? O1 O2]; subst.
  replace (cat_step y acc) with (acc ++ [y]).
  - rewrite (IH C2 O2), <- app_assoc. reflexivity.
  - rewrite cat_step_eq. destruct O1 as [A|A]; [rewrite A; reflexivity|]. destruct (is_any y) eqn:E; [reflexivity|].
    destruct y as [s|s| | |k|k|k r]; try contradiction; try reflexivity.
    + rewrite A. reflexivity.
    + destruct k as [|z [|z' k]]; try (rewrite C1; reflexivity). cbn in A. congruence.
    + rewrite C1. reflexivity.
Qed.
Lemma or_list_copies l : Forall (fun y => copy y = y) l -> forall p, or_good (p ++ l) -> or_list l p = p ++ l.
Proof.
  induction l as [|y l IH]; intros H1 p G; cbn [or_list]; [symmetry; apply app_nil_r|].
  inversion H1 as [|? ? C1 C2]; subst. destruct (G p y l eq_refl) as (A & B & C & D & E).
  rewrite (or_good_has_any p (or_good_prefix _ _ G)), A.
  replace (or_step y p) with (p ++ [y]).
  - rewrite (IH C2), <- app_assoc; [reflexivity|]. rewrite <- app_assoc. exact G.
  - rewrite or_step_eq, D, E. unfold add_item_code. destruct y as [s|s| | |k|k|k r]; try contradiction; try reflexivity.
    + cbn in C. rewrite C. reflexivity.
    + destruct k as [|z [|z' k]]; try (rewrite C1; reflexivity). cbn in C. congruence.
Qed.
Lemma wf_copy x : wf x -> copy x = x.
Proof.
  induction x as [s|s| | |l IH|l IH|l r IHl IHr] using item_ind'; intros W; try reflexivity; rewrite copy_eq; inversion W; subst.
  - rewrite cat_list_copies; [reflexivity| |assumption].
    apply Forall_forall. intros y Hy. apply (proj1 (Forall_forall _ _) IH y Hy). exact (proj1 (Forall_forall _ _) H0 y Hy).
  - cbn [or_list has_any existsb]. rewrite H1. reflexivity.
  - rewrite or_list_copies; [reflexivity| |assumption].
    apply Forall_forall. intros y Hy. apply (proj1 (Forall_forall _ _) IH y Hy). exact (proj1 (Forall_forall _ _) H0 y Hy).
  - rewrite (IHl H1), (IHr H2). reflexivity.
Qed.

(** Concatenations *)
Lemma lang_cat_app a b : forall w, lang (ICat (a ++ b)) w <-> exists u v, w = u ++ v /\ lang (ICat a) u /\ lang (ICat b) v.
Proof.
  induction a as [|x a IH]; intros w; cbn [app].
  - split.
    + intros H. exists [], w. split; [reflexivity|]. split; [constructor|exact H].
    + intros (u & v & -> & Hu & Hv). inversion Hu; subst. exact Hv.
  - rewrite lang_cat_inv. split.
    + intros (u & v & -> & Hu & Hv). apply IH in Hv as (v1 & v2 & -> & A & B).
      exists (u ++ v1), v2. split; [apply app_assoc|]. split; [constructor; assumption|exact B].
    + intros (u & v & -> & Hu & Hv). apply lang_cat_inv in Hu as (u1 & u2 & -> & A & B).
      exists u1, (u2 ++ v). split; [symmetry; apply app_assoc|]. split; [exact A|]. apply IH. exists u2, v. split; [reflexivity|]. split; assumption.
Qed.
Lemma lang_cat_one x w : lang (ICat [x]) w <-> lang x w.
Proof.
  rewrite lang_cat_inv. split.
  - intros (u & v & -> & Hu & Hv). inversion Hv; subst. rewrite app_nil_r. exact Hu.
  - intros H. exists w, []. split; [symmetry; apply app_nil_r|]. split; [exact H|constructor].
Qed.
Lemma cat_snoc acc x w : lang (ICat (acc ++ [x])) w <-> exists u v, w = u ++ v /\ lang (ICat acc) u /\ lang x v.
Proof.
  rewrite lang_cat_app. split; intros (u & v & E & Hu & Hv); exists u, v; (split; [exact E|split; [exact Hu|]]); apply lang_cat_one; exact Hv.
Qed.
Lemma cat_ok_control x : cat_ok x -> control_item x = false.
Proof. intros [A|A]; destruct x; cbn in *; try reflexivity; try discriminate; try contradiction. exact A. Qed.
Lemma or_ok_control x : or_ok x -> control_item x = false.
Proof. destruct x; cbn; intros H; try reflexivity; try contradiction. exact H. Qed.
Lemma any_control x : is_any x = true -> control_item x = false.
Proof. destruct x; cbn; intros H; try reflexivity; discriminate H. Qed.
Lemma words_lang l : Forall cat_ok l -> forall w, words_of in_cat l w <-> lang (ICat l) w.
Proof.
  induction l as [|x l IH]; intros H w.
  - split; intros K; inversion K; subst; constructor.
  - inversion H as [|? ? O1 O2]; subst. rewrite lang_cat_inv. pose proof (cat_ok_control x O1) as C. split.
    + intros K. inversion K; subst. exists u, v. split; [reflexivity|]. unfold in_cat in H2. rewrite C in H2. split; [exact H2|]. apply IH; assumption.
    + intros (u & v & -> & Hu & Hv). constructor; [unfold in_cat; rewrite C; exact Hu|]. apply IH; assumption.
Qed.
Definition cat_adds (P : list sy -> Prop) (acc acc' : list item) : Prop :=
  forall w, lang (ICat acc') w <-> exists u v, w = u ++ v /\ lang (ICat acc) u /\ P v.
Lemma cat_list_adds l :
  Forall (fun x => wf x -> forall acc, wf (ICat acc) -> wf (ICat (cat_step x acc)) /\ cat_adds (in_cat x) acc (cat_step x acc)) l ->
  Forall wf l -> forall acc, wf (ICat acc) -> wf (ICat (cat_list l acc)) /\ cat_adds (words_of in_cat l) acc (cat_list l acc).
Proof.
  induction l as [|x l IH]; intros H W acc A; cbn [cat_list].
  - split; [exact A|]. intros w. split.
    + intros K. exists w, []. split; [symmetry; apply app_nil_r|]. split; [exact K|constructor].
    + intros (u & v & -> & Hu & Hv). inversion Hv; subst. rewrite app_nil_r. exact Hu.
  - inversion H as [|? ? H1 H2]; subst. inversion W as [|? ? W1 W2]; subst. destruct (H1 W1 acc A) as [B C].
    destruct (IH H2 W2 _ B) as [D E]. split; [exact D|]. intros w. rewrite (E w). split.
    + intros (u & v & -> & Hu & Hv). apply C in Hu as (u1 & u2 & -> & P & Q). exists u1, (u2 ++ v).
      split; [symmetry; apply app_assoc|]. split; [exact P|]. constructor; assumption.
    + intros (u & v & -> & Hu & Hv). inversion Hv; subst. exists (u ++ u0), v0. split; [apply app_assoc|]. split; [|assumption].
      apply C. exists u, u0. split; [reflexivity|]. split; assumption.
Qed.
Lemma wf_snoc acc x : wf (ICat acc) -> wf x -> cat_ok x -> wf (ICat (acc ++ [x])).
Proof.
  intros A W O. inversion A; subst. apply wf_cat; apply Forall_app; (split; [assumption|]); constructor; try assumption; constructor.
Qed.
Lemma cat_step_snoc x acc y : wf (ICat acc) -> wf y -> cat_ok y -> (forall w, in_cat x w <-> lang y w) ->
  wf (ICat (acc ++ [y])) /\ cat_adds (in_cat x) acc (acc ++ [y]).
Proof.
  intros A W O E. split; [apply wf_snoc; assumption|]. intros w. rewrite cat_snoc.
  split; intros (u & v & Ew & Hu & Hv); exists u, v; (split; [exact Ew|split; [exact Hu|]]); apply E; exact Hv.
Qed.
Lemma in_cat_lang x w : control_item x = false -> (in_cat x w <-> lang x w).
Proof. intros H. unfold in_cat. rewrite H. reflexivity. Qed.
Lemma cat_step_adds x : wf x -> forall acc, wf (ICat acc) -> wf (ICat (cat_step x acc)) /\ cat_adds (in_cat x) acc (cat_step x acc).
Proof.
  induction x as [s|s| | |l IH|l IH|l r IHl IHr] using item_ind'; intros W acc A; rewrite cat_step_eq.
  - cbn [is_any]. destruct (is_control s) eqn:E.
    + split; [exact A|]. intros w. unfold in_cat. cbn [control_item]. rewrite E. split.
      * intros K. exists w, []. split; [symmetry; apply app_nil_r|]. split; [exact K|reflexivity].
      * intros (u & v & -> & Hu & ->). rewrite app_nil_r. exact Hu.
    + inversion W; subst. apply cat_step_snoc; [exact A|constructor; assumption|right; exact E|].
      intros w. rewrite in_cat_lang by exact E. rewrite !lang_symbols. reflexivity.
  - cbn [is_any]. destruct (is_control s) eqn:E.
    + split; [exact A|]. intros w. unfold in_cat. cbn [control_item]. rewrite E. split.
      * intros K. exists w, []. split; [symmetry; apply app_nil_r|]. split; [exact K|reflexivity].
      * intros (u & v & -> & Hu & ->). rewrite app_nil_r. exact Hu.
    + inversion W; subst. apply cat_step_snoc; [exact A|constructor; assumption|right; exact E|].
      intros w. rewrite in_cat_lang by exact E. reflexivity.
  - apply cat_step_snoc; [exact A|exact W|left; reflexivity|]. intros w. apply in_cat_lang. reflexivity.
  - apply cat_step_snoc; [exact A|exact W|right; exact I|]. intros w. apply in_cat_lang. reflexivity.
  - destruct (is_any (ICat l)) eqn:E.
    + apply cat_step_snoc; [exact A|exact W|left; exact E|]. intros w. apply in_cat_lang. reflexivity.
    + inversion W; subst. destruct (cat_list_adds l IH H0 acc A) as [B C]. split; [exact B|]. intros w. rewrite (C w).
      split; intros (u & v & Ew & Hu & Hv); exists u, v; (split; [exact Ew|split; [exact Hu|]]).
      * rewrite in_cat_lang by reflexivity. apply words_lang; assumption.
      * rewrite in_cat_lang in Hv by reflexivity. apply words_lang; assumption.
  - destruct (is_any (IOr l)) eqn:E.
    + apply cat_step_snoc; [exact A|exact W|left; exact E|]. intros w. apply in_cat_lang. reflexivity.
    + destruct l as [|y [|z l]].
      * rewrite (wf_copy _ W). apply cat_step_snoc; [exact A|exact W|right; cbn; discriminate|]. intros w. apply in_cat_lang. reflexivity.
      * inversion W as [| | | | |? W1 W2|? W1 W2|]; subst; [cbn [is_any] in E; congruence|].
        inversion IH as [|? ? IH1 _]; subst. inversion W1 as [|? ? W3 _]; subst.
        destruct (IH1 W3 acc A) as [B C]. split; [exact B|]. intros w. rewrite (C w).
        destruct (or_good_in [y] y W2 (or_introl eq_refl)) as (_ & _ & O). pose proof (or_ok_control y O) as Oc.
        split; intros (u & v & Ew & Hu & Hv); exists u, v; (split; [exact Ew|split; [exact Hu|]]).
        -- rewrite in_cat_lang by reflexivity. rewrite in_cat_lang in Hv by exact Oc. apply (L_or y); [left; reflexivity|exact Hv].
        -- rewrite in_cat_lang in Hv by reflexivity. rewrite in_cat_lang by exact Oc. apply lang_or_inv in Hv as (y' & [<-|[]] & Hv). exact Hv.
      * rewrite (wf_copy _ W). apply cat_step_snoc; [exact A|exact W|right; cbn; discriminate|]. intros w. apply in_cat_lang. reflexivity.
  - destruct (is_any (IAlg l r)) eqn:E.
    + apply cat_step_snoc; [exact A|exact W|left; exact E|]. intros w. apply in_cat_lang. reflexivity.
    + rewrite (wf_copy _ W). apply cat_step_snoc; [exact A|exact W|right; exact I|]. intros w. apply in_cat_lang. reflexivity.
Qed.
Lemma cat_list_wf l acc : Forall wf l -> wf (ICat acc) -> wf (ICat (cat_list l acc)) /\ cat_adds (words_of in_cat l) acc (cat_list l acc).
Proof. intros W A. apply cat_list_adds; [|exact W|exact A]. apply Forall_forall. intros x _ Wx. apply cat_step_adds. exact Wx. Qed.
