(** From operations to readings. *)
From Coq Require Import String.
From Verif Require Import Base RuleModel RegexModel RegexProofs IsoModel AlignModel AlignSpec AlignProofs AlignMore NatModel NatSpec NatProofs NatBytes NatBlocks NatBlocksProofs NatTyp NatTypMain DeromBytes DeromPieces DeromSpec.
Local Open Scope list_scope.

(** ** Contexts in texts without alignments *)
Definition unsigned (ts : word) : Prop := ~ In Eq ts.
Lemma unsigned_skipped x : unsigned x -> skipped x -> x = [].
Proof. intros N [->|[(g & -> & _)|(r & -> & _)]]; [reflexivity| |]; exfalso; apply N; [apply in_app_iff; right; left; reflexivity|left; reflexivity]. Qed.
Lemma unsigned_app a b : unsigned (a ++ b) <-> unsigned a /\ unsigned b.
Proof. unfold unsigned. rewrite in_app_iff. tauto. Qed.
Lemma preceded_words ws d : unsigned d -> (preceded (Some (false, TWords ws)) d <-> exists u a, In a ws /\ d = u ++ a).
Proof.
  intros N. cbn. split.
  - intros (u & a & x & -> & M & Sk & _). apply words_inv in M. rewrite !unsigned_app in N. rewrite (unsigned_skipped x ltac:(tauto) Sk), app_nil_r. eauto.
  - intros (u & a & I & ->). exists u, a, []. rewrite app_nil_r. split; [reflexivity|split; [constructor; exact I|split; [left; reflexivity|discriminate]]].
Qed.
Lemma followed_words ws d : unsigned d -> (followed (Some (false, TWords ws)) d <-> exists a u, In a ws /\ d = a ++ u).
Proof.
  intros N. cbn. split.
  - intros (x & a & u & -> & M & Sk & _). apply words_inv in M. rewrite !unsigned_app in N. rewrite (unsigned_skipped x ltac:(tauto) Sk). exists a, u. auto.
  - intros (a & u & I & ->). exists [], a, u. split; [reflexivity|split; [constructor; exact I|split; [left; reflexivity|discriminate]]].
Qed.
Definition empty_ctx (c : tctx) : bool := match c with None => true | Some (false, TWords [[]]) => true | _ => false end.
Lemma empty_preceded c d : empty_ctx c = true -> preceded c d.
Proof.
  destruct c as [[[|] [[|[|] [|]]| | | | | |]]|]; try discriminate; intros _; [|exact Logic.I]. cbn. exists d, [], []. rewrite app_nil_r. split; [reflexivity|split; [constructor; left; reflexivity|split; [left; reflexivity|discriminate]]].
Qed.
Lemma empty_followed c d : empty_ctx c = true -> followed c d.
Proof.
  destruct c as [[[|] [[|[|] [|]]| | | | | |]]|]; try discriminate; intros _; [|exact Logic.I]. cbn. exists [], [], d. split; [reflexivity|split; [constructor; left; reflexivity|split; [left; reflexivity|discriminate]]].
Qed.

(** ** Kinds of pieces *)
Inductive kind := KLive (cs : list string) | KDead (cs : list string) | KSign (v : string) | KInd (v : string) | KNas.
Definition name (s : string) : tok := Tr (bytes s).
Definition akshara_toks (x : akshara) : word :=
  match x with
  | Ind v => [name (v ++ "_i")]
  | Syl c v => [name c; name v]
  | Bare c => [name c]
  | Dead c => [name c; name "vir"]
  | Nasal => [name "ans"]
  end.
Definition word_toks (l : list akshara) : word := flat_map akshara_toks l.
Definition kind_toks (k : kind) : word :=
  match k with
  | KLive cs => word_toks (cluster Bare cs)
  | KDead cs => word_toks (cluster Dead cs)
  | KSign v => [name v]
  | KInd v => [name (v ++ "_i")]
  | KNas => [name "ans"]
  end.
Definition kind_sound (k : kind) : sound := match k with KLive cs | KDead cs => Cons cs | KSign v | KInd v => Vow v | KNas => Nas end.
Definition spell (s : string) : word := map (fun c => Gr [c]) (bytes s).

Section Derom.
Variables (ops : list op) (T : list (list (string * sound))) (rank : nat -> nat) (V : nat) (sd : bool) (ends : list word).
Definition has_old (l : word) (rs : list (word * word)) : bool := existsb (fun q : word * word => word_eqb (fst q) l) rs.
Definition free (l : word) (o : op) : bool :=
  match o with Rewrite rs p f => if empty_ctx p then if empty_ctx f then has_old l rs else false else false | _ => false end.
Definition free_before (k : nat) (l : word) : bool := existsb (free l) (firstn k ops).
Fixpoint find_in (l r : word) (cl : list (string * sound)) : option (string * kind) :=
  match cl with
  | [] => None
  | (s, x) :: cl' =>
      if word_eqb (spell s) l
      then match x with
           | Cons cs => if word_eqb r (kind_toks (KLive cs)) then Some (s, KLive cs) else if word_eqb r (kind_toks (KDead cs)) then Some (s, KDead cs) else find_in l r cl'
           | Vow v => if word_eqb r [name v] then Some (s, KSign v) else if word_eqb r [name (v ++ "_i")] then Some (s, KInd v) else find_in l r cl'
           | Nas => find_in l r cl'
           end
      else find_in l r cl'
  end.
Definition find_kind (k : nat) (l r : word) : option (string * kind) :=
  if word_eqb r [name "ans"]
  then if word_eqb l (spell "m") then Some ("m"%string, KNas) else if word_eqb l (spell "n") then Some ("n"%string, KNas) else None
  else match nth_error T (rank k) with Some cl => find_in l r cl | None => None end.
Definition vowel_letters : list word := map spell ["a"; "e"; "i"; "o"; "u"]%string.
Definition starts_vowel (l : word) : bool := match l with t :: _ => existsb (word_eqb [t]) vowel_letters | [] => false end.
Definition ctx_in (c : tctx) (ws : list word) : bool := match c with Some (false, TWords l) => forallb (fun w => existsb (word_eqb w) ws) l | _ => false end.
Definition ctx_has (c : tctx) (ws : list word) : bool := match c with Some (false, TWords l) => forallb (fun w => existsb (word_eqb w) l) ws | _ => false end.
Definition ends_in (r : word) : bool := match rev r with t :: _ => existsb (word_eqb [t]) ends | [] => false end.
Definition ctx_check (k : nat) (p f : tctx) (l r : word) (kd : kind) : bool :=
  match kd with
  | KLive _ => if k <? V then if starts_vowel l then false else if ends_in r then if sd then true else ctx_in f vowel_letters else false else false
  | KDead _ =>
      match k with
      | 0 => false
      | S j => match nth_error ops j with
               | Some (Rewrite rs p' f') => if sd then false else if k <? V then if starts_vowel l then false else if ends_in r then false else if empty_ctx p' then if ctx_has f' vowel_letters then has_old l rs else false else false else false
               | _ => false
               end
      end
  | KSign _ => if V <=? k then if starts_vowel l then if ends_in r then false else ctx_in p ends else false else false
  | KInd _ =>
      match k with
      | 0 => false
      | S j => match nth_error ops j with
               | Some (Rewrite rs p' f') => if V <=? j then if starts_vowel l then if ends_in r then false else if empty_ctx f' then if ctx_has p' ends then has_old l rs else false else false else false else false
               | _ => false
               end
      end
  | KNas => if k <? V then if starts_vowel l then false else negb (ends_in r) else false
  end.
Definition check_rule (k : nat) (p f : tctx) (q : word * word) : bool :=
  if free_before k (fst q) then true else match find_kind k (fst q) (snd q) with Some (_, kd) => ctx_check k p f (fst q) (snd q) kd | None => false end.
Fixpoint check_ops (k : nat) (l : list op) : bool :=
  match l with
  | [] => true
  | Rewrite rs p f :: l' => if forallb (check_rule k p f) rs then check_ops (S k) l' else false
  | _ :: _ => false
  end.
Definition is_letter (t : tok) : bool := match t with Gr [c] => (97 <=? c)%N && (c <=? 122)%N | _ => false end.
Definition check_letters : bool := forallb (fun c => free_before (List.length ops) [Gr [c]]) (map N.of_nat (seq 97 26)).
(** For each spelling an operation without contexts, not later than others of its rank *)
Definition first_free (l : word) : option nat :=
  (fix go k os := match os with [] => None | o :: os' => if free l o then Some k else go (S k) os' end) 0 ops.
Fixpoint check_ranks (d : nat) (t : list (list (string * sound))) : bool :=
  match t with
  | [] => true
  | cl :: t' => if forallb (fun p : string * sound => match spell (fst p) with [] => false | _ => match first_free (spell (fst p)) with Some e => forallb (fun j => rank j <=? d) (seq 0 (S e)) | None => false end end) cl then check_ranks (S d) t' else false
  end.

Hypothesis ops_ok : check_ops 0 ops = true.
Hypothesis letters_ok : check_letters = true.
Hypothesis ranks_ok : check_ranks 0 T = true.

Variables (ts : word) (L : list piece).
Hypothesis tr : traced ops ts L.
Hypothesis ts_letters : forallb is_letter ts = true.

Definition at_least (k : nat) (x : piece) : Prop := match x with Raw _ => True | Seg j _ _ => k <= j end.
Lemma down_at_least k X : Forall (at_least k) X -> down k X = map Raw (from X).
Proof.
  induction 1 as [|x X Hx _ IH]; [reflexivity|]. unfold down in *. cbn [flat_map from]. rewrite map_app, IH. f_equal. destruct x as [t|j l r]; [reflexivity|]. cbn [earlier at_least piece_from] in *. apply Nat.ltb_ge in Hx. rewrite Hx. reflexivity.
Qed.
Lemma has_old_ok l rs : has_old l rs = true -> exists r, In (l, r) rs.
Proof. intros H. apply existsb_exists in H as ([l' r] & I & E). apply word_eqb_spec in E. cbn in E. subst. eauto. Qed.
Lemma free_ok l o : free l o = true -> exists rs p f r, o = Rewrite rs p f /\ empty_ctx p = true /\ empty_ctx f = true /\ In (l, r) rs.
Proof.
  destruct o as [rs p f| |]; cbn [free]; try discriminate. destruct (empty_ctx p) eqn:Ep; [|discriminate]. destruct (empty_ctx f) eqn:Ef; [|discriminate]. intros H. apply has_old_ok in H as (r & I). exists rs, p, f, r. auto.
Qed.
Lemma free_at e o A X B a l b : nth_error ops e = Some o -> free l o = true -> L = A ++ X ++ B -> from X = a ++ l ++ b -> l <> [] -> Forall (at_least (S e)) X -> False.
Proof.
  intros Ee Fo E Ex Nl G. apply free_ok in Fo as (rs & p & f & r & -> & Ep & Ef & I). destruct l as [|t l]; [congruence|].
  apply (t_keep _ _ _ tr e rs p f A X B a t (l ++ b) (t :: l) r (b ++ toks (down e B)) Ee E (down_at_least _ _ G)); [rewrite Ex; reflexivity|exact I|rewrite <- app_assoc; reflexivity|apply empty_followed; exact Ef|apply empty_preceded; exact Ep].
Qed.
Lemma free_before_ok k A X B a l b : L = A ++ X ++ B -> from X = a ++ l ++ b -> l <> [] -> Forall (at_least k) X -> free_before k l = false.
Proof.
  intros E Ex Nl G. apply not_true_is_false. intros H. apply existsb_exists in H as (o & I & Fo). apply In_nth_error in I as (e & Ee).
  assert (K : e < k). { assert (e < List.length (firstn k ops)) by (apply nth_error_Some; congruence). rewrite firstn_length in H. lia. }
  assert (Eo : nth_error ops e = Some o). { rewrite <- (firstn_skipn k ops). rewrite nth_error_app1; [exact Ee|apply nth_error_Some; congruence]. }
  apply (free_at e o A X B a l b Eo Fo E Ex Nl). eapply Forall_impl; [|exact G]. intros [t|j l0 r0]; cbn; [trivial|lia].
Qed.

Lemma check_ops_ok l : forall k0, check_ops k0 l = true -> forall j rs p f q, nth_error l j = Some (Rewrite rs p f) -> In q rs -> check_rule (k0 + j) p f q = true.
Proof.
  induction l as [|o l IH]; intros k0 C j rs p f q E I; [destruct j; discriminate E|]. cbn [check_ops] in C. destruct o as [rs0 p0 f0| |]; try discriminate C. destruct (forallb (check_rule k0 p0 f0) rs0) eqn:C0; [|discriminate C].
  destruct j as [|j]; cbn [nth_error] in E.
  - injection E as -> -> ->. rewrite Nat.add_0_r. exact (proj1 (forallb_forall _ _) C0 _ I).
  - rewrite Nat.add_succ_r. exact (IH (S k0) C j rs p f q E I).
Qed.
Lemma from_letters : forallb is_letter (from L) = true. Proof. rewrite (t_from _ _ _ tr). exact ts_letters. Qed.
Lemma no_raw A t B : L = A ++ Raw t :: B -> False.
Proof.
  intros E. pose proof from_letters as F. rewrite E, from_app in F. rewrite forallb_app in F. apply andb_prop in F as [_ F]. cbn in F. apply andb_prop in F as [F _].
  destruct t as [[|c [|]]| | |]; try discriminate F. cbn in F. apply andb_prop in F as [F1 F2]. apply N.leb_le in F1. apply N.leb_le in F2.
  assert (I : In c (map N.of_nat (seq 97 26))). { rewrite in_map_iff. exists (N.to_nat c). split; [apply N2Nat.id|]. apply in_seq. lia. }
  pose proof (proj1 (forallb_forall _ _) letters_ok _ I) as K. cbn beta in K. rewrite (free_before_ok _ A [Raw (Gr [c])] B [] [Gr [c]] []) in K; [discriminate K|exact E|reflexivity|discriminate|]. constructor; [exact Logic.I|constructor].
Qed.
(** Each piece has a kind *)
Record known (A : list piece) (k : nat) (l r : word) (B : list piece) (s : string) (kd : kind) : Prop := Known {
  k_find : find_kind k l r = Some (s, kd);
  k_ctx : exists rs p f, nth_error ops k = Some (Rewrite rs p f) /\ ctx_check k p f l r kd = true /\ preceded p (toks (down (S k) A)) /\ followed f (toks (down k B));
  k_good : good_rule (l, r) }.
Lemma piece_known A x B : L = A ++ x :: B -> exists k l r s kd, x = Seg k l r /\ known A k l r B s kd.
Proof.
  intros E. destruct x as [t|k l r]; [destruct (no_raw A t B E)|]. destruct (t_fire _ _ _ tr A k l r B E) as (rs & p & f & Eo & I & P & F). exists k, l, r.
  pose proof (check_ops_ok ops 0 ops_ok k rs p f (l, r) Eo I) as C. cbn [plus] in C. unfold check_rule in C. cbn [fst snd] in C.
  assert (G : good_rule (l, r)). { pose proof (t_good _ _ _ tr) as G. rewrite E in G. apply Forall_app in G as [_ G]. inversion G; subst. assumption. }
  rewrite (free_before_ok k A [Seg k l r] B [] l []) in C; [|exact E|cbn; rewrite !app_nil_r; reflexivity|exact (proj1 G)|constructor; [cbn; lia|constructor]].
  destruct (find_kind k l r) as [[s kd]|] eqn:Ek; [|discriminate C]. exists s, kd. split; [reflexivity|]. split; [exact Ek|exists rs, p, f; auto|exact G].
Qed.
Lemma find_in_ok l r cl s kd : find_in l r cl = Some (s, kd) -> In (s, kind_sound kd) cl /\ l = spell s /\ r = kind_toks kd /\ kd <> KNas.
Proof.
  induction cl as [|[s0 x] cl IH]; cbn [find_in]; [discriminate|]. assert (R : find_in l r cl = Some (s, kd) -> In (s, kind_sound kd) ((s0, x) :: cl) /\ l = spell s /\ r = kind_toks kd /\ kd <> KNas) by (intros H; destruct (IH H) as (K1 & K2); split; [right; exact K1|exact K2]).
  destruct (word_eqb (spell s0) l) eqn:E; [|exact R]. apply word_eqb_spec in E. destruct x as [cs|v|]; [| |exact R].
  - destruct (word_eqb r (kind_toks (KLive cs))) eqn:E1; [apply word_eqb_spec in E1; intros H; injection H as <- <-; split; [left; reflexivity|split; [auto|split; [exact E1|discriminate]]]|].
    destruct (word_eqb r (kind_toks (KDead cs))) eqn:E2; [apply word_eqb_spec in E2; intros H; injection H as <- <-; split; [left; reflexivity|split; [auto|split; [exact E2|discriminate]]]|exact R].
  - destruct (word_eqb r [name v]) eqn:E1; [apply word_eqb_spec in E1; intros H; injection H as <- <-; split; [left; reflexivity|split; [auto|split; [exact E1|discriminate]]]|].
    destruct (word_eqb r [name (v ++ "_i")]) eqn:E2; [apply word_eqb_spec in E2; intros H; injection H as <- <-; split; [left; reflexivity|split; [auto|split; [exact E2|discriminate]]]|exact R].
Qed.
Lemma find_kind_ok k l r s kd : find_kind k l r = Some (s, kd) -> l = spell s /\ r = kind_toks kd /\ (kd = KNas \/ spelled T (rank k) (s, kind_sound kd)).
Proof.
  unfold find_kind. destruct (word_eqb r [name "ans"]) eqn:E.
  - apply word_eqb_spec in E. destruct (word_eqb l (spell "m")) eqn:E1; [apply word_eqb_spec in E1; intros H; injection H as <- <-; auto|]. destruct (word_eqb l (spell "n")) eqn:E2; [apply word_eqb_spec in E2; intros H; injection H as <- <-; auto|discriminate].
  - destruct (nth_error T (rank k)) as [cl|] eqn:En; [|discriminate]. intros H. apply find_in_ok in H as (K1 & K2 & K3 & _). split; [exact K2|split; [exact K3|right; exists cl; auto]].
Qed.

(** ** Neighbours *)
Lemma good_unsigned X : Forall good_piece X -> forall k, unsigned (toks (down k X)).
Proof.
  intros G k I. unfold toks in I. apply in_flat_map in I as (x & Ix & I). apply in_flat_map in Ix as (y & Iy & Ix). pose proof (proj1 (Forall_forall _ _) G _ Iy) as Gy. destruct y as [t|j l r]; cbn [earlier] in Ix.
  - destruct Ix as [<-|[]]. destruct I as [->|[]]. discriminate Gy.
  - destruct Gy as (_ & G1 & _ & G2). cbn [fst snd] in *. destruct (j <? k).
    + destruct Ix as [<-|[]]. cbn in I. pose proof (proj1 (forallb_forall _ _) G2 _ I). discriminate.
    + apply in_map_iff in Ix as (t & <- & It). destruct I as [->|[]]. pose proof (proj1 (forallb_forall _ _) G1 _ It). discriminate.
Qed.
Lemma good_split A B : L = A ++ B -> Forall good_piece A /\ Forall good_piece B.
Proof. intros E. pose proof (t_good _ _ _ tr) as G. rewrite E in G. apply Forall_app in G. exact G. Qed.
Lemma vowel_word a : In a vowel_letters -> exists t, a = [t] /\ grapheme t = true /\ starts_vowel [t] = true.
Proof. cbn. intros [<-|[<-|[<-|[<-|[<-|[]]]]]]; (eexists; split; [reflexivity|split; reflexivity]). Qed.
Lemma existsb_word w ws : existsb (word_eqb w) ws = true <-> In w ws.
Proof. rewrite existsb_exists. split; [intros (x & I & E); apply word_eqb_spec in E; subst; exact I|intros I; exists w; split; [exact I|apply word_eqb_spec; reflexivity]]. Qed.
Lemma raw_start k X t u : Forall good_piece X -> toks (down k X) = t :: u -> grapheme t = true -> exists v, from X = t :: v.
Proof.
  intros G E Gt. rewrite <- (from_down k X). assert (Gd : Forall good_piece (down k X)).
  { apply Forall_forall. intros x I. apply in_flat_map in I as (y & Iy & I). pose proof (proj1 (Forall_forall _ _) G _ Iy) as Gy. destruct y as [t0|j l r]; cbn [earlier] in I; [destruct I as [<-|[]]; exact Gy|]. destruct (j <? k); [destruct I as [<-|[]]; exact Gy|].
    apply in_map_iff in I as (t0 & <- & I). exact (proj1 (forallb_forall _ _) (proj1 (proj2 Gy)) _ I). }
  destruct (down k X) as [|x D]; [discriminate E|]. inversion Gd as [|? ? Gx _]; subst. destruct x as [t0|j l r]; cbn in E; [injection E as -> _; eexists; reflexivity|]. destruct Gx as (_ & _ & N & Tr_r). cbn in *. destruct r as [|y r]; [congruence|]. cbn in E. injection E as -> _. cbn in Tr_r. apply andb_prop in Tr_r as [Ty _]. destruct t; discriminate.
Qed.
(** The first letter of the next piece *)
Lemma next_start A X y B : L = A ++ X ++ y :: B -> forall t v, from (y :: B) = t :: v -> exists k l r s kd, y = Seg k l r /\ known (A ++ X) k l r B s kd /\ exists l', l = t :: l'.
Proof.
  intros E t v Ef. destruct (piece_known (A ++ X) y B) as (k & l & r & s & kd & -> & K); [rewrite <- app_assoc; exact E|]. exists k, l, r, s, kd. split; [reflexivity|split; [exact K|]]. destruct (k_good _ _ _ _ _ _ _ K) as (N & _). cbn in N, Ef. destruct l as [|t0 l]; [congruence|]. cbn in Ef. injection Ef as -> _. eauto.
Qed.
Definition vowel_kind (kd : kind) : bool := match kd with KSign _ | KInd _ => true | _ => false end.
Lemma kind_starts A k l r B s kd : known A k l r B s kd -> starts_vowel l = vowel_kind kd /\ (if vowel_kind kd then V <= k else k < V) /\ ends_in r = (match kd with KLive _ => true | _ => false end).
Proof.
  intros K. destruct (k_ctx _ _ _ _ _ _ _ K) as (rs & p & f & _ & C & _). destruct kd as [cs|cs|v|v|]; cbn [ctx_check vowel_kind] in *.
  - destruct (k <? V) eqn:Ek; [|discriminate C]. apply Nat.ltb_lt in Ek. destruct (starts_vowel l); [discriminate C|]. destruct (ends_in r); [auto|discriminate C].
  - destruct k as [|j]; [discriminate C|]. destruct (nth_error ops j) as [[rs' p' f'| |]|]; try discriminate C. destruct sd; [discriminate C|]. destruct (S j <? V) eqn:Ek; [|discriminate C]. apply Nat.ltb_lt in Ek. destruct (starts_vowel l); [discriminate C|]. destruct (ends_in r); [discriminate C|auto].
  - destruct (V <=? k) eqn:Ek; [|discriminate C]. apply Nat.leb_le in Ek. destruct (starts_vowel l); [|discriminate C]. destruct (ends_in r); [discriminate C|auto].
  - destruct k as [|j]; [discriminate C|]. destruct (nth_error ops j) as [[rs' p' f'| |]|]; try discriminate C. destruct (V <=? j) eqn:Ek; [|discriminate C]. apply Nat.leb_le in Ek. destruct (starts_vowel l); [|discriminate C]. destruct (ends_in r); [discriminate C|]. split; [reflexivity|split; [lia|reflexivity]].
  - destruct (k <? V) eqn:Ek; [|discriminate C]. apply Nat.ltb_lt in Ek. destruct (starts_vowel l); [discriminate C|]. destruct (ends_in r); [discriminate C|auto].
Qed.
Lemma starts_vowel_cons t l l' : starts_vowel (t :: l) = starts_vowel (t :: l'). Proof. reflexivity. Qed.
(** Tamil: a consonant without virama is before a vowel *)
Lemma live_next A k l r B s cs : sd = false -> L = A ++ Seg k l r :: B -> known A k l r B s (KLive cs) -> exists k' l' r' B' s' kd, B = Seg k' l' r' :: B' /\ known (A ++ [Seg k l r]) k' l' r' B' s' kd /\ vowel_kind kd = true.
Proof.
  intros Sd E K. destruct (k_ctx _ _ _ _ _ _ _ K) as (rs & p & f & _ & C & _ & F). cbn [ctx_check] in C. rewrite Sd in C. destruct (k <? V); [|discriminate C]. destruct (starts_vowel l); [discriminate C|]. destruct (ends_in r); [|discriminate C].
  destruct f as [[[|] [ws| | | | | |]]|]; try discriminate C. assert (GB : Forall good_piece B). { destruct (good_split A (Seg k l r :: B) E) as [_ G]. inversion G; assumption. }
  apply followed_words in F as (a & u & Ia & Ea); [|apply good_unsigned; exact GB]. cbn [ctx_in] in C. pose proof (proj1 (forallb_forall _ _) C _ Ia) as Ia'. apply existsb_word in Ia'. destruct (vowel_word a Ia') as (t & -> & Gt & Vt). cbn [app] in Ea.
  destruct (raw_start k B t u GB Ea Gt) as (v & Ef). destruct B as [|y B]; [discriminate Ef|]. destruct (next_start A [Seg k l r] y B E t v Ef) as (k' & l' & r' & s' & kd & -> & K' & l'' & ->). exists k', (t :: l''), r', B, s', kd. split; [reflexivity|split; [exact K'|]].
  destruct (kind_starts _ _ _ _ _ _ _ K') as (S1 & _). rewrite <- S1, (starts_vowel_cons t l'' []). exact Vt.
Qed.
Lemma dead_next A k l r s cs k' l' r' B' s' kd : L = A ++ Seg k l r :: Seg k' l' r' :: B' -> known A k l r (Seg k' l' r' :: B') s (KDead cs) -> known (A ++ [Seg k l r]) k' l' r' B' s' kd -> vowel_kind kd = false.
Proof.
  intros E K K'. apply not_true_is_false. intros Vk. destruct (k_ctx _ _ _ _ _ _ _ K) as (rs & p & f & _ & C & _ & _). cbn [ctx_check] in C. destruct k as [|j]; [discriminate C|]. destruct (nth_error ops j) as [[rs' p' f'| |]|] eqn:Ej; try discriminate C.
  destruct sd; [discriminate C|]. destruct (S j <? V) eqn:Ek; [|discriminate C]. apply Nat.ltb_lt in Ek. destruct (starts_vowel l); [discriminate C|]. destruct (ends_in r); [discriminate C|]. destruct (empty_ctx p') eqn:Ep; [|discriminate C]. destruct (ctx_has f' vowel_letters) eqn:Ef; [|discriminate C].
  apply has_old_ok in C as (r0 & I0). destruct (kind_starts _ _ _ _ _ _ _ K') as (S1 & S2 & _). rewrite Vk in S1, S2. destruct (k_good _ _ _ _ _ _ _ K') as (Nl' & _). cbn in Nl'. destruct (k_good _ _ _ _ _ _ _ K) as (Nl & _). cbn in Nl.
  destruct l as [|t l]; [congruence|]. assert (Dn : down j (Seg k' l' r' :: B') = map Raw l' ++ down j B') by (unfold down; cbn [flat_map earlier]; replace (k' <? j) with false by (symmetry; apply Nat.ltb_ge; lia); reflexivity).
  assert (GB : Forall good_piece (Seg k' l' r' :: B')). { destruct (good_split A (Seg (S j) (t :: l) r :: Seg k' l' r' :: B') E) as [_ G]. inversion G; assumption. }
  refine (t_keep _ _ _ tr j rs' p' f' A [Seg (S j) (t :: l) r] (Seg k' l' r' :: B') [] t l (t :: l) r0 (toks (down j (Seg k' l' r' :: B'))) Ej E _ _ I0 _ _ _).
  - apply down_at_least. constructor; [cbn; lia|constructor].
  - cbn. rewrite app_nil_r. reflexivity.
  - reflexivity.
  - destruct f' as [[[|] [ws| | | | | |]]|]; try discriminate Ef. apply followed_words; [apply good_unsigned; exact GB|]. rewrite Dn, toks_app, toks_raw. destruct l' as [|c l']; [congruence|]. cbn [starts_vowel] in S1. apply existsb_word in S1. exists [c], (l' ++ toks (down j B')). split; [|reflexivity].
    cbn [ctx_has] in Ef. apply existsb_word. exact (proj1 (forallb_forall _ _) Ef _ S1).
  - apply empty_preceded. exact Ep.
Qed.
(** A sign stands after a consonant, and other vowels do not *)
Lemma ends_app u t : ends_in (u ++ [t]) = existsb (word_eqb [t]) ends. Proof. unfold ends_in. rewrite rev_app_distr. reflexivity. Qed.
Hypothesis ends_single : forallb (fun w : word => match w with [Tr _] => true | _ => false end) ends = true.
Lemma sign_before A k l r B s v : L = A ++ Seg k l r :: B -> known A k l r B s (KSign v) -> exists A' k' l' r' s' cs, A = A' ++ [Seg k' l' r'] /\ known A' k' l' r' (Seg k l r :: B) s' (KLive cs).
Proof.
  intros E K. destruct (k_ctx _ _ _ _ _ _ _ K) as (rs & p & f & _ & C & P & _). cbn [ctx_check] in C. destruct (V <=? k) eqn:Ek; [|discriminate C]. destruct (starts_vowel l); [|discriminate C]. destruct (ends_in r); [discriminate C|].
  destruct p as [[[|] [ws| | | | | |]]|]; try discriminate C. destruct (good_split A (Seg k l r :: B) E) as [GA _].
  apply preceded_words in P as (u & a & Ia & Ea); [|apply good_unsigned; exact GA]. cbn [ctx_in] in C. pose proof (proj1 (forallb_forall _ _) C _ Ia) as Ia'. apply existsb_word in Ia'. pose proof (proj1 (forallb_forall _ _) ends_single _ Ia') as Sa. destruct a as [|[| |c|] [|]]; try discriminate Sa.
  destruct (list_eq_dec (fun x y : piece => ltac:(decide equality; [decide equality; apply (list_eq_dec N.eq_dec)|decide equality; decide equality; apply (list_eq_dec N.eq_dec)|decide equality; decide equality; apply (list_eq_dec N.eq_dec)|apply Nat.eq_dec])) A []) as [->|NA]; [cbn in Ea; destruct u; discriminate Ea|].
  destruct (exists_last NA) as (A' & y & ->). rewrite <- app_assoc in E. cbn [app] in E. destruct (piece_known A' y (Seg k l r :: B) E) as (k' & l' & r' & s' & kd & -> & K'). exists A', k', l', r', s'.
  rewrite down_app, toks_app in Ea. unfold down in Ea at 2. cbn [flat_map earlier] in Ea. rewrite app_nil_r in Ea. destruct (k' <? S k) eqn:Ek'.
  - cbn [toks flat_map piece_toks] in Ea. rewrite app_nil_r in Ea. destruct (k_good _ _ _ _ _ _ _ K') as (_ & _ & Nr & _). cbn [snd] in Nr. destruct (exists_last Nr) as (r0 & t0 & Er). rewrite Er, app_assoc in Ea. apply app_inj_tail in Ea as [_ ->].
    destruct (kind_starts _ _ _ _ _ _ _ K') as (_ & _ & S3). rewrite Er, ends_app in S3. replace (existsb (word_eqb [Tr c]) ends) with true in S3 by (symmetry; apply existsb_word; exact Ia'). destruct kd as [cs| | | |]; try discriminate S3. eauto.
  - exfalso. rewrite toks_raw in Ea. destruct (k_good _ _ _ _ _ _ _ K') as (Nl & Gl & _). cbn [fst] in Nl, Gl. destruct (exists_last Nl) as (l0 & t0 & El). rewrite El, app_assoc in Ea. apply app_inj_tail in Ea as [_ ->]. rewrite El, forallb_app in Gl. apply andb_prop in Gl as [_ Gl]. discriminate Gl.
Qed.
Lemma ind_before A k' l' r' s' cs k l r B s v : L = A ++ Seg k' l' r' :: Seg k l r :: B -> known A k' l' r' (Seg k l r :: B) s' (KLive cs) -> ~ known (A ++ [Seg k' l' r']) k l r B s (KInd v).
Proof.
  intros E K' K. destruct (k_ctx _ _ _ _ _ _ _ K) as (rs & p & f & _ & C & _ & _). cbn [ctx_check] in C. destruct k as [|j]; [discriminate C|]. destruct (nth_error ops j) as [[rs' p' f'| |]|] eqn:Ej; try discriminate C.
  destruct (V <=? j) eqn:Ek; [|discriminate C]. apply Nat.leb_le in Ek. destruct (starts_vowel l); [|discriminate C]. destruct (ends_in r) eqn:Er; [discriminate C|]. destruct (empty_ctx f') eqn:Ef; [|discriminate C]. destruct (ctx_has p' ends) eqn:Ep; [|discriminate C].
  apply has_old_ok in C as (r0 & I0). destruct (k_good _ _ _ _ _ _ _ K) as (Nl & _). cbn in Nl. destruct l as [|t l]; [congruence|]. destruct (kind_starts _ _ _ _ _ _ _ K') as (_ & S2 & S3). cbn [vowel_kind] in S2.
  assert (E' : L = (A ++ [Seg k' l' r']) ++ [Seg (S j) (t :: l) r] ++ B) by (rewrite <- app_assoc; exact E).
  assert (GA : Forall good_piece (A ++ [Seg k' l' r'])) by (exact (proj1 (good_split _ _ E'))).
  refine (t_keep _ _ _ tr j rs' p' f' (A ++ [Seg k' l' r']) [Seg (S j) (t :: l) r] B [] t l (t :: l) r0 (toks (down j B)) Ej E' _ _ I0 _ (empty_followed _ _ Ef) _).
  - apply down_at_least. constructor; [cbn; lia|constructor].
  - cbn. rewrite app_nil_r. reflexivity.
  - reflexivity.
  - rewrite app_nil_r. destruct p' as [[[|] [ws| | | | | |]]|]; try discriminate Ep. apply preceded_words; [apply good_unsigned; exact GA|]. rewrite down_app, toks_app. unfold down at 2. cbn [flat_map earlier]. replace (k' <? S j) with true by (symmetry; apply Nat.ltb_lt; lia). cbn [toks flat_map piece_toks app]. rewrite app_nil_r.
    destruct (k_good _ _ _ _ _ _ _ K') as (_ & _ & Nr & _). cbn [snd] in Nr. destruct (exists_last Nr) as (r1 & t0 & Er1). rewrite Er1, ends_app in S3. apply existsb_word in S3. exists (flat_map piece_toks (down (S j) A) ++ r1), [t0]. split; [|rewrite Er1; rewrite <- app_assoc; reflexivity].
    cbn [ctx_has] in Ep. apply existsb_word. exact (proj1 (forallb_forall _ _) Ep _ S3).
Qed.

(** ** The reading *)
Definition read_piece (x : piece) : reading :=
  match x with Seg k l r => match find_kind k l r with Some (s, kd) => [(s, kind_sound kd)] | None => [] end | Raw _ => [] end.
Definition read : reading := flat_map read_piece L.
Lemma singles_split {A B} (f : A -> list B) l : Forall (fun x => exists y, f x = [y]) l -> forall u v, flat_map f l = u ++ v -> exists a b, l = a ++ b /\ flat_map f a = u /\ flat_map f b = v.
Proof.
  induction 1 as [|x l (y & Ey) _ IH]; intros u v E.
  - cbn in E. symmetry in E. apply app_eq_nil in E as [-> ->]. exists [], []. auto.
  - destruct u as [|z u]; [exists [], (x :: l); auto|]. cbn [flat_map] in E. rewrite Ey in E. cbn in E. injection E as -> E. destruct (IH u v E) as (a & b & -> & Ea & Eb). exists (x :: a), b. cbn [flat_map]. rewrite Ey, Ea. auto.
Qed.
Lemma all_read : Forall (fun x => exists k l r s kd, x = Seg k l r /\ find_kind k l r = Some (s, kd) /\ read_piece x = [(s, kind_sound kd)]) L.
Proof.
  apply Forall_forall. intros x I. apply in_split in I as (A & B & E). destruct (piece_known A x B E) as (k & l & r & s & kd & -> & K). exists k, l, r, s, kd. pose proof (k_find _ _ _ _ _ _ _ K) as F. cbn [read_piece]. rewrite F. auto.
Qed.
Lemma read_singles : Forall (fun x => exists y, read_piece x = [y]) L.
Proof. eapply Forall_impl; [|exact all_read]. intros x (k & l & r & s & kd & _ & _ & E). eauto. Qed.
Lemma read_split A' X' B' : read = A' ++ X' ++ B' -> exists A X B, L = A ++ X ++ B /\ flat_map read_piece A = A' /\ flat_map read_piece X = X' /\ flat_map read_piece B = B'.
Proof.
  intros E. destruct (singles_split read_piece L read_singles A' (X' ++ B') E) as (A & Y & EL & EA & EY). assert (FY : Forall (fun x => exists y, read_piece x = [y]) Y) by (pose proof read_singles as F; rewrite EL in F; apply Forall_app in F as [_ F]; exact F).
  destruct (singles_split read_piece Y FY X' B' EY) as (X & B & EXB & EX & EB). exists A, X, B. rewrite <- EXB. auto.
Qed.
Lemma from_typed X : (forall x, In x X -> In x L) -> from X = map (fun c => Gr [c]) (typed (flat_map read_piece X)).
Proof.
  intros H. induction X as [|x X IH]; [reflexivity|]. unfold from in *. cbn [flat_map]. rewrite IH by (intros y I; apply H; right; exact I). unfold typed. rewrite flat_map_app, map_app. f_equal.
  destruct (proj1 (Forall_forall _ _) all_read x (H x (or_introl eq_refl))) as (k & l & r & s & kd & -> & F & ->). destruct (find_kind_ok _ _ _ _ _ F) as (-> & _). cbn [flat_map piece_from fst]. rewrite app_nil_r. reflexivity.
Qed.
Lemma read_spelled : Forall (fun p => snd p = Nas \/ exists rk, spelled T rk p) read.
Proof.
  apply Forall_forall. intros p I. apply in_flat_map in I as (x & Ix & I). destruct (proj1 (Forall_forall _ _) all_read x Ix) as (k & l & r & s & kd & -> & F & E). rewrite E in I. destruct I as [<-|[]]. destruct (find_kind_ok _ _ _ _ _ F) as (_ & _ & [->|H]); [left; reflexivity|right; eauto].
Qed.
Lemma check_ranks_ok t : forall d0, check_ranks d0 t = true -> forall d cl p, nth_error t d = Some cl -> In p cl -> spell (fst p) <> [] /\ exists e, first_free (spell (fst p)) = Some e /\ forall j, j <= e -> rank j <= d0 + d.
Proof.
  induction t as [|c t IH]; intros d0 C d cl p E I; [destruct d; discriminate E|]. cbn [check_ranks] in C. match type of C with (if ?b then _ else _) = _ => destruct b eqn:C0 end; [|discriminate C]. destruct d as [|d]; cbn [nth_error] in E.
  - injection E as ->. rewrite forallb_forall in C0. specialize (C0 p I). cbn beta in C0. destruct (spell (fst p)) as [|z zs]; [discriminate C0|]. split; [discriminate|]. destruct (first_free (z :: zs)) as [e|]; [|discriminate C0]. exists e. split; [reflexivity|]. intros j Hj. rewrite Nat.add_0_r. apply Nat.leb_le. apply (proj1 (forallb_forall _ _) C0 j). apply in_seq. lia.
  - rewrite Nat.add_succ_r. exact (IH (S d0) C d cl p E I).
Qed.
Lemma first_free_ok l e : first_free l = Some e -> exists o, nth_error ops e = Some o /\ free l o = true.
Proof.
  unfold first_free. enough (G : forall os k, (fix go k os := match os with [] => None | o :: os' => if free l o then Some k else go (S k) os' end) k os = Some e -> exists j o, e = k + j /\ nth_error os j = Some o /\ free l o = true).
  { intros H. destruct (G ops 0 H) as (j & o & -> & H'). exists o. exact H'. }
  induction os as [|o os IH]; intros k H; [discriminate H|]. destruct (free l o) eqn:F; [injection H as <-; exists 0, o; rewrite Nat.add_0_r; auto|]. destruct (IH (S k) H) as (j & o' & -> & E & F'). exists (S j), o'. rewrite Nat.add_succ_r. auto.
Qed.
Lemma at_least_dec k x : {at_least k x} + {~ at_least k x}. Proof. destruct x as [t|j l r]; cbn; [left; exact Logic.I|apply le_dec]. Qed.
Lemma read_strongest : strongest T read.
Proof.
  intros A' X' B' a s b y d E Et (cl & En & I). destruct (read_split A' X' B' E) as (A & X & B & EL & _ & EX & _). destruct (check_ranks_ok T 0 ranks_ok d cl (s, y) En I) as (Ns & e & Ee & He). cbn [fst plus] in *. destruct (first_free_ok _ _ Ee) as (o & Eo & Fo).
  destruct (Forall_Exists_dec (at_least (S e)) (at_least_dec (S e)) X) as [G|G].
  - exfalso. apply (free_at e o A X B (map (fun c => Gr [c]) a) (spell s) (map (fun c => Gr [c]) b) Eo Fo EL); [|exact Ns|exact G]. rewrite from_typed; [rewrite EX, Et, !map_app; reflexivity|]. intros x Ix. rewrite EL, !in_app_iff. auto.
  - apply Exists_exists in G as (x & Ix & G). assert (IL : In x L) by (rewrite EL, !in_app_iff; auto). destruct (proj1 (Forall_forall _ _) all_read x IL) as (k & l & r & s' & kd & -> & F & Er). exists (s', kind_sound kd). split; [rewrite <- EX; apply in_flat_map; eexists; split; [exact Ix|rewrite Er; left; reflexivity]|].
    destruct (find_kind_ok _ _ _ _ _ F) as (_ & _ & [->|H]); [left; reflexivity|]. right. exists (rank k). split; [apply He; cbn in G; lia|exact H].
Qed.
(** No part of a spelling is stronger *)
Definition starts_s (a s : string) : bool := str_eqb (bytes a) (firstn (List.length (bytes a)) (bytes s)).
Definition ends_s (a s : string) : bool := str_eqb (bytes a) (skipn (List.length (bytes s) - List.length (bytes a)) (bytes s)).
Definition check_joins : bool :=
  forallb (fun d => match nth_error T d with
    | None => true
    | Some cl => forallb (fun p : string * sound => forallb (fun cl' => forallb (fun q : string * sound => if String.eqb (fst q) (fst p) then true else if starts_s (fst q) (fst p) then false else negb (ends_s (fst q) (fst p))) cl') (firstn (S d) T)) cl end)
    (seq 0 (List.length T)).
Lemma bytes_app a b : bytes (a ++ b)%string = bytes a ++ bytes b.
Proof. unfold bytes. induction a as [|c a IH]; [reflexivity|]. cbn. f_equal. exact IH. Qed.
Lemma bytes_nil a : bytes a = [] -> a = ""%string. Proof. destruct a; [reflexivity|discriminate]. Qed.
Lemma append_length a b : String.length (a ++ b) = String.length a + String.length b. Proof. induction a as [|c a IH]; [reflexivity|]. cbn. rewrite IH. reflexivity. Qed.
Lemma read_nonempty p : In p read -> bytes (fst p) <> [].
Proof.
  intros I. apply in_flat_map in I as (x & Ix & I). apply in_split in Ix as (A & B & E). destruct (piece_known A x B E) as (k & l & r & s & kd & -> & K). pose proof (k_find _ _ _ _ _ _ _ K) as F. cbn [read_piece] in I. rewrite F in I. destruct I as [<-|[]]. cbn [fst].
  destruct (find_kind_ok _ _ _ _ _ F) as (El & _). destruct (k_good _ _ _ _ _ _ _ K) as (N & _). cbn [fst] in N. intros Eb. apply N. rewrite El. unfold spell. rewrite Eb. reflexivity.
Qed.
Lemma read_joined A x y B z d : check_joins = true -> read = A ++ x :: y :: B -> spelled T d ((fst x ++ fst y)%string, z) -> snd x = Nas \/ snd y = Nas.
Proof.
  intros C E Sp. assert (Ix : In x read) by (rewrite E, in_app_iff; right; left; reflexivity). assert (Iy : In y read) by (rewrite E, in_app_iff; right; right; left; reflexivity). pose proof (read_nonempty x Ix) as Nx. pose proof (read_nonempty y Iy) as Ny.
  destruct (read_strongest A [x; y] B [] (fst x ++ fst y)%string [] z d) as (q & Iq & [H|(d' & Hd & cl' & En' & Iq')]); [exact E| |exact Sp| |].
  - cbn. rewrite !app_nil_r. symmetry. apply bytes_app.
  - destruct Iq as [<-|[<-|[]]]; auto.
  - exfalso. destruct Sp as (cl & En & Ip). unfold check_joins in C. rewrite forallb_forall in C. assert (Hdl : d < List.length T) by (apply nth_error_Some; congruence). specialize (C d ltac:(apply in_seq; lia)). rewrite En in C. rewrite forallb_forall in C. specialize (C _ Ip). cbn beta in C. rewrite forallb_forall in C.
    assert (Icl : In cl' (firstn (S d) T)). { rewrite <- (firstn_skipn (S d) T) in En'. rewrite nth_error_app1 in En'; [exact (nth_error_In _ _ En')|rewrite firstn_length; lia]. }
    specialize (C cl' Icl). rewrite forallb_forall in C. specialize (C q Iq'). cbn [fst] in C. destruct Iq as [<-|[<-|[]]].
    + destruct (String.eqb (fst x) (fst x ++ fst y)) eqn:Es.
      * apply String.eqb_eq in Es. apply (f_equal String.length) in Es. rewrite append_length in Es. apply Ny. destruct (fst y); [reflexivity|cbn in Es; lia].
      * replace (starts_s (fst x) (fst x ++ fst y)) with true in C; [discriminate C|]. symmetry. unfold starts_s. rewrite bytes_app, firstn_app, Nat.sub_diag, firstn_all, app_nil_r. apply str_eqb_eq. reflexivity.
    + destruct (String.eqb (fst y) (fst x ++ fst y)) eqn:Es.
      * apply String.eqb_eq in Es. apply (f_equal String.length) in Es. rewrite append_length in Es. apply Nx. destruct (fst x); [reflexivity|cbn in Es; lia].
      * destruct (starts_s (fst y) (fst x ++ fst y)); [discriminate C|]. replace (ends_s (fst y) (fst x ++ fst y)) with true in C; [discriminate C|]. symmetry. unfold ends_s. rewrite bytes_app, app_length. replace (List.length (bytes (fst x)) + List.length (bytes (fst y)) - List.length (bytes (fst y))) with (List.length (bytes (fst x))) by lia. rewrite skipn_app, Nat.sub_diag, skipn_all. apply str_eqb_eq. reflexivity.
Qed.

(** ** What is written *)
Definition final : string -> akshara := if sd then Bare else Dead.
Lemma cluster_vowel v cs : cs <> [] -> word_toks (cluster (fun c => Syl c v) cs) = word_toks (cluster Bare cs) ++ [name v].
Proof.
  induction cs as [|c cs IH]; intros N; [congruence|]. destruct cs as [|c' cs]; [reflexivity|]. cbn [cluster] in *. unfold word_toks in *. cbn [flat_map app] in *. rewrite (IH ltac:(discriminate)). reflexivity.
Qed.
Lemma word_toks_app a b : word_toks (a ++ b) = word_toks a ++ word_toks b. Proof. apply flat_map_app. Qed.
Definition not_sign (B : list piece) : Prop := forall k l r B' s v, B = Seg k l r :: B' -> find_kind k l r <> Some (s, KSign v).
Lemma written n : forall A B, List.length B <= n -> L = A ++ B -> not_sign B -> toks B = word_toks (write final (map snd (flat_map read_piece B))).
Proof.
  induction n as [|n IH]; intros A B Hn E NS; (destruct B as [|x B]; [reflexivity|]); [cbn in Hn; lia|].
  destruct (piece_known A x B E) as (k & l & r & s & kd & -> & K). pose proof (k_find _ _ _ _ _ _ _ K) as F. destruct (find_kind_ok _ _ _ _ _ F) as (_ & Er & _). cbn [flat_map read_piece]. rewrite F. cbn [map app snd]. rewrite toks_cons. cbn [piece_toks].
  assert (E1 : L = (A ++ [Seg k l r]) ++ B) by (rewrite <- app_assoc; exact E). assert (HnB : List.length B <= n) by (cbn in Hn; lia).
  assert (Sg : forall k1 l1 r1 B1 s1 v1, B = Seg k1 l1 r1 :: B1 -> find_kind k1 l1 r1 = Some (s1, KSign v1) -> exists cs, kd = KLive cs).
  { intros k1 l1 r1 B1 s1 v1 -> F1. destruct (piece_known (A ++ [Seg k l r]) (Seg k1 l1 r1) B1 E1) as (k2 & l2 & r2 & s2 & kd2 & Ex & K2). injection Ex as <- <- <-. pose proof (k_find _ _ _ _ _ _ _ K2) as F2. rewrite F1 in F2. injection F2 as <- <-.
    destruct (sign_before _ _ _ _ _ _ _ E1 K2) as (A' & k' & l' & r' & s' & cs & EA & K'). apply app_inj_tail in EA as [_ EA]. injection EA as <- <- <-. pose proof (k_find _ _ _ _ _ _ _ K') as F'. rewrite F in F'. injection F' as _ ->. eauto. }
  assert (Go : (forall cs, kd <> KLive cs) -> toks B = word_toks (write final (map snd (flat_map read_piece B)))).
  { intros NL. apply (IH _ B HnB E1). intros k1 l1 r1 B1 s1 v1 EB F1. destruct (Sg _ _ _ _ _ _ EB F1) as (cs & Ek). exact (NL cs Ek). }
  destruct kd as [cs|cs|v|v|]; cbn [kind_sound].
  - assert (Ncs : cs <> []). { intros ->. destruct (k_good _ _ _ _ _ _ _ K) as (_ & _ & N & _). cbn [snd] in N. apply N. rewrite Er. reflexivity. }
    assert (Step : forall y B1, B = y :: B1 -> exists k1 l1 r1 s1 kd1, y = Seg k1 l1 r1 /\ known (A ++ [Seg k l r]) k1 l1 r1 B1 s1 kd1) by (intros y B1 ->; exact (piece_known _ _ _ E1)).
    destruct B as [|y B1].
    + destruct sd eqn:Sd; [|destruct (live_next _ _ _ _ _ _ _ Sd E K) as (? & ? & ? & ? & ? & ? & Ex & _); discriminate Ex]. cbn [flat_map map write]. unfold final. rewrite Sd. rewrite !app_nil_r. exact Er.
    + destruct (Step y B1 eq_refl) as (k1 & l1 & r1 & s1 & kd1 & -> & K1). pose proof (k_find _ _ _ _ _ _ _ K1) as F1. destruct (find_kind_ok _ _ _ _ _ F1) as (_ & Er1 & _). destruct (vowel_kind kd1) eqn:Vk.
      * destruct kd1 as [cs1|cs1|v1|v1|]; try discriminate Vk; [|destruct (ind_before _ _ _ _ _ _ _ _ _ _ _ _ E K K1)].
        cbn [flat_map read_piece]. rewrite F1. cbn [map app snd kind_sound write]. rewrite toks_cons. cbn [piece_toks]. rewrite word_toks_app, (cluster_vowel v1 cs Ncs), <- app_assoc, Er. cbn [kind_toks]. f_equal. rewrite Er1. cbn [kind_toks app]. f_equal.
        assert (E2 : L = ((A ++ [Seg k l r]) ++ [Seg k1 l1 r1]) ++ B1) by (rewrite <- app_assoc; exact E1). apply (IH ((A ++ [Seg k l r]) ++ [Seg k1 l1 r1]) B1); [cbn in HnB; lia|exact E2|].
        intros k2 l2 r2 B2 s2 v2 -> F2. destruct (piece_known _ (Seg k2 l2 r2) B2 E2) as (k3 & l3 & r3 & s3 & kd3 & Ex & K3). injection Ex as <- <- <-. pose proof (k_find _ _ _ _ _ _ _ K3) as F3. rewrite F2 in F3. injection F3 as <- <-.
        destruct (sign_before _ _ _ _ _ _ _ E2 K3) as (A' & k' & l' & r' & s' & cs' & EA & K'). apply app_inj_tail in EA as [_ EA]. injection EA as <- <- <-. pose proof (k_find _ _ _ _ _ _ _ K') as F'. rewrite F1 in F'. discriminate F'.
      * destruct sd eqn:Sd; [|exfalso; destruct (live_next _ _ _ _ _ _ _ Sd E K) as (k2 & l2 & r2 & B2 & s2 & kd2 & Ex & K2 & V2); injection Ex as <- <- <- <-; pose proof (k_find _ _ _ _ _ _ _ K2) as F2; rewrite F1 in F2; injection F2 as <- <-; congruence].
        rewrite (IH _ (Seg k1 l1 r1 :: B1) HnB E1). 2:{ intros k2 l2 r2 B2 s2 v2 Ex F2. injection Ex as <- <- <- <-. rewrite F1 in F2. injection F2 as _ ->. discriminate Vk. }
        rewrite Er. cbn [kind_toks flat_map read_piece]. rewrite F1. cbn [map app snd]. unfold final. rewrite Sd. destruct kd1 as [cs1|cs1|v1|v1|]; try discriminate Vk; cbn [kind_sound write]; rewrite (word_toks_app (cluster Bare cs)); reflexivity.
  - assert (Sd : sd = false). { destruct (k_ctx _ _ _ _ _ _ _ K) as (rs & p & f & _ & C & _). cbn [ctx_check] in C. destruct k as [|j]; [discriminate C|]. destruct (nth_error ops j) as [[rs' p' f'| |]|]; try discriminate C. destruct sd; [discriminate C|reflexivity]. }
    rewrite (Go ltac:(discriminate)), Er. unfold final. rewrite Sd. cbn [kind_toks].
    destruct B as [|y B1]; [cbn [flat_map map write]; rewrite !app_nil_r; reflexivity|]. destruct (piece_known _ y B1 E1) as (k1 & l1 & r1 & s1 & kd1 & -> & K1). pose proof (k_find _ _ _ _ _ _ _ K1) as F1. pose proof (dead_next _ _ _ _ _ _ _ _ _ _ _ _ E K K1) as Vk.
    cbn [flat_map read_piece]. rewrite F1. cbn [map app snd]. destruct kd1 as [cs1|cs1|v1|v1|]; try discriminate Vk; cbn [kind_sound write]; rewrite (word_toks_app (cluster Dead cs)); reflexivity.
  - destruct (NS k l r B s v eq_refl F).
  - rewrite (Go ltac:(discriminate)), Er. reflexivity.
  - rewrite (Go ltac:(discriminate)), Er. reflexivity.
Qed.
Lemma read_written : toks L = word_toks (write final (map snd read)).
Proof.
  apply (written (List.length L) [] L (le_n _) eq_refl). intros k l r B s v E F. destruct (piece_known [] (Seg k l r) B E) as (k2 & l2 & r2 & s2 & kd2 & Ex & K2). injection Ex as <- <- <-. pose proof (k_find _ _ _ _ _ _ _ K2) as F2. rewrite F in F2. injection F2 as <- <-.
  destruct (sign_before [] _ _ _ _ _ _ E K2) as (A' & k' & l' & r' & s' & cs & EA & _). destruct A'; discriminate EA.
Qed.
End Derom.
