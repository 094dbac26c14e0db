(** Taking the longest letter costs least. *)
From Verif Require Import Base RuleModel VisualModel ScriptData ScriptTables IsoModel IsoSpec IsoPieceSpec IsoPieces IsoRoundSpec IsoRound IsoProofs IsoTextSpec IsoText FixedJoin.
From Coq Require Import Lia.

(** ** Costs by class of letter *)
Inductive cls := kC | kU | kS | kV | kW | kO (free : bool).
Definition all_cls : list cls := [kC; kU; kS; kV; kW; kO true; kO false].
Definition all_spots : list spot := [sFresh; sWaiting true; sWaiting false; sKilled; sDotted].
Definition cls_of (free : str -> bool) (t : tok) : cls :=
  match snd t with Consonant _ => kC | Subjoined _ => kU | Sign _ => kS | Virama => kV | Vowel _ => kW | Other _ => kO (free (fst t)) end.
Definition base (c : cls) : option (N * spot) :=
  match c with kC => Some (0%N, sWaiting true) | kU => None | kS => Some (1%N, sDotted) | kV => Some (2%N, sFresh) | kW => Some (1%N, sDotted) | kO b => Some ((if b then 0 else 1)%N, sFresh) end.
Definition pay1 (r : option (N * spot)) : option (N * spot) := match r with Some (k, s) => Some ((1 + k)%N, s) | None => None end.
Definition step (inh : bool) (s : spot) (c : cls) : option (N * spot) :=
  match s, c with
  | sWaiting _, kS => Some (0%N, sDotted)
  | sWaiting _, kV => Some (0%N, sKilled)
  | sWaiting true, kU => Some (0%N, sWaiting false)
  | sWaiting _, kW => if inh then Some (0%N, sDotted) else None
  | (sKilled | sDotted), kW => Some (0%N, sDotted)
  | sWaiting _, _ => if inh then pay1 (base c) else None
  | sKilled, _ => pay1 (base c)
  | _, _ => base c
  end.
Definition stop (inh : bool) (s : spot) : option N := match s with sWaiting _ => if inh then Some 1%N else None | sKilled => Some 1%N | _ => Some 0%N end.
Fixpoint run_cls (inh : bool) (s : spot) (cs : list cls) : option (N * spot) :=
  match cs with
  | [] => Some (0%N, s)
  | c :: cs' => match step inh s c with
                | Some (k, s') => match run_cls inh s' cs' with Some (k', q) => Some ((k + k')%N, q) | None => None end
                | None => None
                end
  end.
Definition has_inherent (d : script_data) : bool := match inherent d with Some _ => true | None => false end.
Lemma pay_pay a b r : pay a (pay b r) = pay (a + b) r.
Proof. destruct r; cbn [pay]; [f_equal; lia|reflexivity]. Qed.
Lemma pay_0 r : pay 0 r = r. Proof. destruct r; reflexivity. Qed.
Lemma toll_step d free s t ts : toll d free s (t :: ts) = match step (has_inherent d) s (cls_of free t) with Some (k, s') => pay k (toll d free s' ts) | None => None end.
Proof.
  cbn [toll]. unfold cls_of, has_inherent, if_inherent. destruct t as [i l]. cbn [fst snd].
  destruct s as [|[]| |]; destruct l; destruct (inherent d); cbn [step base pay1]; rewrite ?pay_pay, ?pay_0; try reflexivity; cbn [pay]; try reflexivity.
Qed.
Lemma toll_stop d free s : toll d free s [] = stop (has_inherent d) s.
Proof. cbn [toll]. unfold stop, has_inherent, if_inherent. destruct s, (inherent d); reflexivity. Qed.
Lemma toll_run d free ts us : forall s, toll d free s (ts ++ us) = match run_cls (has_inherent d) s (map (cls_of free) ts) with Some (k, s') => pay k (toll d free s' us) | None => None end.
Proof.
  induction ts as [|t ts IH]; intros s; [cbn [app map run_cls]; rewrite pay_0; reflexivity|]. cbn [app]. rewrite toll_step. cbn [map run_cls].
  destruct (step (has_inherent d) s (cls_of free t)) as [[k s']|]; [|reflexivity]. rewrite IH. destruct (run_cls (has_inherent d) s' (map (cls_of free) ts)) as [[k' q]|]; [apply pay_pay|reflexivity].
Qed.

(** ** How much more one place may cost than another *)
Section Gap.
Variable inh : bool.
Variable gap : spot -> spot -> option N.
Definition gap_ok (a b : spot) : bool :=
  match gap a b with
  | None => true
  | Some g =>
    if match stop inh b, stop inh a with Some m, Some m' => N.leb m' (m + g) | None, _ => true | Some _, None => false end then
      forallb (fun c => match step inh b c with
        | None => true
        | Some (k, b') => match step inh a c with
          | None => false
          | Some (k', a') => match gap a' b' with Some e => N.leb (k' + e) (k + g) | None => false end
          end
        end) all_cls
    else false
  end.
Hypothesis ok : forall a b, gap_ok a b = true.
End Gap.
Lemma gap_toll d free gap : (forall a b, gap_ok (has_inherent d) gap a b = true) -> forall ts a b g m, gap a b = Some g -> toll d free b ts = Some m -> exists m', toll d free a ts = Some m' /\ (m' <= m + g)%N.
Proof.
  intros ok. induction ts as [|t ts IH]; intros a b g m G H; pose proof (ok a b) as Q; unfold gap_ok in Q; rewrite G in Q.
  - rewrite toll_stop in H. rewrite toll_stop. rewrite H in Q. destruct (stop (has_inherent d) a) as [m'|]; [|discriminate Q]. destruct (N.leb m' (m + g)) eqn:L; [|discriminate Q]. apply N.leb_le in L. eauto.
  - match type of Q with (if ?c then _ else _) = _ => destruct c; [|discriminate Q] end.
    rewrite toll_step in H. rewrite toll_step. assert (K : In (cls_of free t) all_cls).
    { unfold cls_of, all_cls. destruct (snd t); try (cbn [In]; tauto). destruct (free (fst t)); cbn [In]; tauto. }
    pose proof (proj1 (forallb_forall _ _) Q _ K) as R. cbv beta in R. destruct (step (has_inherent d) b (cls_of free t)) as [[k b']|]; [|discriminate H].
    destruct (step (has_inherent d) a (cls_of free t)) as [[k' a']|]; [|discriminate R]. destruct (gap a' b') as [e|] eqn:E; [|discriminate R]. apply N.leb_le in R.
    apply pay_some in H as (n & T & ->). destruct (IH _ _ _ _ E T) as (n' & T' & L). rewrite T'. eexists. split; [reflexivity|lia].
Qed.
Definition the_gap (inh : bool) (a b : spot) : option N :=
  match a, b with
  | sFresh, sFresh | sKilled, sKilled | sDotted, sDotted | sWaiting true, sWaiting true | sWaiting false, sWaiting false => Some 0%N
  | sDotted, (sFresh | sKilled) => Some 0%N
  | sFresh, (sDotted | sKilled) => Some 1%N
  | sKilled, (sFresh | sDotted) => Some 1%N
  | sWaiting _, (sFresh | sDotted | sKilled) => if inh then Some 1%N else None
  | sWaiting true, sWaiting false => if inh then Some 0%N else Some 0%N
  | _, _ => None
  end.
Lemma the_gap_ok inh a b : gap_ok inh (the_gap inh) a b = true.
Proof. destruct inh, a as [|[]| |], b as [|[]| |]; reflexivity. Qed.

(** ** Other ways to cut a letter *)
Definition letter_tables (d : script_data) : list string_file :=
  [sd_consonant d; sd_subjoined_consonant d; sd_vowel_sign d; sd_virama d; sd_vowel d; sd_coda d; sd_standalone d; sd_dead_consonant d; sd_vowel_length_sign d; joiners].
Definition toks (d : script_data) : list tok :=
  flat_map (fun f => flat_map (fun r => match letter_of d (fst r) with Some l => [(fst r, l)] | None => [] end) f) (letter_tables d).
Lemma app_inj_len {A} (a b c e : list A) : a ++ b = c ++ e -> length a = length c -> a = c /\ b = e.
Proof. revert c. induction a as [|x a IH]; intros [|y c] H L; try discriminate L; [split; [reflexivity|exact H]|]. injection H as <- H. injection L as L. destruct (IH c H L) as [-> ->]. split; reflexivity. Qed.
Section Cuts.
Variable all : list tok.
Fixpoint alts (n : nat) (rem : str) : list (list tok * str) :=
  match n with
  | O => []
  | S k => flat_map (fun t => match strip rem (fst t) with
      | Some e => [([t], e)]
      | None => match strip (fst t) rem with Some r => map (fun p => (t :: fst p, snd p)) (alts k r) | None => [] end
      end) all
  end.
Fixpoint splits (n : nat) (e : str) : list (list tok) :=
  match e, n with
  | [], _ => [[]]
  | _, O => []
  | _, S k => flat_map (fun t => match strip (fst t) e with Some r => map (cons t) (splits k r) | None => [] end) all
  end.
Variable inh : bool.
Variable free : str -> bool.
Definition no_dearer (us ts : list tok) : bool :=
  forallb (fun s => match run_cls inh s (map (cls_of free) ts) with
    | None => true
    | Some (k, q) => match run_cls inh s (map (cls_of free) us) with
      | None => false
      | Some (k', q') => match the_gap inh q' q with Some g => N.leb (k' + g) k | None => false end
      end
    end) all_spots.
Definition shorter_first (j : str) (a : list tok) : bool := match a with t :: _ => Nat.ltb (length (fst t)) (length j) | [] => false end.
Variable odd : list str.
Definition is_odd (x : str) : bool := existsb (fun o => prefixb o x) odd.
Definition no_dearer_end (us ts : list tok) : bool :=
  forallb (fun s => match run_cls inh s (map (cls_of free) ts) with
    | None => true
    | Some (k, q) => match stop inh q, run_cls inh s (map (cls_of free) us) with
      | None, _ => true
      | Some m, Some (k', q') => match stop inh q' with Some m' => N.leb (k' + m') (k + m) | None => false end
      | Some _, None => false
      end
    end) all_spots.
(** looking at the next letter, too *)
Definition no_dearer_next (j : str) (us ts : list tok) : bool :=
  if no_dearer us ts then true else
  if no_dearer_end us ts then forallb (fun t => if is_odd (j ++ fst t) then true else no_dearer (us ++ [t]) (ts ++ [t])) all else false.
Definition exchange_ok (j : tok) : bool :=
  match fst j with
  | [_] => true
  | _ => forallb (fun p => if is_odd (fst j ++ snd p) then true else if shorter_first (fst j) (fst p) then existsb (fun g => no_dearer_next (fst j ++ snd p) (j :: g) (fst p)) (splits (length (snd p)) (snd p)) else true) (alts (length (fst j)) (fst j))
  end.
Lemma alts_complete n : forall rem ts z, length rem <= n -> rem <> [] -> Forall (fun t => In t all /\ fst t <> []) ts -> concat (map fst ts) = rem ++ z ->
  exists a e ts', In (a, e) (alts n rem) /\ ts = a ++ ts' /\ concat (map fst a) = rem ++ e /\ z = e ++ concat (map fst ts').
Proof.
  induction n as [|n IH]; intros rem ts z L N F E; [destruct rem; [destruct (N eq_refl)|cbn [length] in L; lia]|].
  destruct F as [|t ts [I Ne] F]; [destruct rem; [destruct (N eq_refl)|discriminate E]|]. cbn [map concat] in E. cbn [alts].
  destruct (strip rem (fst t)) as [e|] eqn:S.
  - pose proof (proj1 (strip_spec _ _ _) S) as Q. exists [t], e, ts. split; [apply in_flat_map; exists t; split; [exact I|rewrite S; left; reflexivity]|]. split; [reflexivity|].
    cbn [map concat]. rewrite app_nil_r. split; [exact Q|]. rewrite Q, <- app_assoc in E. apply app_inv_head in E. congruence.
  - apply app_eq_app in E as (m & [(E1 & E2)|(E1 & E2)]); [rewrite (proj2 (strip_spec _ _ m) E1) in S; discriminate S|].
    assert (Nm : m <> []). { intros ->. rewrite app_nil_r in E1. rewrite (proj2 (strip_spec rem (fst t) [])) in S by (rewrite app_nil_r; congruence). discriminate S. }
    destruct (IH m ts z) as (a & e & ts' & Ia & -> & Ea & Ez); [|exact Nm|exact F|exact E2|].
    { pose proof (f_equal (@length _) E1) as Q. rewrite app_length in Q. destruct (fst t); [destruct (Ne eq_refl)|cbn [length] in Q; lia]. }
    exists (t :: a), e, ts'. split; [|split; [reflexivity|split; [cbn [map concat]; rewrite Ea, E1, app_assoc; reflexivity|exact Ez]]].
    apply in_flat_map. exists t. split; [exact I|]. rewrite S, (proj2 (strip_spec _ _ m) E1). apply in_map_iff. exists (a, e). split; [reflexivity|exact Ia].
Qed.
Lemma splits_sound n : forall e g, In g (splits n e) -> Forall (fun t => In t all) g /\ concat (map fst g) = e.
Proof.
  induction n as [|n IH]; intros e g H; destruct e as [|c e]; cbn [splits] in H; try (destruct H as [<-|[]]; split; [constructor|reflexivity]); [destruct H|].
  apply in_flat_map in H as (t & I & H). destruct (strip (fst t) (c :: e)) as [r|] eqn:S; [|destruct H]. apply in_map_iff in H as (g' & <- & H). destruct (IH _ _ H) as [F E].
  split; [constructor; [exact I|exact F]|]. cbn [map concat]. rewrite E. symmetry. apply strip_spec, S.
Qed.
End Cuts.
Lemma no_dearer_toll d free us ts z s m : no_dearer (has_inherent d) free us ts = true -> toll d free s (ts ++ z) = Some m -> exists m', toll d free s (us ++ z) = Some m' /\ (m' <= m)%N.
Proof.
  intros H T. assert (I : In s all_spots) by (destruct s as [|[]| |]; cbn [In all_spots]; tauto). pose proof (proj1 (forallb_forall _ _) H s I) as Q. cbv beta in Q. rewrite toll_run in T. rewrite toll_run.
  destruct (run_cls (has_inherent d) s (map (cls_of free) ts)) as [[k q]|]; [|discriminate T]. destruct (run_cls (has_inherent d) s (map (cls_of free) us)) as [[k' q']|]; [|discriminate Q].
  destruct (the_gap (has_inherent d) q' q) as [g|] eqn:G; [|discriminate Q]. apply N.leb_le in Q. apply pay_some in T as (n & T & ->).
  destruct (gap_toll d free _ (the_gap_ok (has_inherent d)) _ _ _ _ _ G T) as (n' & T' & L). rewrite T'. eexists. split; [reflexivity|lia].
Qed.
Definition short_letters (d : script_data) : bool := forallb (fun t => Nat.leb (length (fst t)) 4) (toks d).
Definition script_exchange_ok (d : script_data) (odd : list str) : bool :=
  let all := toks d in if short_letters d then forallb (exchange_ok all (has_inherent d) (free_of d) odd) all else false.
Lemma no_dearer_end_toll d free us ts s m : no_dearer_end (has_inherent d) free us ts = true -> toll d free s ts = Some m -> exists m', toll d free s us = Some m' /\ (m' <= m)%N.
Proof.
  intros H T. assert (I : In s all_spots) by (destruct s as [|[]| |]; cbn [In all_spots]; tauto). pose proof (proj1 (forallb_forall _ _) H s I) as Q. cbv beta in Q.
  rewrite <- (app_nil_r ts), toll_run in T. rewrite <- (app_nil_r us), toll_run.
  destruct (run_cls (has_inherent d) s (map (cls_of free) ts)) as [[k q]|]; [|discriminate T]. apply pay_some in T as (n & T & ->). rewrite toll_stop in T. rewrite T in Q.
  destruct (run_cls (has_inherent d) s (map (cls_of free) us)) as [[k' q']|]; [|discriminate Q]. rewrite toll_stop. destruct (stop (has_inherent d) q') as [m'|]; [|discriminate Q]. apply N.leb_le in Q. eexists. split; [reflexivity|lia].
Qed.
Definition avoids (odd : list str) (x : str) : Prop := forall o, In o odd -> ~ is_infix o x.
Lemma avoids_odd odd x y : avoids odd (x ++ y) -> is_odd odd x = false.
Proof.
  intros H. destruct (is_odd odd x) eqn:E; [|reflexivity]. apply existsb_exists in E as (o & I & P). apply prefixb_spec in P as (z & ->). destruct (H o I). exists [], (z ++ y). rewrite <- app_assoc. reflexivity.
Qed.
Lemma avoids_right odd x y : avoids odd (x ++ y) -> avoids odd y.
Proof. intros H o I (a & b & ->). apply (H o I). exists (x ++ a), b. rewrite <- app_assoc. reflexivity. Qed.
Lemma no_dearer_next_toll d free all odd j us ts z s m : no_dearer_next all (has_inherent d) free odd j us ts = true -> Forall (fun t => In t all) z -> avoids odd (j ++ concat (map fst z)) ->
  toll d free s (ts ++ z) = Some m -> exists m', toll d free s (us ++ z) = Some m' /\ (m' <= m)%N.
Proof.
  intros H F A T. unfold no_dearer_next in H. destruct (no_dearer (has_inherent d) free us ts) eqn:E; [exact (no_dearer_toll _ _ _ _ _ _ _ E T)|].
  destruct (no_dearer_end (has_inherent d) free us ts) eqn:E2; [|discriminate H]. destruct F as [|t z I F].
  - rewrite app_nil_r in *. exact (no_dearer_end_toll _ _ _ _ _ _ E2 T).
  - pose proof (proj1 (forallb_forall _ _) H t I) as Q. cbv beta in Q. cbn [map concat] in A. rewrite app_assoc in A. match type of Q with (if ?c then _ else _) = _ => replace c with false in Q by (symmetry; exact (avoids_odd _ _ _ A)) end.
    change (t :: z) with ([t] ++ z) in *. rewrite app_assoc in T. rewrite app_assoc. exact (no_dearer_toll _ _ _ _ _ _ _ Q T).
Qed.

(** ** The longest letter *)
Section Script.
Variable d : script_data.
Variable odd : list str.
Hypothesis ok : letters_ok d (free_of d) = true.
Hypothesis exchange : script_exchange_ok d odd = true.
Notation toll := (toll d (free_of d)).
Lemma tok_in t : is_tok d t -> In t (toks d).
Proof.
  intros [_ L]. pose proof (letter_row d _ _ L) as R.
  assert (K : forall f o, In f (letter_tables d) -> row f (fst t) o -> In t (toks d)).
  { intros f o I [H|[H _]]; unfold toks; apply in_flat_map; exists f; (split; [exact I|]); apply in_flat_map; eexists; (split; [exact H|]); cbn [fst]; rewrite L; left; destruct t; reflexivity. }
  destruct (snd t); try (eapply K; [|exact R]; unfold letter_tables; cbn [In]; tauto).
  - destruct R as (o & R). eapply K; [|exact R]; unfold letter_tables; cbn [In]; tauto.
  - destruct R as [R|[R|[R|[R|R]]]]; (eapply K; [|exact R]; unfold letter_tables; cbn [In]; tauto).
Qed.
Lemma in_tok t : In t (toks d) -> is_tok d t.
Proof.
  unfold toks. intros H. apply in_flat_map in H as (f & If & H). apply in_flat_map in H as ([i o] & Ir & H). cbn [fst] in H. destruct (letter_of d i) as [l|] eqn:L; [|destruct H]. destruct H as [<-|[]]. split; [|exact L].
  cbn [fst]. intros ->. apply letter_row in L. destruct (oks d (free_of d) ok) as ((C & U & S & V & W) & (K & A & D & Le & J) & _).
  assert (N : forall f l g o, rows_ok d f l g = true -> row f [] o -> False) by (intros f' l' g o' H R; exact (proj1 (rows_ok_in _ _ _ _ H _ _ R) eq_refl)).
  destruct l; try (eapply N; [|exact L]; eassumption).
  - destruct L as (o' & L). eapply N; [|exact L]; eassumption.
  - destruct L as [L|[L|[L|[L|L]]]]; (eapply N; [|exact L]; eassumption).
Qed.
Lemma short : forall t, is_tok d t -> length (fst t) <= 4.
Proof.
  intros t H. unfold script_exchange_ok in exchange. destruct (short_letters d) eqn:S; [|discriminate exchange]. pose proof (proj1 (forallb_forall _ _) S t (tok_in t H)) as Q. cbv beta in Q. apply Nat.leb_le, Q.
Qed.
Lemma exchange_in j : is_tok d j -> exchange_ok (toks d) (has_inherent d) (free_of d) odd j = true.
Proof. intros H. unfold script_exchange_ok in exchange. destruct (short_letters d); [|discriminate exchange]. exact (proj1 (forallb_forall _ _) exchange j (tok_in j H)). Qed.
Lemma letter_nonempty l : letter_of d [] <> Some l.
Proof. intros H. assert (T : In ([], l) (toks d)).
  { pose proof (letter_row d _ _ H) as R. assert (K : forall f o, In f (letter_tables d) -> row f [] o -> In ([], l) (toks d)).
    { intros f o I [Q|[Q _]]; unfold toks; apply in_flat_map; exists f; (split; [exact I|]); apply in_flat_map; eexists; (split; [exact Q|]); cbn [fst]; rewrite H; left; reflexivity. }
    destruct l; try (eapply K; [|exact R]; unfold letter_tables; cbn [In]; tauto).
    - destruct R as (o & R). eapply K; [|exact R]; unfold letter_tables; cbn [In]; tauto.
    - destruct R as [R|[R|[R|[R|R]]]]; (eapply K; [|exact R]; unfold letter_tables; cbn [In]; tauto). }
  exact (proj1 (in_tok _ T) eq_refl).
Qed.
(** what [first_letter] finds *)
Lemma try_some n x k l : match letter_of d (firstn n x) with Some l => Some (length (firstn n x), l) | None => None end = Some (k, l) ->
  exists i r, x = i ++ r /\ length i = k /\ is_tok d (i, l).
Proof.
  destruct (letter_of d (firstn n x)) as [l'|] eqn:E; [|discriminate]. intros H. injection H as H1 H2. subst l' k. exists (firstn n x), (skipn n x). split; [symmetry; apply firstn_skipn|]. split; [reflexivity|]. split; [|exact E].
  cbn [fst]. intros Q. rewrite Q in E. exact (letter_nonempty _ E).
Qed.
Lemma first_some x k l : first_letter d x = Some (k, l) -> exists i r, x = i ++ r /\ length i = k /\ is_tok d (i, l).
Proof.
  unfold first_letter. intros H.
  destruct (match letter_of d (firstn 4 x) with Some l => Some (length (firstn 4 x), l) | None => None end) as [p|] eqn:E4; [cbn [orelse] in H; injection H as ->; exact (try_some _ _ _ _ E4)|].
  destruct (match letter_of d (firstn 3 x) with Some l => Some (length (firstn 3 x), l) | None => None end) as [p|] eqn:E3; [cbn [orelse] in H; injection H as ->; exact (try_some _ _ _ _ E3)|].
  destruct (match letter_of d (firstn 2 x) with Some l => Some (length (firstn 2 x), l) | None => None end) as [p|] eqn:E2; [cbn [orelse] in H; injection H as ->; exact (try_some _ _ _ _ E2)|].
  cbn [orelse] in H. exact (try_some _ _ _ _ H).
Qed.
Lemma first_longest i l r : is_tok d (i, l) -> exists k l', first_letter d (i ++ r) = Some (k, l') /\ length i <= k.
Proof.
  intros T. pose proof (short _ T) as S. cbn [fst] in S.
  assert (K : forall n, length i = n -> match letter_of d (firstn n (i ++ r)) with Some l => Some (length (firstn n (i ++ r)), l) | None => None end = Some (length i, l)).
  { intros n <-. rewrite firstn_app, Nat.sub_diag, firstn_all. cbn [firstn]. rewrite app_nil_r. destruct T as [_ T]. cbn [fst snd] in T. rewrite T. reflexivity. }
  assert (M : forall n k l', length i <= n -> match letter_of d (firstn n (i ++ r)) with Some l => Some (length (firstn n (i ++ r)), l) | None => None end = Some (k, l') -> length i <= k).
  { intros n k l' L E. destruct (letter_of d (firstn n (i ++ r))); [|discriminate E]. injection E as <- _. rewrite firstn_length, app_length. lia. }
  unfold first_letter.
  destruct (match letter_of d (firstn 4 (i ++ r)) with Some l => Some (length (firstn 4 (i ++ r)), l) | None => None end) as [[k l']|] eqn:E4; [exists k, l'; split; [reflexivity|exact (M 4 _ _ S E4)]|].
  assert (S3 : length i <= 3). { destruct (Nat.eq_dec (length i) 4) as [Q|Q]; [rewrite (K 4 Q) in E4; discriminate E4|lia]. }
  destruct (match letter_of d (firstn 3 (i ++ r)) with Some l => Some (length (firstn 3 (i ++ r)), l) | None => None end) as [[k l']|] eqn:E3; [exists k, l'; split; [reflexivity|exact (M 3 _ _ S3 E3)]|].
  assert (S2 : length i <= 2). { destruct (Nat.eq_dec (length i) 3) as [Q|Q]; [rewrite (K 3 Q) in E3; discriminate E3|lia]. }
  destruct (match letter_of d (firstn 2 (i ++ r)) with Some l => Some (length (firstn 2 (i ++ r)), l) | None => None end) as [[k l']|] eqn:E2; [exists k, l'; split; [reflexivity|exact (M 2 _ _ S2 E2)]|].
  assert (S1 : length i = 1). { destruct (Nat.eq_dec (length i) 2) as [Q|Q]; [rewrite (K 2 Q) in E2; discriminate E2|]. destruct T as [T _]. cbn [fst] in T. destruct i; [destruct (T eq_refl)|cbn [length] in *; lia]. }
  cbn [orelse]. exists (length i), l. split; [exact (K 1 S1)|lia].
Qed.
(** cutting off the longest letter again and again *)
Inductive longest : list tok -> str -> Prop :=
| lo_none : longest [] []
| lo_more i l ts r : is_tok d (i, l) -> first_letter d (i ++ r) = Some (length i, l) -> longest ts r -> longest ((i, l) :: ts) (i ++ r).
Lemma skip_letters a r : letters d (length a) (a ++ r) = letters d 0 r.
Proof. induction a as [|c a IH]; [destruct r; reflexivity|]. cbn [length app letters]. exact IH. Qed.
Lemma letters_longest ts x : longest ts x -> letters d 0 x = Some (map snd ts).
Proof.
  induction 1 as [|i l ts r T Fi _ IH]; [reflexivity|]. destruct i as [|c i]; [destruct T as [T _]; destruct (T eq_refl)|]. cbn [app length] in *. cbn [letters]. rewrite Fi.
  cbn [length]. rewrite Nat.sub_0_r || (replace (S (length i) - 1) with (length i) by lia). rewrite skip_letters, IH. reflexivity.
Qed.
Lemma longest_letters n : forall x l, length x <= n -> letters d 0 x = Some l -> exists ts, longest ts x /\ l = map snd ts.
Proof.
  induction n as [|n IH]; intros x l L H.
  - destruct x; [|cbn [length] in L; lia]. injection H as <-. exists []. split; [constructor|reflexivity].
  - destruct x as [|c x]; [injection H as <-; exists []; split; [constructor|reflexivity]|]. cbn [letters] in H. destruct (first_letter d (c :: x)) as [[k l0]|] eqn:Fi; [|discriminate H].
    destruct (first_some _ _ _ Fi) as (i & r & E & Li & T). destruct i as [|c' i]; [destruct T as [T _]; destruct (T eq_refl)|]. cbn [app] in E. injection E as <- ->. cbn [length] in Li. subst k.
    replace (S (length i) - 1) with (length i) in H by lia. rewrite skip_letters in H. destruct (letters d 0 r) as [l1|] eqn:E1; [|discriminate H]. injection H as <-.
    destruct (IH r l1) as (ts & Lo & ->); [cbn [length] in L; rewrite app_length in L; lia|exact E1|]. exists ((c :: i, l0) :: ts). split; [|reflexivity]. exact (lo_more (c :: i) l0 ts r T Fi Lo).
Qed.
Lemma longest_cut ts x : longest ts x -> cut d ts x.
Proof. induction 1 as [|i l ts r T _ _ IH]; [apply cut_none|]. destruct T as [T1 T2]. apply cut_more; assumption. Qed.
(** and that costs no more than any other cut *)
Lemma longest_least n : forall x, length x <= n -> avoids odd x -> forall ts s m, cut d ts x -> toll s ts = Some m -> exists us m', longest us x /\ toll s us = Some m' /\ (m' <= m)%N.
Proof.
  induction n as [|n IH]; intros x L A ts s m C T.
  - destruct x; [|cbn [length] in L; lia]. exists ts, m. destruct C as [F E]. destruct F as [|[i l] ts [N _] F]; [split; [constructor|split; [exact T|lia]]|]. cbn [map concat fst] in *. destruct i; [destruct (N eq_refl)|discriminate E].
  - destruct C as [F E]. destruct F as [|[i l] ts Hi F]; [exists [], m; cbn [map concat] in E; subst x; split; [constructor|split; [exact T|lia]]|].
    cbn [map concat fst] in E. destruct (first_longest i l (concat (map fst ts)) Hi) as (k & l' & Fi & Le). rewrite E in Fi. destruct (first_some _ _ _ Fi) as (j & r & Ex & Lj & Hj).
    assert (Nj : j <> []) by (destruct Hj; assumption).
    assert (Lr : length r <= n). { rewrite Ex, app_length in L. destruct j; [destruct (Nj eq_refl)|cbn [length] in L; lia]. }
    assert (Ar : avoids odd r) by (rewrite Ex in A; exact (avoids_right _ _ _ A)).
    (* a cut beginning with the longest letter *)
    assert (B : exists us k', cut d us r /\ toll s ((j, l') :: us) = Some k' /\ (k' <= m)%N).
    { destruct (Nat.eq_dec (length i) (length j)) as [Q|Q].
      - rewrite Ex in E. assert (Ei : i = j /\ concat (map fst ts) = r) by (apply app_inj_len; assumption). destruct Ei as [-> <-].
        assert (l' = l) by (destruct Hi as [_ Hi], Hj as [_ Hj]; cbn [fst snd] in *; congruence). subst l'. exists ts, m. split; [split; [exact F|reflexivity]|]. split; [exact T|lia].
      - assert (Fall : Forall (fun t => In t (toks d) /\ fst t <> []) ((i, l) :: ts)).
        { constructor; [split; [apply tok_in, Hi|apply Hi]|]. eapply Forall_impl; [|exact F]. intros t Ht. split; [apply tok_in, Ht|apply Ht]. }
        destruct (alts_complete (toks d) (length j) j ((i, l) :: ts) r (le_n _) Nj Fall) as (a & e & ts' & Ia & Ea & Ca & Er); [cbn [map concat fst]; congruence|].
        pose proof (exchange_in _ Hj) as X. unfold exchange_ok in X. cbn [fst] in X. destruct j as [|c0 [|c1 j]]; [destruct (Nj eq_refl)|destruct i as [|ci [|]]; [destruct Hi as [Hi _]; destruct (Hi eq_refl)|destruct (Q eq_refl)|cbn [length] in *; lia]|].
        remember (c0 :: c1 :: j) as j' eqn:Ej'. clear Ej'. pose proof (proj1 (forallb_forall _ _) X _ Ia) as Y. cbn [fst snd] in Y.
        rewrite Ex, Er, app_assoc in A. match type of Y with (if ?c then _ else _) = _ => replace c with false in Y by (symmetry; exact (avoids_odd _ _ _ A)) end. assert (Sh : shorter_first j' a = true). { destruct a as [|t a]; [destruct j'; [destruct (Nj eq_refl)|discriminate Ca]|]. injection Ea as <- _. cbn [shorter_first fst]. apply Nat.ltb_lt. lia. }
        rewrite Sh in Y. apply existsb_exists in Y as (g & Ig & Y). destruct (splits_sound _ _ _ _ Ig) as [Fg Eg].
        assert (Ft : Forall (is_tok d) (a ++ ts')) by (rewrite <- Ea; constructor; assumption). apply Forall_app in Ft as [_ Ft].
        assert (Fz : Forall (fun t => In t (toks d)) ts') by (eapply Forall_impl; [|exact Ft]; exact tok_in). pose proof (eq_trans (f_equal (toll s) (eq_sym Ea)) T) as T2.
        destruct (no_dearer_next_toll _ _ _ _ _ _ _ _ _ _ Y Fz A T2) as (k' & T' & L'). exists (g ++ ts'), k'. split; [|split; [exact T'|exact L']].
        split; [apply Forall_app; split; [eapply Forall_impl; [|exact Fg]; exact in_tok|exact Ft]|]. rewrite map_app, concat_app. etransitivity; [apply (f_equal (fun z => z ++ _)); exact Eg|symmetry; exact Er]. }
    destruct B as (us & k' & Cu & Tu & Lu). rewrite toll_step in Tu. destruct (step (has_inherent d) s (cls_of (free_of d) (j, l'))) as [[w q]|] eqn:St; [|discriminate Tu]. apply pay_some in Tu as (k2 & Tu & ->).
    destruct (IH r Lr Ar us q k2 Cu Tu) as (vs & k3 & Lo & Tv & Lv). exists ((j, l') :: vs), (w + k3)%N. split; [rewrite Ex; apply lo_more; [exact Hj|rewrite <- Ex, Lj; exact Fi|exact Lo]|]. rewrite toll_step, St, Tv. split; [reflexivity|lia].
Qed.
(** what the reader finds is best *)
Lemma romanize_best x y : avoids odd x -> romanize d x = Some y -> exists m, best (iso_wt d) x y m.
Proof.
  intros A H. unfold romanize in H. destruct (letters d 0 x) as [l|] eqn:E; [|discriminate H]. destruct (longest_letters _ x l (le_n _) E) as (ts & Lo & ->).
  destruct (cut_found d _ ok ts x y (longest_cut _ _ Lo) H) as (m & T & P). exists m. split; [apply iso_pieces, P|]. intros o w R. apply iso_pieces in R.
  destruct (pieces_cut d _ ok _ _ _ R) as (us & k & C & Tu & L). destruct (longest_least _ x (le_n _) A us sFresh k C Tu) as (vs & k' & Lo' & Tv & L').
  pose proof (letters_longest _ _ Lo) as Q. pose proof (letters_longest _ _ Lo') as Q'.
  assert (vs = ts). { clear - Lo Lo'. revert vs Lo'. induction Lo as [|i l ts r T Fi Lo IH]; intros vs V; inversion V as [Ev Ex|i' l' ts' r' T' Fi' Lo' Ev Ex]; subst.
    - reflexivity.
    - destruct i'; [destruct T' as [T' _]; destruct (T' eq_refl)|discriminate].
    - destruct i; [destruct T as [T _]; destruct (T eq_refl)|discriminate].
    - rewrite Ex in Fi'. rewrite Fi in Fi'. injection Fi' as Li ->. assert (Z : i' = i /\ r' = r) by (apply app_inj_len; [exact Ex|congruence]). destruct Z as [-> ->]. f_equal. apply IH, Lo'. }
  subst vs. rewrite T in Tv. injection Tv as <-. lia.
Qed.
Lemma rel_romanize x o w : avoids odd x -> rel (iso_wt d) x o w -> exists y, romanize d x = Some y.
Proof.
  intros A R. apply iso_pieces in R. destruct (pieces_cut d _ ok _ _ _ R) as (us & k & C & Tu & L). destruct (longest_least _ x (le_n _) A us sFresh k C Tu) as (vs & k' & Lo & Tv & _).
  unfold romanize. rewrite (letters_longest _ _ Lo). exact (toll_read d _ vs sFresh k' Tv).
Qed.
End Script.
