From Verif Require Import Base GrammarModel SharedModel GrammarSpec.
From Coq Require Import Lia.

(** ** Archives *)
Lemma get_set m k f j : get_fst (set_entry m k f) j = if str_eqb k j then Some f else get_fst m j.
Proof.
  induction m as [|[a g] m IH]; cbn [set_entry get_fst].
  - reflexivity.
  - destruct (str_eqb a k) eqn:E; cbn [get_fst].
    + apply str_eqb_eq in E. subst a. destruct (str_eqb k j); reflexivity.
    + rewrite IH. destruct (str_eqb a j) eqn:F; [|reflexivity]. apply str_eqb_eq in F. subst a.
      rewrite str_eqb_neq in E. destruct (str_eqb k j) eqn:G; [apply str_eqb_eq in G; congruence|reflexivity].
Qed.
Lemma get_fold es m j : get_fst (fold_left (fun m '(k, f) => set_entry m k f) es m) j =
  match get_fst (rev es) j with Some f => Some f | None => get_fst m j end.
Proof.
  revert m. induction es as [|[k f] es IH]; intros m; [reflexivity|]. cbn [fold_left rev]. rewrite IH. rewrite get_set.
  assert (A : forall l, get_fst (l ++ [(k, f)]) j = match get_fst l j with Some g => Some g | None => if str_eqb k j then Some f else None end).
  { induction l as [|[a g] l IHl]; [reflexivity|]. cbn [app get_fst]. destruct (str_eqb a j); [reflexivity|exact IHl]. }
  rewrite A. destruct (get_fst (rev es) j); [reflexivity|]. destruct (str_eqb k j); reflexivity.
Qed.
Lemma get_last l j f : get_fst (rev l) j = Some f <-> last_entry l j f.
Proof.
  assert (G : forall l f, get_fst l j = Some f <-> exists a b, l = a ++ (j, f) :: b /\ ~ In j (map fst a)).
  { clear. induction l as [|[k g] l IH]; intros f; cbn [get_fst].
    - split; [discriminate|]. intros (a & b & E & _). destruct a; discriminate E.
    - destruct (str_eqb k j) eqn:E.
      + apply str_eqb_eq in E. subst k. split.
        * intros H. injection H as ->. exists [], l. split; [reflexivity|intros []].
        * intros (a & b & H & N0). destruct a as [|[k' g'] a]; [injection H as -> _; reflexivity|]. injection H as -> _ _. destruct N0. left. reflexivity.
      + rewrite str_eqb_neq in E. rewrite IH. split.
        * intros (a & b & -> & N0). exists ((k, g) :: a), b. split; [reflexivity|]. intros [H|H]; [exact (E H)|exact (N0 H)].
        * intros (a & b & H & N0). destruct a as [|[k' g'] a]; [injection H as -> _ _; congruence|]. injection H as <- <- ->. exists a, b. split; [reflexivity|]. intros H. apply N0. right. exact H. }
  rewrite G. split.
  - intros (a & b & E & N0). exists (rev b), (rev a). split.
    + rewrite <- (rev_involutive l), E, rev_app_distr. cbn [rev]. rewrite <- app_assoc. reflexivity.
    + rewrite map_rev, <- in_rev. exact N0.
  - intros (a & b & -> & N0). exists (rev b), (rev a). split; [rewrite rev_app_distr; cbn [rev]; rewrite <- app_assoc; reflexivity|]. rewrite map_rev, <- in_rev. exact N0.
Qed.
Lemma read_get es k f : get_fst (snd (read_archive es)) k = Some f <-> last_entry es k f.
Proof. cbn [read_archive snd]. rewrite get_fold. rewrite <- get_last. cbn [get_fst]. destruct (get_fst (rev es) k); tauto. Qed.
Lemma read_ok es : fst (read_archive es) = true <-> es <> [].
Proof.
  cbn [read_archive fst]. split.
  - intros H ->. discriminate H.
  - intros H. destruct (fold_left (fun m '(k, f) => set_entry m k f) es []) as [|e m] eqn:E; [|reflexivity]. exfalso.
    destruct es as [|[k f] es] using rev_ind; [congruence|]. assert (G : get_fst (snd (read_archive (es ++ [(k, f)]))) k = Some f) by (apply read_get; exists es, []; split; [reflexivity|intros []]).
    cbn [read_archive snd] in G. rewrite E in G. discriminate G.
Qed.
Lemma set_keys m k f : forall x, In x (map fst (set_entry m k f)) <-> x = k \/ In x (map fst m).
Proof.
  induction m as [|[a g] m IH]; intros x; cbn [set_entry].
  - cbn. intuition.
  - destruct (str_eqb a k) eqn:E; cbn [map fst In]; [|rewrite IH; tauto]. apply str_eqb_eq in E. subst a. intuition.
Qed.
Lemma read_keys es : NoDup (map fst (snd (read_archive es))).
Proof.
  cbn [read_archive snd]. assert (G : forall m : archive, NoDup (map fst m) -> NoDup (map fst (fold_left (fun m '(k, f) => set_entry m k f) es m))); [|apply G; constructor].
  assert (Q : forall (m : archive) k f, NoDup (map fst m) -> NoDup (map fst (set_entry m k f))).
  { clear. induction m as [|[a g] m IH]; intros k f H; cbn [set_entry]; [repeat constructor; intros []|]. inversion H as [|x y H1 H2]; subst. destruct (str_eqb a k) eqn:E; cbn [map fst].
    - constructor; assumption.
    - constructor; [|apply IH; exact H2]. cbn [fst] in H1. rewrite set_keys. intros [K|K]; [|exact (H1 K)]. rewrite str_eqb_neq in E. exact (E K). }
  induction es as [|[k f] es IH]; intros m H; [exact H|]. cbn [fold_left]. apply IH. apply Q. exact H.
Qed.
Lemma load_missing files path m : files path = None -> load_file files path m = (false, m).
Proof. unfold load_file. intros ->. reflexivity. Qed.

(** ** Rewriting *)
Lemma shortest_none l : shortest l = None <-> l = [].
Proof. destruct l as [|[s w] l]; [tauto|]. cbn. split; [|discriminate]. destruct (shortest l) as [[t v]|]; [destruct (N.ltb v w)|]; discriminate. Qed.
Lemma shortest_some l t w : shortest l = Some (t, w) -> In (t, w) l /\ forall p, In p l -> (w <= snd p)%N.
Proof.
  revert t w. induction l as [|[s v] l IH]; intros t w; [discriminate|]. cbn [shortest]. destruct (shortest l) as [[t' v']|] eqn:E.
  - destruct (IH _ _ eq_refl) as [I' M]. destruct (N.ltb v' v) eqn:L.
    + intros H. injection H as -> ->. split; [right; exact I'|]. intros p [<-|P]; [cbn; apply N.ltb_lt in L; lia|exact (M p P)].
    + intros H. injection H as -> ->. split; [left; reflexivity|]. intros p [<-|P]; [cbn; lia|]. specialize (M p P). apply N.ltb_ge in L. lia.
  - intros H. injection H as -> ->. apply shortest_none in E. subst l. split; [left; reflexivity|]. intros p [<-|[]]. cbn. lia.
Qed.
Lemma shortest_least l : match option_map fst (shortest l) with Some t => least_output l t | None => l = [] end.
Proof.
  destruct (shortest l) as [[t w]|] eqn:E; cbn [option_map fst].
  - apply shortest_some in E. exists w. exact E.
  - apply shortest_none. exact E.
Qed.
Lemma compose_one s w f : compose_lattice [(s, w)] f = map (fun '(t, v) => (t, w + v)%N) (f s).
Proof. cbn. apply app_nil_r. Qed.
Lemma compose_zero s f : compose_lattice [(s, 0%N)] f = f s.
Proof. rewrite compose_one. rewrite <- (map_id (f s)) at 2. apply map_ext. intros [t v]. rewrite N.add_0_l. reflexivity. Qed.
Section P.
Variable pdt : lattice -> wfst -> wfst -> option wfst -> lattice.
Lemma bytes_plain m t input : parens_rule t = [] -> assign_rule t = [] ->
  rewrite_bytes pdt m t input = match get_fst m (main_rule t) with None => None | Some f => option_map fst (shortest (f (compile_bytes input))) end.
Proof. intros E1 E2. unfold rewrite_bytes, rewrite_lattice. rewrite E1, E2. destruct (get_fst m (main_rule t)); [|reflexivity]. rewrite compose_zero. reflexivity. Qed.
Lemma rewrite_sound g input out t : g_rewrite pdt g input out = (Ok, t) ->
  exists f, get_fst (g_archive g) (g_name g) = Some f /\ least_output (f (compile_bytes input)) t.
Proof.
  unfold g_rewrite. rewrite bytes_plain by reflexivity. cbn [main_rule]. destruct (get_fst (g_archive g) (g_name g)) as [f|]; [|discriminate]. exists f. split; [reflexivity|].
  pose proof (shortest_least (f (compile_bytes input))) as L. destruct (option_map fst (shortest (f (compile_bytes input)))); [|discriminate]. injection H as ->. exact L.
Qed.
Lemma rewrite_fails g input out : (fst (g_rewrite pdt g input out) <> Ok <-> forall f, get_fst (g_archive g) (g_name g) = Some f -> f (compile_bytes input) = []) /\
  (fst (g_rewrite pdt g input out) <> Ok -> g_rewrite pdt g input out = (Rewrite_failed input, out)).
Proof.
  unfold g_rewrite. rewrite bytes_plain by reflexivity. cbn [main_rule]. destruct (get_fst (g_archive g) (g_name g)) as [f|].
  - pose proof (shortest_least (f (compile_bytes input))) as L. destruct (option_map fst (shortest (f (compile_bytes input)))) as [t|]; cbn [fst].
    + split; [|congruence]. split; [congruence|]. intros H. specialize (H f eq_refl). destruct L as (w & I' & _). rewrite H in I'. destruct I'.
    + split; [|reflexivity]. split; [|discriminate]. intros _ g0 E. injection E as <-. exact L.
  - cbn [fst]. split; [|reflexivity]. split; [discriminate|discriminate].
Qed.
Lemma accept_rewrite g input out : g_accept pdt g input = fst (g_rewrite pdt g input out).
Proof. unfold g_accept, g_rewrite. destruct (rewrite_bytes _ _ _ _); reflexivity. Qed.
Lemma accept_ok g input : g_accept pdt g input = Ok <-> exists f, get_fst (g_archive g) (g_name g) = Some f /\ f (compile_bytes input) <> [].
Proof.
  rewrite (accept_rewrite g input []). destruct (rewrite_fails g input []) as [F _]. split.
  - intros E. unfold g_rewrite in E. rewrite bytes_plain in E by reflexivity. cbn [main_rule] in E. destruct (get_fst (g_archive g) (g_name g)) as [f|]; [|discriminate]. exists f. split; [reflexivity|].
    intros Q. rewrite Q in E. discriminate E.
  - intros (f & E & N0). destruct (fst (g_rewrite pdt g input [])) eqn:Q; [reflexivity| | | |]; exfalso; apply N0; apply F; try discriminate; exact E.
Qed.

(** ** Verification and loading *)
Lemma lookup_in k v : lookup language_scripts k = Some v <-> In (k, v) language_scripts.
Proof.
  split.
  - generalize language_scripts. induction l as [|[a b] l IH]; cbn [lookup]; [discriminate|]. destruct (str_eqb a k) eqn:E; [|intros H; right; exact (IH H)].
    apply str_eqb_eq in E. subst a. intros H. injection H as ->. left. reflexivity.
  - unfold language_scripts. cbn [In]. intros H. repeat (destruct H as [H|H]; [injection H as <- <-; reflexivity|]). destruct H.
Qed.
Lemma resolves_iff m name name' : resolves m name name' <->
  present m name /\ name' = name \/ ~ present m name /\ exists script, In (to_lower name, script) language_scripts /\ name' = to_upper script /\ present m name'.
Proof.
  assert (E : language_scripts = map (fun p => (letters_of (fst p), letters_of (snd p))) scripts_of_languages) by reflexivity.
  unfold resolves. change small with to_lower. change capital with to_upper. split; (intros [H|[A H]]; [left; exact H|right; split; [exact A|]]).
  - destruct H as (k & v & K & E1 & E2 & P). exists (letters_of v). split; [|split; assumption]. rewrite E, E1. apply in_map_iff. exists (k, v). split; [reflexivity|exact K].
  - destruct H as (sc & K & E2 & P). rewrite E in K. apply in_map_iff in K as ([k v] & Q & K). cbn [fst snd] in Q. injection Q as Q1 Q2. subst sc. exists k, v. auto.
Qed.
Lemma has_present m n : has_fst m n = true <-> present m n.
Proof. unfold has_fst, present. destruct (get_fst m n) as [f|]; [split; [exists f; reflexivity|reflexivity]|]. split; [discriminate|intros (f & H); discriminate H]. Qed.
Lemma has_absent m n : has_fst m n = false <-> ~ present m n.
Proof. rewrite <- has_present. destruct (has_fst m n); split; congruence. Qed.
Variable locate : str -> option str.
Variable files : str -> option archive.
Lemma verify_ok g g' : verify_load locate g = (Ok, g') <->
  (exists path, locate (g_path g) = Some path) /\ g_path g' = g_path g /\ g_archive g' = g_archive g /\ resolves (g_archive g) (g_name g) (g_name g').
Proof.
  rewrite resolves_iff. unfold verify_load. destruct (locate (g_path g)) as [path|]; [|split; [discriminate|intros ((p & H) & _); discriminate H]].
  destruct (has_fst (g_archive g) (g_name g)) eqn:H0.
  - apply has_present in H0. split.
    + intros H. injection H as <-. repeat split; [exists path; reflexivity|]. left. split; [exact H0|reflexivity].
    + intros (_ & E1 & E2 & [[_ E3]|[N0 _]]); [|destruct (N0 H0)]. destruct g, g'. cbn in *. subst. reflexivity.
  - apply has_absent in H0. destruct (lookup language_scripts (to_lower (g_name g))) as [script|] eqn:L.
    + apply lookup_in in L. destruct (has_fst (g_archive g) (to_upper script)) eqn:H1.
      * apply has_present in H1. split.
        -- intros H. injection H as <-. cbn [g_path g_archive g_name]. repeat split; [exists path; reflexivity|]. right. split; [exact H0|]. exists script. repeat split; assumption.
        -- intros (_ & E1 & E2 & [[P _]|[_ (sc & I' & E3 & P)]]); [destruct (H0 P)|]. apply lookup_in in I'. apply lookup_in in L. assert (sc = script) by congruence. subst sc.
           destruct g'. cbn in *. subst. reflexivity.
      * apply has_absent in H1. split; [discriminate|]. intros (_ & E1 & E2 & [[P _]|[_ (sc & I' & E3 & P)]]); [destruct (H0 P)|]. apply lookup_in in I'. apply lookup_in in L.
        assert (sc = script) by congruence. subst sc. rewrite E3 in P. destruct (H1 P).
    + split; [discriminate|]. intros (_ & E1 & E2 & [[P _]|[_ (sc & I' & E3 & P)]]); [destruct (H0 P)|]. apply lookup_in in I'. congruence.
Qed.
Lemma resolves_present m n n' : resolves m n n' -> present m n'.
Proof. intros H. apply resolves_iff in H. destruct H as [[P ->]|(_ & sc & _ & _ & P)]; exact P. Qed.
Lemma verify_again g g' : verify_load locate g = (Ok, g') -> verify_load locate g' = (Ok, g').
Proof.
  intros H. apply verify_ok in H as ((path & P) & E1 & E2 & R). apply verify_ok. split; [exists path; rewrite E1; exact P|]. repeat split. left. split; [|reflexivity]. rewrite E2. exact (resolves_present _ _ _ R).
Qed.
Lemma verify_rewrites g g' : verify_load locate g = (Ok, g') -> present (g_archive g') (g_name g').
Proof. intros H. apply verify_ok in H as (_ & _ & E & R). rewrite E. exact (resolves_present _ _ _ R). Qed.
Lemma verify_keeps g r g' : verify_load locate g = (r, g') -> g_path g' = g_path g /\ g_archive g' = g_archive g.
Proof.
  unfold verify_load. destruct (locate (g_path g)); [|intros H; injection H as <- <-; split; reflexivity]. destruct (has_fst _ (g_name g)); [intros H; injection H as <- <-; split; reflexivity|].
  destruct (lookup _ _); [|intros H; injection H as <- <-; split; reflexivity]. destruct (has_fst _ _); intros H; injection H as <- <-; split; reflexivity.
Qed.
Lemma load_ok g g' : load locate files g = (Ok, g') <->
  exists path entries, locate (g_path g) = Some path /\ files path = Some entries /\ entries <> [] /\ g_path g' = g_path g /\
    g_archive g' = snd (read_archive entries) /\ resolves (snd (read_archive entries)) (g_name g) (g_name g').
Proof.
  unfold load. destruct (locate (g_path g)) as [path|] eqn:EL.
  - unfold load_file. destruct (files path) as [entries|] eqn:EF.
    + destruct (read_archive entries) as [ok m] eqn:ER. pose proof (read_ok entries) as RO. rewrite ER in RO. cbn [fst] in RO. destruct ok.
      * rewrite verify_ok. cbn [g_path g_archive g_name]. split.
        -- intros (_ & E1 & E2 & R). exists path, entries. rewrite ER. cbn [snd]. repeat split; try assumption. apply RO. reflexivity.
        -- intros (p & es & P & F & NE & E1 & E2 & R). assert (p = path) by congruence. subst p. assert (es = entries) by congruence. subst es. rewrite ER in *. cbn [snd] in *. repeat split; try assumption. exists path. exact EL.
      * split; [discriminate|]. intros (p & es & P & F & NE & _). assert (p = path) by congruence. subst p. assert (es = entries) by congruence. subst es. apply RO in NE. discriminate NE.
    + split; [discriminate|]. intros (p & es & P & F & _). assert (p = path) by congruence. subst p. congruence.
  - split; [discriminate|]. intros (p & es & P & _). discriminate P.
Qed.
Lemma load_again g g' : load locate files g = (Ok, g') -> load locate files g' = (Ok, g').
Proof.
  intros H. apply load_ok in H as (path & es & P & F & NE & E1 & E2 & R). apply load_ok. exists path, es. rewrite E1. repeat split; try assumption. left. split; [exact (resolves_present _ _ _ R)|reflexivity].
Qed.
Lemma load_bad_file g path : locate (g_path g) = Some path -> files path = None -> load locate files g = (Load_failed path, g).
Proof. intros P F. unfold load. rewrite P, (load_missing _ _ _ F). destruct g. reflexivity. Qed.
Lemma load_empty_file g path : locate (g_path g) = Some path -> files path = Some [] -> load locate files g = (Load_failed path, Grammar (g_path g) (g_name g) []).
Proof. intros P F. unfold load, load_file. rewrite P, F. reflexivity. Qed.
Lemma load_both_ok a b a' b' : load_both locate files (a, b) = (Ok, (a', b')) <-> load locate files a = (Ok, a') /\ load locate files b = (Ok, b').
Proof.
  unfold load_both. destruct (load locate files a) as [r x]. destruct r; try (split; [discriminate|intros [H _]; discriminate H]).
  destruct (load locate files b) as [r y]. split.
  - intros H. injection H as -> -> ->. split; reflexivity.
  - intros [H H']. injection H as ->. injection H' as -> ->. reflexivity.
Qed.
Lemma verify_both_ok a b a' b' : verify_both locate (a, b) = (Ok, (a', b')) <-> verify_load locate a = (Ok, a') /\ verify_load locate b = (Ok, b').
Proof.
  unfold verify_both. destruct (verify_load locate a) as [r x]. destruct r; try (split; [discriminate|intros [H _]; discriminate H]).
  destruct (verify_load locate b) as [r y]. split.
  - intros H. injection H as -> -> ->. split; reflexivity.
  - intros [H H']. injection H as ->. injection H' as -> ->. reflexivity.
Qed.
Lemma supports_ok far_path name : supports locate files far_path name = true <->
  exists a b, load locate files (make_grammar far_path visual_norm_name name) = (Ok, a) /\ load locate files (make_grammar far_path wellformed_name name) = (Ok, b).
Proof.
  unfold supports, make_normalizer. split.
  - destruct (load_both _ _ _) as [r [a b]] eqn:E. cbn [fst]. destruct r; try discriminate. intros _. apply load_both_ok in E. exists a, b. exact E.
  - intros (a & b & H). apply load_both_ok in H. rewrite H. reflexivity.
Qed.

(** ** Normalizers *)
Lemma normalize_ok a b input out t : normalize pdt (a, b) input out = (Ok, t) <-> normalize_only pdt (a, b) input out = (Ok, t) /\ g_accept pdt b t = Ok.
Proof.
  unfold normalize, normalize_only. cbn [fst snd]. destruct (g_rewrite pdt a input out) as [r u]. destruct r; try (split; [discriminate|intros [H _]; discriminate H]). split.
  - intros H. injection H as E ->. split; [reflexivity|exact E].
  - intros [H E]. injection H as ->. rewrite E. reflexivity.
Qed.
Lemma normalize_rejects a b input out t : normalize_only pdt (a, b) input out = (Ok, t) -> g_accept pdt b t <> Ok -> normalize pdt (a, b) input out = (Rewrite_failed t, t).
Proof.
  unfold normalize. intros -> N0. cbn [snd]. f_equal. unfold g_accept in *. destruct (rewrite_bytes _ _ _ _); [congruence|reflexivity].
Qed.
Lemma reading_ok a b input out t : reading_normalize pdt (a, b) input out = (Ok, t) <-> exists u, g_rewrite pdt a input [] = (Ok, u) /\ g_rewrite pdt b u out = (Ok, t).
Proof.
  unfold reading_normalize. cbn [fst snd]. destruct (g_rewrite pdt a input []) as [r u]. destruct r; try (split; [discriminate|intros (v & H & _); discriminate H]). split.
  - intros H. exists u. split; [reflexivity|exact H].
  - intros (v & H & H'). injection H as ->. exact H'.
Qed.
Lemma reading_fails a b input out r t : reading_normalize pdt (a, b) input out = (r, t) -> r <> Ok -> t = out.
Proof.
  unfold reading_normalize. cbn [fst snd]. destruct (g_rewrite pdt a input []) as [r' u]. destruct r'; try (intros H; injection H; congruence). intros H N0.
  destruct (rewrite_fails b u out) as [_ F]. rewrite H in F. cbn [fst] in F. specialize (F N0). congruence.
Qed.

(** ** Cascades *)
Lemma valid_rewrites m t l : valid_triple m t = true <-> rewrite_lattice pdt m t l <> None.
Proof.
  unfold valid_triple, rewrite_lattice. destruct (get_fst m (main_rule t)); [|split; [discriminate|congruence]].
  destruct (parens_rule t) as [|p ps]; destruct (assign_rule t) as [|a asg]; cbn [andb]; rewrite ?andb_true_r.
  - split; [discriminate|reflexivity].
  - destruct (get_fst m (a :: asg)); split; congruence.
  - destruct (get_fst m (p :: ps)); split; congruence.
  - destruct (get_fst m (p :: ps)); [|split; [discriminate|congruence]]. cbn [andb]. destruct (get_fst m (a :: asg)); split; congruence.
Qed.
Lemma cascade_valid m rules l out : forallb (valid_triple m) rules = true <-> cascade_rewrite pdt m rules l out <> None.
Proof.
  revert l out. induction rules as [|t rules IH]; intros l out; cbn [forallb cascade_rewrite].
  - split; [discriminate|reflexivity].
  - rewrite andb_true_iff, (valid_rewrites m t l). destruct (rewrite_lattice pdt m t l) as [l'|].
    + rewrite (IH l' l'). split; [intros [_ H]; exact H|]. intros H. split; [discriminate|exact H].
    + split; [intros [H _]; congruence|congruence].
Qed.
Lemma cascade_out m t rules l out out' : cascade_rewrite pdt m (t :: rules) l out = cascade_rewrite pdt m (t :: rules) l out'.
Proof. reflexivity. Qed.
Lemma cascade_app m a b l out : b <> [] ->
  cascade_rewrite pdt m (a ++ b) l out = match a with [] => cascade_rewrite pdt m b l out | _ => match cascade_rewrite pdt m a l out with None => None | Some l' => cascade_rewrite pdt m b l' l' end end.
Proof.
  intros NE. assert (G : forall a l out, cascade_rewrite pdt m (a ++ b) l l = match cascade_rewrite pdt m a l l with None => None | Some l' => cascade_rewrite pdt m b l' out end).
  { clear a l out. induction a as [|t a IH]; intros l out; cbn [app cascade_rewrite].
    - destruct b; [congruence|reflexivity].
    - destruct (rewrite_lattice pdt m t l) as [l'|]; [|reflexivity]. rewrite (IH l' out). destruct (cascade_rewrite pdt m a l' l'); reflexivity. }
  destruct a as [|t a]; [reflexivity|]. cbn [app cascade_rewrite]. destruct (rewrite_lattice pdt m t l) as [l'|]; [|reflexivity]. rewrite (G a l' []). destruct (cascade_rewrite pdt m a l' l') as [l''|]; [|reflexivity].
  destruct b; [congruence|reflexivity].
Qed.
Lemma compose_in l f t w : In (t, w) (compose_lattice l f) <-> exists s v u, In (s, v) l /\ In (t, u) (f s) /\ w = (v + u)%N.
Proof.
  unfold compose_lattice. rewrite in_flat_map. split.
  - intros ([s v] & I' & H). apply in_map_iff in H as ([t' u] & E & H). injection E as -> <-. exists s, v, u. repeat split; assumption.
  - intros (s & v & u & I' & H & ->). exists (s, v). split; [exact I'|]. apply in_map_iff. exists (t, u). split; [reflexivity|exact H].
Qed.
Lemma cascade_through m rules fs l out : Forall2 (plain m) rules fs -> rules <> [] ->
  exists res, cascade_rewrite pdt m rules l out = Some res /\ forall t w, In (t, w) res <-> exists s v u, In (s, v) l /\ through fs s t u /\ w = (v + u)%N.
Proof.
  intros H. assert (G : forall l, exists res, cascade_rewrite pdt m rules l l = Some res /\ forall t w, In (t, w) res <-> exists s v u, In (s, v) l /\ through fs s t u /\ w = (v + u)%N).
  { clear l out. induction H as [|r f rules fs (P1 & P2 & P3) H IH]; intros l; cbn [cascade_rewrite].
    - exists l. split; [reflexivity|]. intros t w. split.
      + intros I'. exists t, w, 0%N. repeat split; [exact I'|constructor|lia].
      + intros (s & v & u & I' & T & ->). inversion T; subst. rewrite N.add_0_r. exact I'.
    - unfold rewrite_lattice at 1. rewrite P1, P2, P3. destruct (IH (compose_lattice l f)) as (res & E & R). exists res. split; [exact E|]. intros t w. rewrite R. split.
      + intros (s & v & u & I' & T & ->). apply compose_in in I' as (s0 & v0 & u0 & I0 & F & ->). exists s0, v0, (u0 + u)%N. repeat split; [exact I0|econstructor; eassumption|lia].
      + intros (s & v & u & I' & T & ->). inversion T; subst. match goal with K : In (?u', ?v') (f s), K2 : through fs ?u' t ?w' |- _ => exists u', (v + v')%N, w'; repeat split; [apply compose_in; exists s, v, v'; repeat split; assumption|exact K2|lia] end. }
  intros NE. destruct rules as [|r rules]; [congruence|]. destruct (G l) as (res & E & R). exists res. split; [|exact R]. exact E.
Qed.
Lemma cascade_least m rules fs input : Forall2 (plain m) rules fs -> rules <> [] ->
  match cascade_bytes pdt m rules input with
  | Some t => exists w, through fs (compile_bytes input) t w /\ forall t' w', through fs (compile_bytes input) t' w' -> (w <= w')%N
  | None => forall t w, ~ through fs (compile_bytes input) t w
  end.
Proof.
  intros H NE. unfold cascade_bytes. destruct (cascade_through m rules fs [(compile_bytes input, 0%N)] [] H NE) as (res & -> & R).
  assert (R' : forall t w, In (t, w) res <-> through fs (compile_bytes input) t w).
  { intros t w. rewrite R. split.
    - intros (s & v & u & [I'|[]] & T & ->). injection I' as <- <-. rewrite N.add_0_l. exact T.
    - intros T. exists (compile_bytes input), 0%N, w. repeat split; [left; reflexivity|exact T]. }
  pose proof (shortest_least res) as L. destruct (option_map fst (shortest res)) as [t|].
  - destruct L as (w & I' & M). exists w. split; [apply R'; exact I'|]. intros t' w' T. apply R' in T. exact (M _ T).
  - subst res. intros t w T. apply R' in T. destruct T.
Qed.
Lemma compile_no_zero s : no_zero s -> compile_bytes s = s.
Proof.
  induction s as [|c s IH]; intros H; [reflexivity|]. cbn [compile_bytes filter]. destruct (N.eqb c 0) eqn:E; [apply N.eqb_eq in E; destruct H; left; exact E|]. cbn [negb]. f_equal. apply IH. intros Q. apply H. right. exact Q.
Qed.
Lemma compiled_no_zero s : no_zero (compile_bytes s).
Proof. intros H. apply filter_In in H as [_ H]. discriminate H. Qed.
Lemma functional_steps m rules fs s : Forall2 (plain m) rules fs -> no_zero s ->
  Forall (fun f : wfst => forall s, (length (f s) <= 1)%nat /\ forall t w, In (t, w) (f s) -> no_zero t) fs ->
  match one_by_one pdt m rules s with Some t => exists w, through fs s t w /\ forall t' w', through fs s t' w' -> t' = t | None => forall t w, ~ through fs s t w end.
Proof.
  intros H. revert s. induction H as [|r f rules fs (P1 & P2 & P3) H IH]; intros s Z F; cbn [one_by_one].
  - exists 0%N. split; [constructor|]. intros t' w' T. inversion T. reflexivity.
  - inversion F as [|x y F1 F2]; subst. rewrite bytes_plain by assumption. rewrite P1, (compile_no_zero s Z). destruct (F1 s) as [L Zo]. destruct (f s) as [|[u v] l] eqn:E.
    + cbn. intros t w T. inversion T; subst. match goal with K : In _ (f s) |- _ => rewrite E in K; destruct K end.
    + destruct l; [|cbn in L; lia]. cbn [shortest option_map fst]. assert (Zu : no_zero u) by (apply (Zo u v); left; reflexivity). specialize (IH u Zu F2).
      assert (Inv : forall t w, through (f :: fs) s t w -> exists w', through fs u t w' /\ w = (v + w')%N).
      { intros t w T. inversion T; subst. match goal with K : In _ (f s) |- _ => rewrite E in K; destruct K as [K|[]]; injection K as <- <- end. eexists. split; [eassumption|reflexivity]. }
      destruct (one_by_one pdt m rules u) as [t|].
      * destruct IH as (w & T & U). exists (v + w)%N. split; [econstructor; [rewrite E; left; reflexivity|exact T]|]. intros t' w' T'. apply Inv in T' as (w'' & T' & _). exact (U _ _ T').
      * intros t w T. apply Inv in T as (w' & T & _). exact (IH _ _ T).
Qed.
Lemma cascade_one_by_one m rules fs input : Forall2 (plain m) rules fs -> rules <> [] ->
  Forall (fun f : wfst => forall s, (length (f s) <= 1)%nat /\ forall t w, In (t, w) (f s) -> no_zero t) fs ->
  cascade_bytes pdt m rules input = one_by_one pdt m rules (compile_bytes input).
Proof.
  intros H NE F. pose proof (cascade_least m rules fs input H NE) as C. pose proof (functional_steps m rules fs _ H (compiled_no_zero input) F) as O.
  destruct (cascade_bytes pdt m rules input) as [t|]; destruct (one_by_one pdt m rules (compile_bytes input)) as [t'|].
  - destruct C as (w & T & _). destruct O as (w' & T' & U). f_equal. exact (U _ _ T).
  - destruct C as (w & T & _). destruct (O _ _ T).
  - destruct O as (w & T & _). destruct (C _ _ T).
  - reflexivity.
Qed.
Lemma cascade_no_rules m input : cascade_bytes pdt m [] input = None.
Proof. reflexivity. Qed.
End P.
Lemma greedy_differs : forall pdt, exists m rules input t, cascade_bytes pdt m rules input = Some t /\ one_by_one pdt m rules input = None.
Proof.
  intros pdt. exists [([65]%N, fun _ : str => [([1]%N, 0%N); ([2]%N, 5%N)]); ([66]%N, fun s : str => if str_eqb s [2]%N then [([3]%N, 0%N)] else [])], [Triple [65]%N [] []; Triple [66]%N [] []], [7]%N, [3]%N.
  split; reflexivity.
Qed.
Lemma init_adds : exists m defs old, snd (cascade_init_defs m defs old) <> map parse_triple defs.
Proof. exists [], [], [Triple [] [] []]. discriminate. Qed.

(** ** Rule definitions *)
Lemma find_absent c s : ~ In c s -> find_char c s = None.
Proof. induction s as [|d s IH]; intros H; [reflexivity|]. cbn [find_char]. destruct (N.eqb c d) eqn:E; [apply N.eqb_eq in E; destruct H; left; congruence|]. rewrite IH; [reflexivity|]. intros Q. apply H. right. exact Q. Qed.
Lemma find_at c a b : ~ In c a -> find_char c (a ++ c :: b) = Some (length a).
Proof. induction a as [|d a IH]; intros H; cbn [app find_char length]; [rewrite N.eqb_refl; reflexivity|]. destruct (N.eqb c d) eqn:E; [apply N.eqb_eq in E; destruct H; left; congruence|]. rewrite IH; [reflexivity|]. intros Q. apply H. right. exact Q. Qed.
Lemma find_sound c s i : find_char c s = Some i -> s = firstn i s ++ c :: skipn (S i) s /\ ~ In c (firstn i s).
Proof.
  revert i. induction s as [|d s IH]; intros i; cbn [find_char]; [discriminate|]. destruct (N.eqb c d) eqn:E.
  - apply N.eqb_eq in E. subst d. intros H. injection H as <-. split; [reflexivity|intros []].
  - destruct (find_char c s) as [j|]; [|discriminate]. intros H. injection H as <-. destruct (IH j eq_refl) as [A B]. split; [cbn; f_equal; exact A|]. intros [Q|Q]; [|exact (B Q)]. apply N.eqb_neq in E. congruence.
Qed.
Lemma skip_at (a : str) c b : skipn (S (length a)) (a ++ c :: b) = b.
Proof. induction a as [|d a IH]; [reflexivity|]. exact IH. Qed.
Lemma first_at (a : str) c b : firstn (length a) (a ++ c :: b) = a.
Proof. induction a as [|d a IH]; [reflexivity|]. cbn. f_equal. exact IH. Qed.
Lemma sep_absent s : no_separator s -> find_sep s = None.
Proof. intros [A B]. unfold find_sep. rewrite (find_absent _ _ A). apply find_absent. exact B. Qed.
Lemma sep_at a c b : no_separator a -> c = 36%N \/ c = 58%N /\ ~ In 36%N b -> find_sep (a ++ c :: b) = Some (length a).
Proof.
  intros [A B] C. unfold find_sep. destruct C as [->|[-> C]].
  - rewrite (find_at _ _ _ A). reflexivity.
  - rewrite find_absent; [apply find_at; exact B|]. intros Q. apply in_app_or in Q as [Q|[Q|Q]]; [exact (A Q)|discriminate Q|exact (C Q)].
Qed.
Lemma triple_one s : no_separator s -> parse_triple s = Triple s [] [].
Proof. intros H. unfold parse_triple. rewrite (sep_absent s H). reflexivity. Qed.
Lemma triple_two a b c : no_separator a -> no_separator b -> In c [36; 58]%N -> parse_triple (a ++ c :: b) = Triple a b [].
Proof.
  intros A B C. unfold parse_triple. rewrite sep_at; [|exact A|]. { rewrite skip_at, first_at, (sep_absent b B). reflexivity. }
  destruct C as [<-|[<-|[]]]; [left; reflexivity|right]. split; [reflexivity|exact (proj1 B)].
Qed.
Lemma triple_three a b d c : no_separator a -> no_separator b -> no_separator d -> In c [36; 58]%N -> parse_triple (a ++ c :: b ++ c :: d) = Triple a b d.
Proof.
  intros A B D C. unfold parse_triple. rewrite sep_at; [|exact A|].
  - rewrite skip_at, first_at. rewrite sep_at; [|exact B|].
    + rewrite skip_at, first_at. reflexivity.
    + destruct C as [<-|[<-|[]]]; [left; reflexivity|right]. split; [reflexivity|exact (proj1 D)].
  - destruct C as [<-|[<-|[]]]; [left; reflexivity|right]. split; [reflexivity|]. intros Q. apply in_app_or in Q as [Q|[Q|Q]]; [exact (proj1 B Q)|discriminate Q|exact (proj1 D Q)].
Qed.
Lemma sep_sound s i : find_sep s = Some i -> exists c, In c [36; 58]%N /\ s = firstn i s ++ c :: skipn (S i) s.
Proof.
  unfold find_sep. destruct (find_char 36 s) as [j|] eqn:E; intros H.
  - injection H as <-. exists 36%N. split; [left; reflexivity|]. apply find_sound in E. tauto.
  - exists 58%N. split; [right; left; reflexivity|]. apply find_sound in H. tauto.
Qed.
Lemma triple_keeps s : s = main_rule (parse_triple s) \/ exists c, In c [36; 58]%N /\
  (s = main_rule (parse_triple s) ++ c :: parens_rule (parse_triple s) \/ exists c', In c' [36; 58]%N /\ s = main_rule (parse_triple s) ++ c :: parens_rule (parse_triple s) ++ c' :: assign_rule (parse_triple s)).
Proof.
  unfold parse_triple. destruct (find_sep s) as [i|] eqn:E; [|left; reflexivity]. right. apply sep_sound in E as (c & C & Es). exists c. split; [exact C|].
  remember (skipn (S i) s) as rest eqn:Hr. destruct (find_sep rest) as [j|] eqn:F; cbn [main_rule parens_rule assign_rule].
  - right. apply sep_sound in F as (c' & C' & Er). exists c'. split; [exact C'|]. rewrite <- Er. exact Es.
  - left. exact Es.
Qed.
Lemma triple_mixed : exists a b d, no_separator a /\ no_separator b /\ no_separator d /\ parse_triple (a ++ 58%N :: b ++ 36%N :: d) <> Triple a b d.
Proof. exists [97]%N, [98]%N, [99]%N. repeat split; try (cbn; intuition discriminate). Qed.

(** ** Names and paths *)
Lemma upper_twice s : to_upper (to_upper s) = to_upper s.
Proof.
  unfold to_upper. rewrite map_map. apply map_ext. intros c. destruct (N.leb 97 c && N.leb c 122) eqn:E; [|rewrite E; reflexivity]. apply andb_prop in E as [A B]. apply N.leb_le in A. apply N.leb_le in B.
  replace (N.leb 97 (c - 32)) with false; [reflexivity|]. symmetry. apply N.leb_gt. lia.
Qed.
Lemma lower_upper s : to_lower (to_upper s) = to_lower s.
Proof.
  unfold to_upper, to_lower. rewrite map_map. apply map_ext. intros c. destruct (N.leb 97 c && N.leb c 122) eqn:E; [|reflexivity]. apply andb_prop in E as [A B]. apply N.leb_le in A. apply N.leb_le in B.
  replace (N.leb 65 (c - 32)) with true by (symmetry; apply N.leb_le; lia). replace (N.leb (c - 32) 90) with true by (symmetry; apply N.leb_le; lia).
  replace (N.leb c 90) with false by (symmetry; apply N.leb_gt; lia). rewrite andb_false_r. cbn [andb]. lia.
Qed.
Lemma upper_lower s : to_upper (to_lower s) = to_upper s.
Proof.
  unfold to_upper, to_lower. rewrite map_map. apply map_ext. intros c. destruct (N.leb 65 c && N.leb c 90) eqn:E; [|reflexivity]. apply andb_prop in E as [A B]. apply N.leb_le in A. apply N.leb_le in B.
  replace (N.leb 97 (c + 32)) with true by (symmetry; apply N.leb_le; lia). replace (N.leb (c + 32) 122) with true by (symmetry; apply N.leb_le; lia).
  replace (N.leb 97 c) with false by (symmetry; apply N.leb_gt; lia). cbn [andb]. lia.
Qed.
Lemma any_case path far far' name name' : to_lower far = to_lower far' -> to_lower name = to_lower name' -> make_grammar path far name = make_grammar path far' name'.
Proof. intros E1 E2. unfold make_grammar, far_file_path. rewrite E1. f_equal. rewrite <- upper_lower, E2, upper_lower. reflexivity. Qed.
Lemma trailing_slash dir far : dir <> [] -> last dir 0%N <> 47%N -> far_file_path (dir ++ [47%N]) far = far_file_path dir far.
Proof.
  intros NE L. unfold far_file_path, join_path. set (b := to_lower far ++ far_extension). assert (B : (match b with 47%N :: _ => true | _ => false end) = (match b with 47%N :: _ => true | _ => false end)) by reflexivity.
  destruct dir as [|c d _] using rev_ind; [congruence|]. rewrite last_last in L. rewrite !rev_app_distr. cbn [rev app].
  replace (match (d ++ [c]) ++ [47%N] with [] => true | _ :: _ => false end) with false by (destruct d; reflexivity).
  replace (match d ++ [c] with [] => true | _ :: _ => false end) with false by (destruct d; reflexivity).
  destruct (match b with 47%N :: _ => true | _ => false end); [reflexivity|]. cbn [orb].
  assert (Q : (match c with 47%N => true | _ => false end) = false). { destruct (N.eq_dec c 47) as [->|Hc]; [congruence|]. destruct c as [|p]; [reflexivity|]. do 6 (destruct p as [p|p|]; try reflexivity; try congruence). }
  assert (Q' : (match c :: rev d with 47%N :: _ => true | _ => false end) = false) by exact Q. rewrite Q'. rewrite <- !app_assoc. reflexivity.
Qed.
