From Coq Require Import String Ascii List NArith Bool Lia.
From Verif Require Import PhonTables PhonModel PhonSpec.
Import ListNotations.
Local Open Scope string_scope.
Local Open Scope list_scope.

(** ** Dictionaries *)
Lemma get_put k v d k' : get k' (put k v d) = if String.eqb k' k then Some v else get k' d.
Proof.
  induction d as [|[x w] d IH]; cbn; [reflexivity|]. destruct (String.eqb k x) eqn:E; cbn.
  - apply String.eqb_eq in E. subst x. destruct (String.eqb k' k); reflexivity.
  - rewrite IH. destruct (String.eqb k' x) eqn:E1, (String.eqb k' k) eqn:E2; try reflexivity.
    apply String.eqb_eq in E1, E2. subst. now rewrite String.eqb_refl in E.
Qed.
Lemma get_none k d : ~ In k (map fst d) -> get k d = None.
Proof.
  induction d as [|[x w] d IH]; cbn; [reflexivity|]. intro H. destruct (String.eqb k x) eqn:E; [apply String.eqb_eq in E; subst; tauto|]. apply IH. tauto.
Qed.
Lemma get_union e : NoDup (map fst e) -> forall d k, get k (union d e) = match get k e with Some m => Some m | None => get k d end.
Proof.
  induction e as [|[x w] e IH]; intros D d k; [reflexivity|]. cbn [map fst] in D. inversion D as [|? ? D1 D2]; subst. cbn [union get]. rewrite IH by exact D2.
  rewrite get_put. destruct (String.eqb k x) eqn:E; [|reflexivity]. apply String.eqb_eq in E. subst. now rewrite (get_none x e D1).
Qed.
Lemma get_in k m d : get k d = Some m -> In (k, m) d.
Proof.
  induction d as [|[x w] d IH]; cbn; [discriminate|]. destruct (String.eqb k x) eqn:E; [|auto]. apply String.eqb_eq in E. subst. intros [= ->]. now left.
Qed.
Lemma get_key k d : (exists m, In (k, m) d) -> exists m, get k d = Some m.
Proof.
  intros [m I]. induction d as [|[x w] d IH]; [destruct I|]. cbn. destruct (String.eqb k x) eqn:E; [eauto|]. destruct I as [[= -> ->]|I]; [|auto].
  now rewrite String.eqb_refl in E.
Qed.

(** ** Strings *)
Lemma sapp_assoc a b c : ((a ++ b) ++ c)%string = (a ++ (b ++ c))%string.
Proof. induction a; cbn; [reflexivity|now rewrite IHa]. Qed.
Lemma sapp_nil a : (a ++ "")%string = a.
Proof. induction a; cbn; [reflexivity|now rewrite IHa]. Qed.
Lemma concat_fold sep (g : part -> string) cs : forall a, fold_left (fun x c => (x ++ sep ++ g c)%string) cs a = String.concat sep (a :: map g cs).
Proof.
  assert (H : forall cs a b, fold_left (fun x c => (x ++ sep ++ g c)%string) cs (a ++ b)%string = (a ++ fold_left (fun x c => (x ++ sep ++ g c)%string) cs b)%string).
  { clear cs. induction cs as [|c cs IH]; intros a b; [reflexivity|]. cbn [fold_left]. rewrite sapp_assoc. apply IH. }
  induction cs as [|c cs IH]; intro a; [reflexivity|]. cbn [fold_left map]. rewrite H, H. rewrite IH. cbn [map String.concat]. reflexivity.
Qed.
Lemma between_fold {A} (sep : list A) (g : part -> list A) cs : forall a, fold_left (fun x c => x ++ sep ++ g c) cs a = between sep (a :: map g cs).
Proof.
  assert (H : forall cs a b, fold_left (fun x c => x ++ sep ++ g c) cs (a ++ b) = a ++ fold_left (fun x c => x ++ sep ++ g c) cs b).
  { clear cs. induction cs as [|c cs IH]; intros a b; [reflexivity|]. cbn [fold_left]. rewrite <- app_assoc. apply IH. }
  induction cs as [|c cs IH]; intro a; [reflexivity|]. cbn [fold_left map]. rewrite H, H, IH. reflexivity.
Qed.

(** ** Composition *)
Lemma has_base_get c : has_base c <-> exists m, get "base" (tr_dict c) = Some m.
Proof. split; [apply get_key|]. intros [m M]. exists m. now apply get_in. Qed.
Lemma parts_none cs : fold_left add_part cs None = None.
Proof. induction cs; [reflexivity|exact IHcs]. Qed.
Lemma parts_spec cs : forall a b r, fold_left add_part cs (Some (a, b)) = Some r ->
  exists q m ms, r = (q, m) /\ Forall2 (fun c x => get "base" (tr_dict c) = Some x) cs ms /\ m = fold_left cat ms b /\
    alias q = fold_left (fun x c => (x ++ "_" ++ alias c)%string) cs (alias a) /\ txn q = fold_left (fun x c => (x ++ "+" ++ txn c)%string) cs (txn a) /\
    ftr q = ftr a ++ flat_map ftr cs /\ ph q = fold_left (fun x c => x ++ ["+"] ++ ph c) cs (ph a) /\
    ipa q = fold_left (fun x c => x ++ [865%N] ++ ipa c) cs (ipa a).
Proof.
  induction cs as [|c cs IH]; intros a b r H.
  - cbn in H. injection H as <-. exists a, b, []. cbn. rewrite app_nil_r. repeat split; constructor.
  - cbn [fold_left] in H. unfold add_part at 2 in H. destruct (get "base" (tr_dict c)) as [bt|] eqn:E; [|rewrite parts_none in H; discriminate].
    destruct (IH _ _ _ H) as (q & m & ms & -> & F & M & A1 & A2 & A3 & A4 & A5). exists q, m, (bt :: ms). split; [reflexivity|]. split; [now constructor|].
    split; [exact M|]. split; [exact A1|]. split; [exact A2|]. split; [|split; [exact A4|exact A5]].
    rewrite A3. cbn [ftr flat_map]. now rewrite app_assoc.
Qed.
Lemma parts_some cs : forall a b, (forall c, In c cs -> has_base c) -> exists r, fold_left add_part cs (Some (a, b)) = Some r.
Proof.
  induction cs as [|c cs IH]; intros a b H; [now exists (a, b)|]. cbn [fold_left]. unfold add_part at 2.
  destruct (proj1 (has_base_get c) (H c (or_introl eq_refl))) as [m ->]. apply IH. intros; apply H; now right.
Qed.
Lemma cat_texts ms : forall l, fold_left cat ms (Text l) = Empty /\ (~ exists r, texts ms r) \/ exists r, texts ms r /\ fold_left cat ms (Text l) = Text (l ++ r).
Proof.
  assert (E : forall ms, fold_left cat ms Empty = Empty) by (induction ms0; cbn; auto).
  induction ms as [|[|x] ms IH]; intro l; cbn [fold_left cat].
  - right. exists []. rewrite app_nil_r. split; [constructor|reflexivity].
  - left. rewrite E. split; [reflexivity|]. intros [r R]. inversion R.
  - destruct (IH (l ++ x)) as [[A B]|[r [A B]]].
    + left. split; [exact A|]. intros [r R]. inversion R; subst. apply B. eauto.
    + right. exists (x ++ r). split; [now constructor|]. now rewrite B, app_assoc.
Qed.
Lemma compose_spec ps f new alt q : compose ps f new alt = Some q ->
  cmp q = flat_map cmp ps /\ alias (body q) = String.concat "_" (map alias (cmp q)) /\ txn (body q) = String.concat "+" (map txn (cmp q)) /\
  ftr (body q) = f :: flat_map ftr (cmp q) /\ ph (body q) = between ["+"] (map ph (cmp q)) /\ ipa (body q) = between [865%N] (map ipa (cmp q)) /\
  exists ms b, Forall2 (fun c m => get "base" (tr_dict c) = Some m) (cmp q) ms /\
    (forall r, texts ms r -> b = Text r) /\ ((~ exists r, texts ms r) -> b = Empty) /\
    forall e, alt = Some e \/ alt = None /\ e = [] -> NoDup (map fst e) -> forall k,
      get k (tr_dict (body q)) = match get k e with Some m => Some m | None =>
        if String.eqb k f then Some (match new with Some m => m | None => b end) else if String.eqb k "base" then Some b else None end.
Proof.
  unfold compose. destruct (flat_map cmp ps) as [|c cs]; [discriminate|]. destruct (get "base" (tr_dict c)) as [bt|] eqn:E; [|discriminate].
  destruct (fold_left add_part cs _) as [[a b]|] eqn:F; [|discriminate]. intros [= <-].
  destruct (parts_spec _ _ _ _ F) as (q & m & ms & R & FM & M & A1 & A2 & A3 & A4 & A5). injection R as <- <-. unfold cmp. cbn [given body alias txn ftr ph ipa] in *.
  split; [reflexivity|]. split; [rewrite A1; apply concat_fold|]. split; [rewrite A2; apply concat_fold|]. split; [exact A3|].
  split; [rewrite A4; apply between_fold|]. split; [rewrite A5; apply between_fold|].
  exists (bt :: ms), b. split; [now constructor|].
  assert (TX : forall r, texts (bt :: ms) r -> b = Text r).
  { intros r R. inversion R as [|l ms' r' R' E1]; subst. destruct (cat_texts ms l) as [[A B]|[r [A B]]]; [exfalso; eauto|]. rewrite B. f_equal. f_equal.
    clear -A R'. revert r' R'. induction A; intros r' R'; inversion R'; subst; [reflexivity|]. f_equal. now apply IHA. }
  split; [exact TX|]. split.
  { intro N. rewrite M. assert (Z : forall ms, fold_left cat ms Empty = Empty) by (induction ms0; cbn; auto). destruct bt as [|l]; [apply Z|].
    destruct (cat_texts ms l) as [[A _]|[r [A _]]]; [exact A|]. exfalso. apply N. exists (l ++ r). now constructor. }
  intros e He D k. cbn [tr_dict].
  assert (G : get k (union [("base", b)] (new_tr f new (Some b))) = if String.eqb k f then Some (match new with Some m0 => m0 | None => b end) else if String.eqb k "base" then Some b else None).
  { unfold new_tr. destruct new; cbn [union]; rewrite get_put; destruct (String.eqb k f); try reflexivity; cbn; destruct (String.eqb k "base"); reflexivity. }
  destruct He as [->|[-> ->]].
  - rewrite get_union by exact D. rewrite G. reflexivity.
  - exact G.
Qed.
Lemma compose_fails ps f new alt : compose ps f new alt = None <-> flat_map cmp ps = [] \/ exists c, In c (flat_map cmp ps) /\ ~ has_base c.
Proof.
  unfold compose. destruct (flat_map cmp ps) as [|c cs]; [split; auto|]. split.
  - intro H. right. destruct (get "base" (tr_dict c)) as [bt|] eqn:E.
    + destruct (fold_left add_part cs _) as [[a b]|] eqn:F; [discriminate|].
      assert (X : forall l, (forall d, In d l -> has_base d) \/ exists d, In d l /\ ~ has_base d).
      { induction l as [|d l [IH|[d' [I N]]]]; [left; intros ? []| |right; exists d'; split; [now right|exact N]].
        destruct (get "base" (tr_dict d)) as [m|] eqn:G.
        - left. intros d' [<-|I]; [apply has_base_get; eauto|auto].
        - right. exists d. split; [now left|]. rewrite has_base_get. intros [m M]. congruence. }
      destruct (X cs) as [Y|[d [I N]]]; [|exists d; split; [now right|exact N]].
      destruct (parts_some cs (Part (alias c) (txn c) (f :: ftr c) (ph c) (ipa c) []) bt Y) as [r R]. congruence.
    + exists c. split; [now left|]. rewrite has_base_get. intros [m M]. congruence.
  - intros [H|[d [[->|I] N]]]; [discriminate| |].
    + destruct (get "base" (tr_dict d)) as [bt|] eqn:E; [|reflexivity]. exfalso. apply N. apply has_base_get. eauto.
    + destruct (get "base" (tr_dict c)) as [bt|]; [|reflexivity]. destruct (fold_left add_part cs _) as [r|] eqn:F; [|reflexivity]. exfalso. apply N.
      destruct (parts_spec _ _ _ _ F) as (q & m & ms & _ & FM & _). clear F. induction FM as [|x y l l' Q FM IH]; [destruct I|].
      destruct I as [->|I]; [apply has_base_get; eauto|auto].
Qed.
Lemma compose_nested pss qs f new alt : Forall2 (fun ps q => exists f' new' alt', compose ps f' new' alt' = Some q) pss qs ->
  compose qs f new alt = compose (concat pss) f new alt.
Proof.
  intro F. assert (E : flat_map cmp qs = flat_map cmp (concat pss)).
  { induction F as [|ps q pss qs (f' & n' & a' & H) F IH]; [reflexivity|]. cbn [flat_map concat]. rewrite flat_map_app, IH. f_equal. now apply compose_spec in H. }
  unfold compose. now rewrite E.
Qed.
Lemma import_compose p a d ps f new alt : compose (import_phon p a d :: ps) f new alt = compose (p :: ps) f new alt.
Proof. reflexivity. Qed.
Lemma import_fields p a d : cmp (import_phon p (Some a) (Some d)) = cmp p /\ alias (body (import_phon p (Some a) (Some d))) = alias (body p) /\
  ph (body (import_phon p (Some a) (Some d))) = ph (body p) /\ ftr (body (import_phon p (Some a) (Some d))) = ftr (body p) ++ a /\
  (NoDup (map fst d) -> forall k, get k (tr_dict (body (import_phon p (Some a) (Some d)))) = match get k d with Some m => Some m | None => get k (tr_dict (body p)) end).
Proof. repeat split. intros D k. cbn. now apply get_union. Qed.

(** ** Derivation *)
Lemma derive_spec p m new : derive_with_suffix p m new = None <-> ~ has_base (body p) \/ ftr (body m) = [].
Proof.
  unfold derive_with_suffix. rewrite has_base_get. destruct (get "base" (tr_dict (body p))) as [b|].
  - destruct (ftr (body m)); split; auto; try discriminate. intros [H|H]; [|discriminate]. exfalso. apply H. eauto.
  - split; auto. intros _. left. intros [x X]. discriminate.
Qed.
Lemma derive_fields p m new q : derive_with_suffix p m new = Some q -> exists f fs, ftr (body m) = f :: fs /\
  txn (body q) = (txn (body p) ++ txn (body m))%string /\ ftr (body q) = ftr (body p) ++ ftr (body m) /\ ph (body q) = [txn (body q)] /\
  ipa (body q) = ipa (body p) ++ ipa (body m) /\ cmp q = [body q] /\
  forall k, get k (tr_dict (body q)) = if String.eqb k f then Some new else get k (tr_dict (body p)).
Proof.
  unfold derive_with_suffix. destruct (get "base" (tr_dict (body p))) as [b|]; [|discriminate]. destruct (ftr (body m)) as [|f fs]; [discriminate|].
  intros [= <-]. exists f, fs. cbn. repeat split. intro k. apply get_put.
Qed.
Lemma remove_spec x l r : remove_first x l = Some r <-> exists a b, l = a ++ x :: b /\ ~ In x a /\ r = a ++ b.
Proof.
  revert r. induction l as [|y l IH]; intro r; cbn.
  - split; [discriminate|]. intros ([|] & b & E & _); discriminate.
  - destruct (String.eqb x y) eqn:E.
    + apply String.eqb_eq in E. subst y. split.
      * intros [= <-]. exists [], l. cbn. tauto.
      * intros ([|z a] & b & E & N & ->); cbn in E; [injection E as ->; reflexivity|]. injection E as <- _. exfalso. apply N. now left.
    + apply String.eqb_neq in E. split.
      * destruct (remove_first x l) as [r'|]; [|discriminate]. intros [= <-]. destruct (proj1 (IH r') eq_refl) as (a & b & -> & N & ->).
        exists (y :: a), b. cbn. repeat split. intros [->|I]; [congruence|contradiction].
      * intros ([|z a] & b & Q & N & ->); cbn in Q; injection Q as Q1 Q2; [congruence|]. subst z.
        rewrite (proj2 (IH (a ++ b))); [reflexivity|]. exists a, b. cbn in N. tauto.
Qed.
Lemma remove_none x l : remove_first x l = None <-> ~ In x l.
Proof.
  induction l as [|y l IH]; cbn; [tauto|]. destruct (String.eqb x y) eqn:E.
  - apply String.eqb_eq in E. subst. split; [discriminate|tauto].
  - apply String.eqb_neq in E. destruct (remove_first x l); split; try discriminate; intuition congruence.
Qed.
Lemma devoiced_spec p : (devoiced p = None <-> ~ In "voiced" (ftr (body p)) \/ ~ has_base (body p)) /\
  forall q, devoiced p = Some q -> exists a b, ftr (body p) = a ++ "voiced" :: b /\ ~ In "voiced" a /\ ftr (body q) = a ++ b ++ ["devoiced"] /\
    txn (body q) = (txn (body p) ++ "o")%string /\ ipa (body q) = ipa (body p) ++ [805%N] /\ cmp q = [body q] /\
    translit_of q "devoiced" = Some Empty /\ translit_of q "" = translit_of p "".
Proof.
  unfold devoiced. split.
  - destruct (remove_first "voiced" (ftr (body p))) as [r|] eqn:R.
    + rewrite derive_spec. cbn [body]. apply remove_spec in R as (a & b & E & _). unfold has_base. cbn [tr_dict]. split.
      * intros [H|H]; [now right|discriminate].
      * intros [H|H]; [|now left]. exfalso. apply H. rewrite E. apply in_or_app. right. now left.
    + apply remove_none in R. tauto.
  - intros q. destruct (remove_first "voiced" (ftr (body p))) as [r|] eqn:R; [|discriminate]. intro D. apply derive_fields in D as (f & fs & F & A1 & A2 & A3 & A4 & A5 & A6).
    cbn in F. injection F as <- <-. apply remove_spec in R as (a & b & E & N & ->). exists a, b. cbn [body txn ftr ipa] in *. repeat split; auto.
    + rewrite A2. cbn. now rewrite <- app_assoc.
    + unfold translit_of. cbn. rewrite A6. reflexivity.
    + unfold translit_of. cbn. rewrite A6. reflexivity.
Qed.

(** ** Decoding *)
Definition shape (l : list string) : bool :=
  match l with
  | [t] => negb (String.eqb t "+")
  | [a; c; b] => if String.eqb c "+" then negb (String.eqb a "+") else false
  | _ => false
  end.
Lemma shape_head l : shape l = true -> exists t r, l = t :: r /\ t <> "+".
Proof.
  destruct l as [|a [|c [|b [|]]]]; cbn; try discriminate.
  - intro H. exists a, []. split; [reflexivity|]. apply negb_true_iff, String.eqb_neq in H. exact H.
  - destruct (String.eqb c "+"); [|discriminate]. intro H. exists a, [c; b]. split; [reflexivity|]. apply negb_true_iff, String.eqb_neq in H. exact H.
Qed.
Lemma decode_tokens (l : list (list string)) : forallb shape l = true -> forall xs ys, (forall x, In x xs -> In x l) -> (forall y, In y ys -> In y l) ->
  concat xs = concat ys -> xs = ys.
Proof.
  intros S. rewrite forallb_forall in S.
  assert (H : forall zs x r, (forall z, In z zs -> In z l) -> concat zs = x :: r -> x <> "+").
  { intros [|z zs] x r I E; [discriminate|]. destruct (shape_head z (S z (I z (or_introl eq_refl)))) as (t & r' & -> & N). cbn in E. injection E as <- _. exact N. }
  induction xs as [|x xs IH]; intros ys X Y E.
  - destruct ys as [|y ys]; [reflexivity|]. destruct (shape_head y (S y (Y y (or_introl eq_refl)))) as (t & r & -> & _). discriminate.
  - pose proof (S x (X x (or_introl eq_refl))) as Sx. destruct ys as [|y ys].
    { destruct (shape_head x Sx) as (t & r & -> & _). discriminate. }
    pose proof (S y (Y y (or_introl eq_refl))) as Sy. cbn [concat] in E.
    assert (X' : forall z, In z xs -> In z l) by (intros; apply X; now right). assert (Y' : forall z, In z ys -> In z l) by (intros; apply Y; now right).
    destruct x as [|a [|c [|b [|]]]], y as [|a' [|c' [|b' [|]]]]; cbn in Sx, Sy; try discriminate; cbn [app] in E.
    + injection E as -> E. f_equal. now apply IH.
    + destruct (String.eqb c' "+") eqn:P; [|discriminate]. apply String.eqb_eq in P. subst c'. injection E as -> E. exfalso. apply (H xs "+" _ X' E). reflexivity.
    + destruct (String.eqb c "+") eqn:P; [|discriminate]. apply String.eqb_eq in P. subst c. injection E as -> E. exfalso. apply (H ys "+" _ Y' (eq_sym E)). reflexivity.
    + injection E as -> -> -> E. f_equal. now apply IH.
Qed.
Definition clean (s : string) : Prop := ~ In "}"%char (list_ascii_of_string s).
Lemma close_split a b x y : clean a -> clean b -> (a ++ String "}" x)%string = (b ++ String "}" y)%string -> a = b /\ x = y.
Proof.
  revert b. unfold clean. induction a as [|c a IH]; intros [|d b] A B E; cbn in *.
  - injection E as ->. auto.
  - injection E as <- _. exfalso. apply B. now left.
  - injection E as -> _. exfalso. apply A. now left.
  - injection E as -> E. destruct (IH b) as [-> ->]; [intro Q; apply A; now right|intro Q; apply B; now right|exact E|auto].
Qed.
Lemma written_cons t ts : written (t :: ts) = (String "{" (t ++ String "}" (written ts)))%string.
Proof.
  unfold written. cbn [map]. destruct ts as [|u ts]; cbn [map String.concat append].
  - reflexivity.
  - f_equal. rewrite sapp_assoc. reflexivity.
Qed.
Lemma written_inj ts : forall us, (forall t, In t ts -> clean t) -> (forall t, In t us -> clean t) -> written ts = written us -> ts = us.
Proof.
  induction ts as [|t ts IH]; intros [|u us] A B E; [reflexivity| | |].
  - rewrite written_cons in E. discriminate.
  - rewrite written_cons in E. discriminate.
  - rewrite !written_cons in E. injection E as E. apply close_split in E as [-> E]; [|apply A; now left|apply B; now left]. f_equal.
    apply IH; auto; intros; [apply A|apply B]; now right.
Qed.
