From Coq Require Import String Ascii List NArith Bool.
From Verif Require Import PhonTables PhonModel PhonSpec PhonProofs PhonTableProofs.
Import ListNotations.
Local Open Scope string_scope.
Local Open Scope list_scope.

Lemma import_lost : exists p q ftrs new r, In new ftrs /\ compose [import_phon p (Some ftrs) None; q] "diphthong" None None = Some r /\ ~ In new (ftr (body r)).
Proof.
  exists (base "a" ["vowel"] [97%N] (Some (Text ["A"])) ""), (base "u" ["vowel"] [117%N] (Some (Text ["U"])) ""), ["stress"], "stress". eexists.
  split; [now left|]. split; [reflexivity|]. cbn. intros [H|[H|[H|[]]]]; discriminate.
Qed.
Lemma suffix_translit : exists p q, devoiced p = Some q /\ translit_of q "devoiced" <> translit_of q "base".
Proof.
  exists (base "b" ["stop"; "voiced"] [98%N] (Some (Text ["B"])) ""). eexists. split; [reflexivity|]. cbn. discriminate.
Qed.
Definition no_devoiced (l : list phon) : bool :=
  forallb (fun p => if existsb (String.eqb "devoiced") (ftr (body p)) then match translit_of p "devoiced" with Some Empty => true | _ => false end else true) l.
Lemma devoiced_empty : exists l, simple_cons = Some l /\ (exists p, In p l /\ In "devoiced" (ftr (body p))) /\
  forall p, In p l -> In "devoiced" (ftr (body p)) -> translit_of p "devoiced" = Some Empty.
Proof.
  assert (G : forall o, (match o with Some l => if existsb (fun p => existsb (String.eqb "devoiced") (ftr (body p))) l then no_devoiced l else false | None => false end) = true ->
    exists l, o = Some l /\ (exists p, In p l /\ In "devoiced" (ftr (body p))) /\ forall p, In p l -> In "devoiced" (ftr (body p)) -> translit_of p "devoiced" = Some Empty).
  { intros [l|] H; [|discriminate]. exists l. split; [reflexivity|]. destruct (existsb (fun p => existsb (String.eqb "devoiced") (ftr (body p))) l) eqn:E; [|discriminate]. split.
    - apply existsb_exists in E as [p [P E]]. apply existsb_exists in E as [x [X E]]. apply String.eqb_eq in E. subst x. eauto.
    - unfold no_devoiced in H. rewrite forallb_forall in H. intros p P I. specialize (H p P).
      assert (K : existsb (String.eqb "devoiced") (ftr (body p)) = true). { apply existsb_exists. exists "devoiced". split; [exact I|reflexivity]. }
      rewrite K in H. destruct (translit_of p "devoiced") as [[|]|]; congruence. }
  apply G. vm_cast_no_check (eq_refl true).
Qed.
(** Every phon can be transliterated, and the base transliteration is not empty *)
Lemma all_base : exists l, inventory = Some l /\ forall p, In p l -> exists s r, translit_of p "" = Some (Text (s :: r)).
Proof.
  assert (G : forall o, (match o with Some l => forallb (fun p => match translit_of p "" with Some (Text (_ :: _)) => true | _ => false end) l | None => false end) = true ->
    exists l, o = Some l /\ forall p, In p l -> exists s r, translit_of p "" = Some (Text (s :: r))).
  { intros [l|] H; [|discriminate]. exists l. split; [reflexivity|]. rewrite forallb_forall in H. intros p P. specialize (H p P).
    destruct (translit_of p "") as [[|[|s r]]|]; try discriminate. eauto. }
  apply G. vm_cast_no_check (eq_refl true).
Qed.
(** The composites of the inventory *)
Definition machine_eqb (a b : option machine) : bool :=
  match a, b with Some (Text x), Some (Text y) => seqb x y | Some Empty, Some Empty => true | _, _ => false end.
Lemma machine_eqb_eq a b : machine_eqb a b = true -> a = b.
Proof. destruct a as [[|x]|], b as [[|y]|]; cbn; try discriminate; [reflexivity|]. intro H. apply seqb_eq in H. now subst. Qed.
Definition composite_ok (p : phon) : bool :=
  match cmp p with
  | [_] => true
  | [a; b] =>
      match get "base" (tr_dict a), get "base" (tr_dict b) with
      | Some (Text x), Some (Text y) =>
          if machine_eqb (translit_of p "") (Some (Text (x ++ y))) then
          match ftr (body p) with
          | k :: _ =>
              if String.eqb k "coarticulated" then machine_eqb (translit_of p k) (Some (Text (x ++ y))) else
              if String.eqb k "affricate" then
                if String.eqb (alias a) "T" then machine_eqb (translit_of p k) (Some (Text ["S_CH"])) else
                if String.eqb (alias a) "D" then machine_eqb (translit_of p k) (Some (Text ["J"])) else false else
              if String.eqb k "diphthong" then
                if String.eqb (alias b) "I" then machine_eqb (translit_of p k) (Some (Text ["S_AI"])) else
                if String.eqb (alias b) "U" then machine_eqb (translit_of p k) (Some (Text ["S_AU"])) else false else false
          | [] => false
          end else false
      | _, _ => false
      end
  | _ => false
  end.
Lemma composites_ok : exists l, phonemes = Some l /\ forall p, In p l -> cmp p = [body p] \/ exists a b x y,
  cmp p = [a; b] /\ get "base" (tr_dict a) = Some (Text x) /\ get "base" (tr_dict b) = Some (Text y) /\ translit_of p "" = Some (Text (x ++ y)) /\
  (hd_error (ftr (body p)) = Some "coarticulated" /\ translit_of p "coarticulated" = Some (Text (x ++ y)) \/
   hd_error (ftr (body p)) = Some "affricate" /\ (alias a = "T" /\ translit_of p "affricate" = Some (Text ["S_CH"]) \/ alias a = "D" /\ translit_of p "affricate" = Some (Text ["J"])) \/
   hd_error (ftr (body p)) = Some "diphthong" /\ (alias b = "I" /\ translit_of p "diphthong" = Some (Text ["S_AI"]) \/ alias b = "U" /\ translit_of p "diphthong" = Some (Text ["S_AU"]))).
Proof.
  assert (G : forall o, (match o with Some l => forallb (fun p => if match given p with None => true | Some _ => false end then true else match cmp p with [_] => false | _ => composite_ok p end) l | None => false end) = true ->
    exists l, o = Some l /\ forall p, In p l -> cmp p = [body p] \/ ((forall a, cmp p <> [a]) /\ composite_ok p = true)).
  { intros [l|] H; [|discriminate]. exists l. split; [reflexivity|]. rewrite forallb_forall in H. intros p P. specialize (H p P). unfold cmp in *.
    destruct (given p) as [c|]; [|now left]. right. destruct c as [|a [|b c]]; [split; [discriminate|exact H]|discriminate|split; [discriminate|exact H]]. }
  destruct (G phonemes) as (l & E & H); [vm_cast_no_check (eq_refl true)|]. clear G. exists l. split; [exact E|]. intros p P. destruct (H p P) as [A|[N C]]; [now left|]. right.
  unfold composite_ok in C. destruct (cmp p) as [|a [|b [|c r]]]; [discriminate|now destruct (N a)| |discriminate].
  destruct (get "base" (tr_dict a)) as [[|x]|] eqn:A; try discriminate. destruct (get "base" (tr_dict b)) as [[|y]|] eqn:B; try discriminate.
  destruct (machine_eqb (translit_of p "") _) eqn:T; [|discriminate]. apply machine_eqb_eq in T. exists a, b, x, y. repeat (split; [now auto|]).
  destruct (ftr (body p)) as [|k ks]; [discriminate|]. cbn [hd_error].
  destruct (String.eqb k "coarticulated") eqn:K1; [apply String.eqb_eq in K1; subst k; apply machine_eqb_eq in C; auto|].
  destruct (String.eqb k "affricate") eqn:K2; [apply String.eqb_eq in K2; subst k; right; left; split; [reflexivity|]|].
  { destruct (String.eqb (alias a) "T") eqn:Q; [apply String.eqb_eq in Q; apply machine_eqb_eq in C; auto|].
    destruct (String.eqb (alias a) "D") eqn:Q2; [apply String.eqb_eq in Q2; apply machine_eqb_eq in C; auto|discriminate]. }
  destruct (String.eqb k "diphthong") eqn:K3; [apply String.eqb_eq in K3; subst k; right; right; split; [reflexivity|]|discriminate].
  destruct (String.eqb (alias b) "I") eqn:Q; [apply String.eqb_eq in Q; apply machine_eqb_eq in C; auto|].
  destruct (String.eqb (alias b) "U") eqn:Q2; [apply String.eqb_eq in Q2; apply machine_eqb_eq in C; auto|discriminate].
Qed.
