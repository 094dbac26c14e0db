(** Length and independence of vowels. *)
From Verif Require Import Base NatModel DeromModel.
From Coq Require Import String.
Local Open Scope list_scope.
Definition bind_key (f g : list string -> option (list string)) (v : list string) : option (list string) := match f v with Some w => g w | None => None end.
Lemma find_none (d : list (string * string)) k : ~ In k (map fst d) -> find (fun p : string * string => String.eqb (fst p) k) d = None.
Proof.
  induction d as [|[x y] d IH]; cbn; auto. intros H. destruct (String.eqb_spec x k) as [->|]; [tauto|auto].
Qed.
Lemma long_independent v : bind_key long_vowel independent_vowel v = bind_key independent_vowel long_vowel v.
Proof.
  destruct v as [|k [|]]; try reflexivity. destruct (in_dec string_dec k (map fst (SHORT_LONG ++ SIGN_INDEPENDENT))) as [I'|N].
  - cbn in I'. repeat (destruct I' as [<-|I']; [reflexivity|]). destruct I'.
  - rewrite map_app in N. unfold bind_key, long_vowel, independent_vowel, get_from_dict.
    rewrite (find_none SHORT_LONG k), (find_none SIGN_INDEPENDENT k); [reflexivity| |]; intros X; apply N; apply in_or_app; auto.
Qed.
Lemma long_independent_all v w : In v ["a"; "e"; "i"; "o"; "u"]%string -> independent_vowel [v] = Some w -> long_vowel w <> None.
Proof. cbn. intros H E. repeat (destruct H as [<-|H]; [cbn in E; injection E as <-; discriminate|]). destruct H. Qed.
