(** The candidates of a word that is seen for the first time. *)
From Verif Require Import Base KbestModel KbestSpec CacheModel DecoderSpec CacheSpec CacheProofs.

Section Words.
  Variable pair_lm : str -> nat -> cands.
  Variable push : cands -> cands.
  Variable mix : cands -> cands -> cands.
  Variable join : nat -> list cands -> cands.
  Variable segment : str -> list str.

  Lemma unsegmented_plain w k d c : pair_lm w k <> [] \/ lookup w (global d) = None ->
    TransliterateUnsegmentedWord pair_lm push w k d c = Fine (plain_cands pair_lm k w, c).
  Proof.
    intros H. unfold TransliterateUnsegmentedWord, plain_cands, CheckCache. destruct (pair_lm w k) as [|x xs]; [|reflexivity].
    destruct H as [H|H]; [congruence|]. rewrite H. reflexivity.
  Qed.
  Lemma segments_plain k d ws : (forall v, In v ws -> pair_lm v k <> [] \/ lookup v (global d) = None) -> forall c,
    transliterate_segments pair_lm push ws k d c = Fine (map (plain_cands pair_lm k) ws, c).
  Proof.
    induction ws as [|w ws IH]; intros H c; cbn [transliterate_segments map]; [reflexivity|].
    rewrite unsegmented_plain by (apply H; left; reflexivity). cbn [bind fst snd]. rewrite IH by (intros v I; apply H; right; exact I). reflexivity.
  Qed.
  Lemma first_time b w k d c : lookup w (word_cache c) = None -> ~ In w (overrides d) ->
    (forall v, In v (parts segment w) -> pair_lm v k <> [] \/ lookup v (global d) = None) -> decoded pair_lm join segment w k <> [] ->
    exists d' c', TransliterateWord pair_lm push mix join segment b w k d c =
      Fine (mix (decoded pair_lm join segment w k) (match lookup w (global d) with Some cs => push cs | None => [] end), d', c').
  Proof.
    intros N O P D. assert (M : member w (overrides d) = false) by (destruct (member w (overrides d)) eqn:E; [apply member_spec in E; contradiction|reflexivity]).
    unfold TransliterateWord, initialise_word. rewrite N.
    assert (E : (if CheckCache d w then extract_cached push d w else Fine []) = Fine (match lookup w (global d) with Some cs => push cs | None => [] end)) by (unfold CheckCache, extract_cached; destruct (lookup w (global d)); reflexivity).
    rewrite E, M. cbn [bind]. unfold at_key. cbn [mixed word_cache]. rewrite lookup_same. cbn [bind]. rewrite andb_false_r.
    assert (I : forall c1, match segment w with _ :: _ :: _ => TransliterateSegmentedWord pair_lm push join (segment w) k d c1 | _ => TransliterateUnsegmentedWord pair_lm push w k d c1 end = Fine (decoded pair_lm join segment w k, c1)).
    { intros c1. unfold decoded, parts in *. destruct (segment w) as [|s1 [|s2 ss]]; [apply unsegmented_plain, P; left; reflexivity|apply unsegmented_plain, P; left; reflexivity|].
      unfold TransliterateSegmentedWord. rewrite segments_plain by exact P. cbn [bind fst snd]. destruct (join k _); [congruence|reflexivity]. }
    rewrite I. cbn [bind mixed word_cache]. rewrite !lookup_same. cbn [bind]. eexists. eexists. reflexivity.
  Qed.
End Words.
