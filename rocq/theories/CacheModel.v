(** Model of nisaba/translit/fst/pairlm_decoder.cc, part 3: configuration, external
    transliterations and the caches of TransliterateWord.  One thread; costs
    (doubles) are integers.  A two-state lattice is the list of its candidates
    with costs. *)
From Verif Require Import Base Utf8Model DelimModel KbestModel.

Notation cands := (list (str * Z)).
(** absl::flat_hash_map; new keys go to the end (its order is not specified). *)
Fixpoint lookup {A} (k : str) (m : list (str * A)) : option A :=
  match m with [] => None | (k', a) :: m' => if str_eqb k k' then Some a else lookup k m' end.
Fixpoint assign {A} (k : str) (a : A) (m : list (str * A)) : list (str * A) :=
  match m with
  | [] => [(k, a)]
  | (k', b) :: m' => if str_eqb k k' then (k, a) :: m' else (k', b) :: assign k a m'
  end.
Definition member (k : str) (l : list str) : bool := existsb (str_eqb k) l.

(** ** Configuration, lines 400-433 *)
Definition default_to {A} (o : option A) (d : A) : A := match o with Some a => a | None => d end.
(** Optional fields of PairLMDecoderOptions; the lines of translit_cands_file, if
    there is one. *)
Record config := Config {
  cfg_pairlm : bool; cfg_add_to_cache : option bool; cfg_max_parallel_tokens : option nat; cfg_oov_cost : option Z;
  cfg_cands : option (list str); cfg_cands_override : bool; cfg_translit_weight : option Z;
  cfg_max_word_cands : option nat; cfg_word_cand_thresh : option Z; cfg_min_cand_posterior : option Z }.
Record settings := Settings {
  add_to_cache_ : bool; max_parallel_tokens_ : nat; oov_cost_ : Z; max_word_cands_ : nat;
  word_cand_thresh_ : Z; min_cand_posterior_ : Z; pairlm_translit_weight_ : option Z }.
(** global_word_transliteration_cache_ and mix_overrides_ *)
Record caches := Caches { global : list (str * cands); overrides : list str }.

Section Numbers.
  (** absl::SimpleAtod *)
  Variable SimpleAtod : str -> option Z.
  (** -log(lambda / (1 - lambda)) *)
  Variable mix_cost : Z -> Z.

  (** impl::Utf8Check, lines 140-148 *)
  Definition Utf8Check (word_str : str) : run bool :=
    match str_split_by_char word_str with
    | None => Exn
    | Some ls => Fine (forallb (fun l => fst (decode_single_unicode_char l)) ls)
    end.
  (** InitializeExternalTransliterations, lines 546-588 *)
  Definition external_line (override : bool) (c : caches) (line : str) : run caches :=
    match fields line with
    | [f0; f1; f2] =>
      match SimpleAtod f2 with
      | None => Check
      | Some cost =>
        bind (Utf8Check f0) (fun ok0 => bind (Utf8Check f1) (fun ok1 =>
        if ok0 && ok1
        then Fine (Caches (assign f0 (assign f1 cost (default_to (lookup f0 (global c)) [])) (global c))
                          (if override then f0 :: overrides c else overrides c))
        else Fine c))
      end
    | _ => Check
    end.
  Definition kDefaultMixWeight : Z := 0%Z.
  (** [None]: the weight is not set here. *)
  Definition InitializeExternalTransliterations (cfg : config) : run (caches * option Z) :=
    match cfg_cands cfg with
    | None => Fine (Caches [] [], None)
    | Some lines =>
      bind (fold_left (fun acc line => bind acc (fun c => external_line (cfg_cands_override cfg) c line)) lines
              (Fine (Caches [] []))) (fun c =>
      Fine (c, if cfg_pairlm cfg
               then Some (default_to (option_map mix_cost (cfg_translit_weight cfg)) kDefaultMixWeight)
               else None))
    end.
  (** The assignments in the order of lines 404-424; an integer stands for each
      default. *)
  Definition InitializePairLMDecoder (cfg : config) : run (settings * caches) :=
    let add_to_cache := default_to (cfg_add_to_cache cfg) true in
    let max_parallel_tokens := default_to (cfg_max_parallel_tokens cfg) 4 in
    let oov_cost := default_to (cfg_oov_cost cfg) 10%Z in
    bind (InitializeExternalTransliterations cfg) (fun r =>
    let pairlm_translit_weight := snd r in
    let max_word_cands := default_to (cfg_max_word_cands cfg) 100 in
    let word_cand_thresh := default_to (cfg_word_cand_thresh cfg) 12%Z in
    let min_cand_posterior := default_to (cfg_min_cand_posterior cfg) 0%Z in
    let pairlm_translit_weight := Some kDefaultMixWeight in
    Fine (Settings add_to_cache max_parallel_tokens oov_cost max_word_cands word_cand_thresh min_cand_posterior
            pairlm_translit_weight, fst r)).
End Numbers.

(** ** TransliterateWord *)
(** TranslitContext without cand_syms and cands_to_lm_fst; the symbol at position n
    has key n. *)
Record context := Context { input_syms : list str; word_cache : list (str * cands); mixed : list (str * bool) }.

Section Words.
  (** GetWordTransliterations, ShortestPath and GetTextString; [] for an FST without
      paths. *)
  Variable pair_lm : str -> nat -> cands.
  (** PushInLogSemiring with determinization *)
  Variable push : cands -> cands.
  (** SetFinal, Union, RmEpsilon and PushInLogSemiring of lines 969-980 *)
  Variable mix : cands -> cands -> cands.
  (** Concat and ShortestPath of lines 783-828; [] for an FST without paths *)
  Variable join : nat -> list cands -> cands.
  (** SegmentCoveredChars *)
  Variable segment : str -> list str.
  Variable add_to_cache : bool.

  (** lines 395-398 *)
  Definition CheckCache (d : caches) (w : str) : bool := match lookup w (global d) with Some _ => true | None => false end.
  (** lines 833-845; flat_hash_map::at *)
  Definition extract_cached (d : caches) (w : str) : run cands :=
    match lookup w (global d) with Some cs => Fine (push cs) | None => Exn end.

  (** TransliterateUnsegmentedWord, lines 847-903 *)
  Definition TransliterateUnsegmentedWord (w : str) (k : nat) (d : caches) (c : context) : run (cands * context) :=
    match pair_lm w k with
    | [] =>
      if CheckCache d w
      then bind (extract_cached d w) (fun cached =>
           Fine (cached, Context (input_syms c) (assign w cached (word_cache c)) (assign w true (mixed c))))
      else Fine ([(w, 0%Z)], c)
    | best => Fine (best, c)
    end.
  (** TransliterateSegmentedWord, lines 777-831 *)
  Fixpoint transliterate_segments (ws : list str) (k : nat) (d : caches) (c : context) : run (list cands * context) :=
    match ws with
    | [] => Fine ([], c)
    | w :: ws' =>
      bind (TransliterateUnsegmentedWord w k d c) (fun r =>
      bind (transliterate_segments ws' k d (snd r)) (fun rs => Fine (fst r :: fst rs, snd rs)))
    end.
  Definition TransliterateSegmentedWord (ws : list str) (k : nat) (d : caches) (c : context) : run (cands * context) :=
    bind (transliterate_segments ws k d c) (fun r =>
    match join k (fst r) with
    | [] => Check
    | cs => Fine (cs, snd r)
    end).

  (** lines 907-930 *)
  Definition initialise_word (w : str) (d : caches) (c : context) : run context :=
    match lookup w (word_cache c) with
    | Some _ => Fine c
    | None =>
      bind (if CheckCache d w then extract_cached d w else Fine []) (fun cached =>
      Fine (Context (if member w (input_syms c) then input_syms c else input_syms c ++ [w])
                    (assign w cached (word_cache c)) (assign w (member w (overrides d)) (mixed c))))
    end.
  Definition at_key {A} (k : str) (m : list (str * A)) : run A :=
    match lookup k m with Some a => Fine a | None => Exn end.
  (** lines 990-999 *)
  Definition add_all (cs : cands) (m : cands) : cands := fold_left (fun m p => assign (fst p) (snd p) m) cs m.

  (** TransliterateWord, lines 905-1005 *)
  Definition TransliterateWord (w : str) (k : nat) (d : caches) (c : context) : run (cands * caches * context) :=
    bind (initialise_word w d c) (fun c1 =>
    bind (at_key w (mixed c1)) (fun m1 =>
    if CheckCache d w && m1
    then bind (at_key w (word_cache c1)) (fun r => Fine (r, d, c1))
    else
      bind (match segment w with
            | _ :: _ :: _ => TransliterateSegmentedWord (segment w) k d c1
            | _ => TransliterateUnsegmentedWord w k d c1
            end) (fun p =>
      let '(word_transliterations, c2) := p in
      bind (at_key w (mixed c2)) (fun m2 =>
      bind (at_key w (word_cache c2)) (fun cached =>
      if m2 then Fine (cached, d, c2)
      else
        let r := mix word_transliterations cached in
        let c3 := Context (input_syms c2) (assign w r (word_cache c2)) (assign w true (mixed c2)) in
        let d' := if add_to_cache
                  then Caches (match r with
                               | [] => global d
                               | _ => assign w (add_all r (default_to (lookup w (global d)) [])) (global d)
                               end)
                              (if member w (overrides d) then overrides d else w :: overrides d)
                  else d in
        Fine (r, d', c3)))))).

  (** The words of a line, one after the other. *)
  Fixpoint TransliterateWords (ws : list str) (k : nat) (d : caches) (c : context) : run (list cands * caches * context) :=
    match ws with
    | [] => Fine ([], d, c)
    | w :: ws' =>
      bind (TransliterateWord w k d c) (fun r =>
      bind (TransliterateWords ws' k (snd (fst r)) (snd r)) (fun rs =>
      Fine (fst (fst r) :: fst (fst rs), snd (fst rs), snd rs)))
    end.
  Definition kEpsilonSymbol : str := map N.of_nat [60; 101; 112; 115; 105; 108; 111; 110; 62].
  Definition fresh_context : context := Context [kEpsilonSymbol] [] [].
End Words.
