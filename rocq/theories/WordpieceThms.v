(** C30: wordpiece segmentation. *)
From Verif Require Import Base Utf8Model Utf8Spec DelimModel DelimSpec WordpieceModel WordpieceSpec
  WordpieceProofs TransducerSpec TransducerProofs.

(** The candidates of every sequence of characters are merged greedily to the
    end: no error, no access out of range, and termination. *)
Theorem C30_greedy_merging : forall vocab chars, Forall (fun c => c <> []) chars ->
  exists s, merges vocab (singles chars) s /\ final vocab s /\
    GetWordpieceTokenization (char_cands (insert_all [] 0 vocab) chars) = Ok (map text s).
Proof. exact tokenization_ok. Qed.
Print Assumptions C30_greedy_merging.

(** Greedy merging has one result. *)
Theorem C30_greedy_unique : forall vocab s a b,
  merges vocab s a -> final vocab a -> merges vocab s b -> final vocab b -> a = b.
Proof. exact merges_fun. Qed.
Print Assumptions C30_greedy_unique.

(** Merging keeps the characters; the pieces are vocabulary items or single
    characters. *)
Theorem C30_text_kept : forall vocab s t, merges vocab s t -> concat s = concat t.
Proof. exact merges_text. Qed.
Print Assumptions C30_text_kept.

Theorem C30_pieces_known : forall vocab chars s p, merges vocab (singles chars) s -> In p s ->
  In (text p) vocab \/ exists c, p = [c].
Proof.
  exact (fun vocab chars s p H Hp =>
    proj1 (Forall_forall _ _) (merges_pieces vocab _ s H (singles_ok vocab chars)) p Hp).
Qed.
Print Assumptions C30_pieces_known.

(** Whole inputs: every word of the text is prefixed and segmented, in order. *)
Theorem C30_input : forall vocab wip cp cs s,
  encoding cp (prefix (InitWordpieces wip vocab)) -> encoding cs s ->
  exists ws outs, words_of white_space cs ws /\
    Forall2 (fun w out => exists ps seg, Forall2 encodes (cp ++ w) ps /\
               merges vocab (singles ps) seg /\ final vocab seg /\ out = map text seg) ws outs /\
    GetWordpieces (InitWordpieces wip vocab) s = Ok (concat outs).
Proof. exact wordpieces_input. Qed.
Print Assumptions C30_input.

Theorem C30_no_text_lost : forall vocab wip cp cs s ws outs,
  encoding cp (prefix (InitWordpieces wip vocab)) -> encoding cs s -> words_of white_space cs ws ->
  GetWordpieces (InitWordpieces wip vocab) s = Ok outs ->
  encoding (concat (map (app cp) ws)) (concat outs).
Proof. exact wordpieces_text. Qed.
Print Assumptions C30_no_text_lost.

(** The default prefix is U+2581. *)
Theorem C30_default_prefix : forall vocab, encoding [0x2581%N] (prefix (InitWordpieces [] vocab)).
Proof. exact default_prefix. Qed.
Print Assumptions C30_default_prefix.

(** Malformed text raises an exception of the UTF-8 library. *)
Theorem C30_malformed_throws : forall m s, ~ well_formed_utf8 s -> GetWordpieces m s = Exception.
Proof. exact malformed_input. Qed.
Print Assumptions C30_malformed_throws.

(** With a prefix that is not UTF-8 the words are lost without an error. *)
Theorem C30_any_prefix_refuted : exists wip vocab s cs, encoding cs s /\ length cs = 3 /\
  GetWordpieces (InitWordpieces wip vocab) s = Ok [].
Proof. exact bad_prefix. Qed.
Print Assumptions C30_any_prefix_refuted.

(** The transducer maps each sequence of listed words to the labels of their
    pieces, and nothing else. *)
Theorem C30_transducer : forall find_word find_piece unk m ws g,
  GetWordpieceTransducer find_word find_piece unk m ws = Ok g ->
  exists l, map fst l = ws /\
    Forall (fun x => exists ps, GetWordpieces m (find_word (fst x)) = Ok ps /\
              Forall2 (piece_label find_piece unk) ps (snd x)) l /\
    forall ins outs, transduces g ins outs <->
      exists xs, Forall (fun x => In x l) xs /\ ins = drop_epsilon (map fst xs) /\
        outs = drop_epsilon (concat (map snd xs)).
Proof. exact transducer_relation. Qed.
Print Assumptions C30_transducer.

Theorem C30_transducer_total : forall find_word find_piece unk u vocab wip cp ws,
  find_piece unk = Some u -> encoding cp (prefix (InitWordpieces wip vocab)) ->
  Forall (fun w => well_formed_utf8 (find_word w)) ws ->
  exists g, GetWordpieceTransducer find_word find_piece unk (InitWordpieces wip vocab) ws = Ok g.
Proof. exact transducer_total. Qed.
Print Assumptions C30_transducer_total.

(** Prefix "_", vocabulary "_", "bc", "ab", "x": "abc bca" gives _ a bc (the
    better rank first, then nothing to merge with) and _ bc a. *)
Example C30_example :
  GetWordpieces (InitWordpieces [95] [[95]; [98; 99]; [97; 98]; [120]])%N [97; 98; 99; 32; 98; 99; 97]%N =
    Ok [[95]; [97]; [98; 99]; [95]; [98; 99]; [97]]%N /\
  GetWordpieces (InitWordpieces [95] [[95]; [98; 99]; [97; 98]; [97; 98; 99]])%N [97; 98; 99]%N =
    Ok [[95]; [97; 98; 99]]%N /\
  TokenizeInput (InitWordpieces [95] [[95; 97]; [98; 98]])%N [97; 98; 98; 98]%N =
    Ok [95; 97; 32; 98; 98; 32; 98]%N.
Proof. vm_compute. auto. Qed.

(** Word 7 is "ab", piece "a" has label 3, "<u>" label 9. *)
Example C30_transducer_example :
  GetWordpieceTransducer (fun w => if Nat.eqb w 7 then [97; 98]%N else [])
    (fun p => if str_eqb p [97%N] then Some 3 else if str_eqb p [60; 117; 62]%N then Some 9 else None)
    [60; 117; 62]%N (InitWordpieces [95%N] []) [7; 8] =
  Ok (Transducer 4 [(0, 0, 9, 1); (1, 0, 3, 2); (2, 0, 9, 3); (3, 7, 0, 0); (0, 8, 0, 0)]).
Proof. vm_compute. reflexivity. Qed.
