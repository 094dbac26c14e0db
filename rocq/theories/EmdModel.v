(** Model of nisaba/translit/tools/emd_cer.py and calculate_emd_cer.py, and of the
    lines they read, written by WritePairwiseEdits of calculate_error_rate.cc.
    Numbers (doubles in the code) are exact fractions; a cost [c] is given by its
    weight exp(-c); pyemd.emd_with_flow is a parameter; the numbers of a line are
    modelled, not their decimal digits. *)
From Coq Require Import QArith.
From Verif Require Import Base Utf8Model DelimModel KbestModel ErrorRateModel.
Local Open Scope Q_scope.

Definition of_nat (n : nat) : Q := inject_Z (Z.of_nat n).

(** ** nisaba/translit/tools/calculate_error_rate.cc *)
(** GetNormalizer, lines 182-189: the sum below its logarithm *)
Definition exp_sum (weights : list Q) : Q := fold_left Qplus weights 0.
(** WriteCands, lines 193-208: the probabilities; exp(-c + norm) is exp(-c)
    divided by the sum. *)
Definition probabilities (weights : list Q) : list Q := map (fun w => w / exp_sum weights) weights.

(** GetLengths, lines 263-272; the text of symbol 0 is "<epsilon>". *)
Definition GetLengths (cands : list item) : run (list nat) :=
  map_run (fun cand : item => match str_split_by_char (fst cand) with
                              | Some cs => Fine (length cs)
                              | None => Exn
                              end) cands.

(** GetBracketedVectorString, lines 210-219 *)
Definition comma : str := [44; 32]%N.
Fixpoint StrJoin (l : list str) : str :=
  match l with [] => [] | [x] => x | x :: l' => (x ++ comma ++ StrJoin l')%list end.
Definition GetBracketedVectorString (vector_a vector_b : list str) : str :=
  ([91%N] ++ StrJoin [StrJoin vector_a; StrJoin vector_b] ++ [93%N])%list.

(** WriteCands, lines 200-205: the text, for words and printed probabilities *)
Definition quote : str := [34%N].
Fixpoint cands_text (first : bool) (cands : list (str * str)) : str :=
  match cands with
  | [] => []
  | (word, prob) :: cands' =>
    ((if first then quote else comma ++ quote) ++ word ++ quote ++ [58; 32]%N ++ prob ++ cands_text false cands')%list
  end.

(** The fields of a line that are used, WritePairwiseEdits, lines 299-337 *)
Record jline := JLine { p1 : list Q; p2 : list Q; D : list (list Q); L : list Q }.
Definition pairwise_line (test_weights ref_weights : list Q) (pairwise_edits : list (list nat))
  (lengths : list nat) : run jline :=
  bind (GetDistances pairwise_edits) (fun d =>
  Fine (JLine (probabilities test_weights ++ repeat 0 (length ref_weights))
              (repeat 0 (length test_weights) ++ probabilities ref_weights)
              (map (map of_nat) d)
              (repeat 0 (length test_weights) ++ map of_nat lengths))).

(** ** nisaba/translit/tools/emd_cer.py *)
(** np.dot of two vectors of one length; others raise an exception, which does not
    happen for the lines above. *)
Fixpoint dot (u v : list Q) : Q :=
  match u, v with x :: u', y :: v' => x * y + dot u' v' | _, _ => 0 end.

(** Python's division of doubles *)
Inductive rate := Rate (q : Q) | Infinite | NotANumber.
Definition divide (x y : Q) : rate :=
  if Qeq_bool y 0 then (if Qeq_bool x 0 then NotANumber else Infinite) else Rate (x / y).

Section Emd.
  (** pyemd.emd_with_flow: the cost and the flow *)
  Variable emd_with_flow : list Q -> list Q -> list (list Q) -> Q * list (list Q).

  (** lines 21-27 *)
  Definition earth_movers_distance (l : jline) : Q * list (list Q) * list Q :=
    let r := emd_with_flow (p1 l) (p2 l) (D l) in (fst r, snd r, L l).
  (** lines 30-35 *)
  Definition emd_error_and_length (l : jline) : Q * Q :=
    let '(edits, flows, len) := earth_movers_distance l in
    (edits, fold_left (fun ref_len flow => ref_len + dot flow len) flows 0).

  (** ** nisaba/translit/tools/calculate_emd_cer.py *)
  (** lines 40-43: what is printed for a line: reference length, edits and rate *)
  Definition printed (l : jline) : Q * Q * rate :=
    let (edits, ref_len) := emd_error_and_length l in (ref_len, edits, divide edits ref_len).
  (** lines 35-36 and 44-48: the totals; with no line the last division is one of
      the integers 0 and 0, an exception (None). *)
  Fixpoint tot (lines : list jline) (tot_edits tot_len : Q) : Q * Q :=
    match lines with
    | [] => (tot_edits, tot_len)
    | l :: lines' => let (edits, ref_len) := emd_error_and_length l in
                     tot lines' (tot_edits + edits) (tot_len + ref_len)
    end.
  Definition main (lines : list jline) : list (Q * Q * rate) * (Q * Q) * option rate :=
    let t := tot lines 0 0 in
    (map printed lines, t,
     match lines with [] => None | _ => Some (divide (fst t) (snd t)) end).
End Emd.
