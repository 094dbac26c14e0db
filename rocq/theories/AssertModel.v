(** Model of the checks that the tests of the grammars are made of:
    nisaba/scripts/utils/test_util.py, lines 38-150 and 164-346, with
    [ComposeFsts] of nisaba/scripts/utils/rewrite.py taken as one composition.

    A transducer applied to one string is given by the paths that Pynini lists
    for it after [optimize]: the output and the printed weight of each.  The
    machine itself is a parameter [run : str -> list path].  [Fst.string()]
    raises [FstOpError] unless there is exactly one path.  The texts of the
    error messages are left out, except that computing one calls [string()] on
    the input machine. *)
From Verif Require Import Base.

(** How a check ends: it returns, or raises one of three exceptions. *)
Inductive verdict := Passes | AssertionError | ValueError | FstOpError.

(** One path: output string and [str(weight)]. *)
Definition path : Type := (str * str)%type.

(** Digits of Python's [int]: printed weights have neither spaces nor
    underscores. *)
Fixpoint digits_value (acc : Z) (s : str) : option Z :=
  match s with
  | [] => Some acc
  | c :: t =>
      if (48 <=? c)%N && (c <=? 57)%N
      then digits_value (10 * acc + Z.of_N (c - 48))%Z t
      else None
  end.

Definition digits (s : str) : option Z :=
  match s with [] => None | _ :: _ => digits_value 0 s end.

(** [int(text)]; [None] stands for [ValueError]. *)
Definition py_int (s : str) : option Z :=
  match s with
  | c :: t =>
      if (c =? 45)%N then match digits t with Some z => Some (- z)%Z | None => None end
      else if (c =? 43)%N then digits t
      else digits s
  | [] => None
  end.

(** [Fst.string()]. *)
Definition fst_string (f : list path) : option str :=
  match f with [p] => Some (fst p) | _ => None end.

(** [AssertIfSinglePath], lines 72-96. *)
Definition assert_single_path (input f : list path) : verdict :=
  match fst_string f with
  | Some _ => Passes
  | None => match fst_string input with
            | Some _ => AssertionError
            | None => FstOpError
            end
  end.

(** [set.add] and [defaultdict(set)], lines 111-113 and 138-140. *)
Definition set_add (o : str) (l : list str) : list str :=
  if existsb (str_eqb o) l then l else l ++ [o].

Fixpoint dict_add (k : Z) (o : str) (d : list (Z * list str)) : list (Z * list str) :=
  match d with
  | [] => [(k, [o])]
  | e :: d' => if (fst e =? k)%Z then (k, set_add o (snd e)) :: d'
               else e :: dict_add k o d'
  end.

Fixpoint out_weights (d : list (Z * list str)) (f : list path)
  : option (list (Z * list str)) :=
  match f with
  | [] => Some d
  | p :: f' => match py_int (snd p) with
               | Some k => out_weights (dict_add k (fst p) d) f'
               | None => None
               end
  end.

(** [out_weights[min(out_weights)]], lines 114 and 146; [None] for the empty
    dictionary, where [min] raises [ValueError]. *)
Fixpoint at_min (d : list (Z * list str)) : option (Z * list str) :=
  match d with
  | [] => None
  | e :: d' => match at_min d' with
               | None => Some e
               | Some m => if (fst m <? fst e)%Z then Some m else Some e
               end
  end.

(** [_VerifyIfSingleShortestPath], lines 99-119. *)
Definition verify_single_shortest (input f : list path) : verdict :=
  match fst_string input with
  | None => FstOpError
  | Some _ =>
      match out_weights [] f with
      | None => ValueError
      | Some d => match at_min d with
                  | None => ValueError
                  | Some m => if (1 <? length (snd m))%nat then AssertionError
                              else Passes
                  end
      end
  end.

(** [AssertIdentity], lines 122-150: [outstrs - {input_str}] is true when it is
    not empty. *)
Definition assert_identity (input f : list path) : verdict :=
  match fst_string input with
  | None => FstOpError
  | Some s =>
      match out_weights [] f with
      | None => ValueError
      | Some d =>
          match at_min d with
          | None => AssertionError
          | Some m =>
              match filter (fun o => negb (str_eqb o s)) (snd m) with
              | [] => Passes
              | _ :: _ => AssertionError
              end
          end
      end
  end.

(** [_LabelListToStringFsa], lines 45-52: a chain of the labels; [optimize]
    removes the label 0 and the weight is that of [One]. *)
Definition label_fsa (labels : list N) : list path :=
  [(filter (fun l => negb (l =? 0)%N) labels, [48%N])].

(** The loop over the samples, lines 286-298: the first check that raises ends
    it.  [run] composes a string with all of [fsts]; [norm] is the normalising
    machine, if there is one. *)
Section Sampled.
  Variable run : str -> list path.
  Variable norm : option (str -> list path).
  Variable check : list path -> list path -> verdict.

  Definition check_sample (labels : list N) : verdict :=
    match fst_string (label_fsa labels) with
    | None => FstOpError
    | Some s =>
        check (match norm with Some f => f s | None => label_fsa labels end) (run s)
    end.

  Fixpoint sampled (samples : list (list N)) : verdict :=
    match samples with
    | [] => Passes
    | l :: rest => match check_sample l with
                   | Passes => sampled rest
                   | e => e
                   end
    end.
End Sampled.

(** [AssertFstProbablyFunctional], [AssertFstSingleShortestPath] and
    [AssertFstProbablyIdentity], lines 167-246, on the
    strings that [randgen] returned. *)
Definition probably_functional (run : str -> list path) (samples : list (list N)) : verdict :=
  sampled run None assert_single_path samples.
Definition probably_single_shortest (run : str -> list path) (samples : list (list N)) : verdict :=
  sampled run None verify_single_shortest samples.
Definition probably_identity (run norm : str -> list path) (samples : list (list N)) : verdict :=
  sampled run (Some norm) assert_identity samples.

(** [_MAX_SAMPLE_LENGTH], line 35. *)
Definition max_sample_length : nat := 5.

(** [AssertFstStrIO], lines 304-317. *)
Definition assert_str_io (run : str -> list path) (input expected : str) : verdict :=
  match fst_string (run input) with
  | None => FstOpError
  | Some o => if str_eqb o expected then Passes else AssertionError
  end.

(** [AssertFstStrIoTestCases], lines 319-346: each builder is called anew, for
    characters first and then for bytes; the pairs are given to both. *)
Section Cases.
  Variable builder : Type.
  Variable build : bool -> builder -> str -> list path.

  Fixpoint all_pairs (run : str -> list path) (pairs : list (str * str)) : verdict :=
    match pairs with
    | [] => Passes
    | p :: rest => match assert_str_io run (fst p) (snd p) with
                   | Passes => all_pairs run rest
                   | e => e
                   end
    end.

  Fixpoint all_cases (cases : list (builder * list (str * str))) : verdict :=
    match cases with
    | [] => Passes
    | c :: rest =>
        match all_pairs (build true (fst c)) (snd c) with
        | Passes => match all_pairs (build false (fst c)) (snd c) with
                    | Passes => all_cases rest
                    | e => e
                    end
        | e => e
        end
    end.
End Cases.
