(** Model of the test of grammars by lists of rewrites:
    nisaba/interim/testing/test_textproto.cc, lines 78-194.

    The rule cascade is given by parameters: [set_rules], which says whether the
    rules of an entry could be set, and the three ways of rewriting, which
    return [None] for the C++ result [false].  The texts of the failure messages
    are left out, except for the list of differing strings. *)
From Verif Require Import Base.

(** The end of the test: passed, failed, or the process stopped by QCHECK. *)
Inductive ending := Passed | Failed | Stopped.

(** One entry of testdata.proto, lines 21-30: rules, input and outputs. *)
Record entry : Type := Entry { e_rules : list str; e_input : str; e_outputs : list str }.

Definition s_exact : str := [101; 120; 97; 99; 116]%N.
Definition s_one_top : str := [111; 110; 101; 95; 116; 111; 112]%N.
Definition s_subset : str := [115; 117; 98; 115; 101; 116]%N.
Definition s_top : str := [116; 111; 112]%N.

(** gMock's [UnorderedElementsAreArray] and [IsSupersetOf] for strings: the
    elements are matched one to one. *)
Fixpoint remove_one (x : str) (l : list str) : option (list str) :=
  match l with
  | [] => None
  | y :: l' => if str_eqb x y then Some l'
               else match remove_one x l' with
                    | Some r => Some (y :: r)
                    | None => None
                    end
  end.

(** What is left of [actual] after every element of [expected] has been matched. *)
Fixpoint match_all (expected actual : list str) : option (list str) :=
  match expected with
  | [] => Some actual
  | x :: e => match remove_one x actual with
              | Some r => match_all e r
              | None => None
              end
  end.

Definition superset_of (actual expected : list str) : bool :=
  match match_all expected actual with Some _ => true | None => false end.

Definition unordered_elements_are (actual expected : list str) : bool :=
  match match_all expected actual with Some [] => true | _ => false end.

(** [std::string]'s order: bytes from left to right. *)
Fixpoint str_ltb (a b : str) : bool :=
  match a, b with
  | [], [] => false
  | [], _ :: _ => true
  | _ :: _, [] => false
  | x :: a', y :: b' =>
      if (x <? y)%N then true else if (y <? x)%N then false else str_ltb a' b'
  end.

(** [absl::c_set_difference], used at line 84: the merge of two lists. *)
Fixpoint set_difference (a : list str) : list str -> list str :=
  fix go (b : list str) : list str :=
    match a, b with
    | [], _ => []
    | _ :: _, [] => a
    | x :: a', y :: b' =>
        if str_ltb x y then x :: set_difference a' b
        else if str_ltb y x then go b'
        else set_difference a' b'
    end.

Section Test.
  Variable set_rules : list str -> bool.
  Variable rewrites : list str -> str -> option (list str).
  Variable top_rewrite : list str -> str -> option str.
  Variable one_top_rewrite : list str -> str -> option str.

  (** The branches of lines 109-189: whether every EXPECT of the entry holds.
      After a failed rewrite [actual] keeps its initial value. *)
  Definition some_or {A} (d : A) (o : option A) : A :=
    match o with Some x => x | None => d end.
  Definition is_some {A} (o : option A) : bool :=
    match o with Some _ => true | None => false end.

  Definition first_is (expected : list str) (actual : str) : bool :=
    match expected with e :: _ => str_eqb actual e | [] => false end.

  (** [None] is the branch of line 191, which ends the test. *)
  Definition expectations (mode : str) (e : entry) : option bool :=
    match e_outputs e with
    | [] => Some (negb (is_some (top_rewrite (e_rules e) (e_input e))))
    | (_ :: _) as expected =>
        if str_eqb mode s_exact then
          let r := rewrites (e_rules e) (e_input e) in
          Some (is_some r && unordered_elements_are (some_or [] r) expected)
        else if str_eqb mode s_one_top then
          let r := one_top_rewrite (e_rules e) (e_input e) in
          Some ((length expected =? 1)%nat && (is_some r && first_is expected (some_or [] r)))
        else if str_eqb mode s_subset then
          let r := rewrites (e_rules e) (e_input e) in
          Some (is_some r && superset_of (some_or [] r) expected)
        else if str_eqb mode s_top then
          let r := top_rewrite (e_rules e) (e_input e) in
          Some ((length expected =? 1)%nat && (is_some r && first_is expected (some_or [] r)))
        else None
    end.

  (** The loop of lines 104-193: a failed EXPECT does not end it. *)
  Fixpoint entries (mode : str) (ok : bool) (l : list entry) : ending :=
    match l with
    | [] => if ok then Passed else Failed
    | e :: rest =>
        if set_rules (e_rules e) then
          match expectations mode e with
          | Some b => entries mode (ok && b) rest
          | None => Failed
          end
        else Stopped
    end.

  (** Lines 88-102: the file of rewrites, the token type and the archive have
      to be readable. *)
  Definition text_proto_test (file : option (list entry)) (token_type far : bool)
      (mode : str) : ending :=
    match file with
    | None => Stopped
    | Some l => if token_type then if far then entries mode true l else Stopped
                else Stopped
    end.
End Test.
