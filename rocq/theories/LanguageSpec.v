(** Languages, their families and numbers. *)
From Coq Require Import String Ascii.
From Verif Require Import Base FeatureModel.
Local Open Scope string_scope.

(** All lists of the tree are equidistant with one step. *)
Fixpoint all_equidistant (s : Z) (v : value) : Prop :=
  match v with
  | Leaf _ => True
  | VList _ t s' items => t = EQUIDISTANT /\ s' = s /\
      (fix all (l : list value) : Prop := match l with [] => True | x :: l' => all_equidistant s x /\ all l' end) items
  end.
(** The same text but for the case of ASCII letters *)
Definition same_letter (c d : ascii) : Prop :=
  c = d \/ (65 <= nat_of_ascii c <= 90 /\ nat_of_ascii d = nat_of_ascii c + 32) \/
  (65 <= nat_of_ascii d <= 90 /\ nat_of_ascii c = nat_of_ascii d + 32).
Fixpoint caseless (a b : string) : Prop :=
  match a, b with
  | EmptyString, EmptyString => True
  | String c a', String d b' => same_letter c d /\ caseless a' b'
  | _, _ => False
  end.
(** [b] is [a] without capital letters. *)
Fixpoint without_capitals (b : string) : Prop :=
  match b with EmptyString => True | String c b' => ~ (65 <= nat_of_ascii c <= 90) /\ without_capitals b' end.
Definition has_code {A} (key : A -> option string) (code : string) (e : A) : Prop :=
  exists k, key e = Some k /\ caseless k code.
(** The languages of the families *)
Definition families : list (string * list string) :=
  [("language", ["kn"; "te"; "ml"; "ta"; "bn"; "gu"; "hi"; "mr"; "pa"; "en"; "mul"; "und"; "x_uni"; "x_psa"]);
   ("dravidian", ["kn"; "te"; "ml"; "ta"]); ("tamil_kota", ["ml"; "ta"]);
   ("indo_european", ["bn"; "gu"; "hi"; "mr"; "pa"; "en"]); ("indo_aryan", ["bn"; "gu"; "hi"; "mr"; "pa"]);
   ("germanic", ["en"]); ("mixed_family", ["mul"; "und"; "x_uni"; "x_psa"])].
