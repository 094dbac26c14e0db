(** String maps and codes. *)
From Verif Require Import Base.

(** [t] is obtained from [s] by cutting [s] into keys and replacing each key by
    its value. *)
Definition translates (tbl : list (str * str)) (s t : str) : Prop :=
  exists rows, (forall row, In row rows -> In row tbl) /\
    s = concat (map fst rows) /\ t = concat (map snd rows).

(** Every text over the code is cut into code words in one way only. *)
Definition uniquely_decodable (code : list str) : Prop :=
  forall xs ys, incl xs code -> incl ys code -> concat xs = concat ys -> xs = ys.

(** [s] uses characters of the first column only. *)
Definition native (tbl : list (str * str)) (s : str) : Prop :=
  forall c, In c s -> In [c] (map fst tbl).
