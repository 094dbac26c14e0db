(** The units well-formed text is made of, directly over strings. *)
From Verif Require Import Base VisualModel ScriptData.

(** [s] is a listed string of the table. *)
Definition listed (f : string_file) (s : str) : Prop := exists t, In (s, t) f.
(** [s] is a listed string or nothing. *)
Definition maybe (f : string_file) (s : str) : Prop := s = [] \/ listed f s.

Section Units.
  Variable d : script_data.

  (** A consonant with an optional subjoined one. *)
  Definition consonant_group (s : str) : Prop :=
    exists c j, listed (sd_consonant d) c /\ maybe (sd_subjoined_consonant d) j /\ s = c ++ j.

  (** A virama or a preserved joiner sequence links two consonants. *)
  Definition link (s : str) : Prop :=
    listed (sd_virama d) s \/ exists p, In p (sd_preserve d) /\ pseq p = s.

  Inductive cluster : str -> Prop :=
  | cl_one c : consonant_group c -> cluster c
  | cl_more c v k : consonant_group c -> link v -> cluster k -> cluster (c ++ v ++ k).

  Definition vowel_or_cluster (s : str) : Prop :=
    listed (sd_vowel d) s \/
    exists k m, cluster k /\ s = k ++ m /\
      (listed (sd_vowel_sign d) m \/ (sd_no_inherent_vowel d = false /\ m = [])).

  Inductive unit : str -> Prop :=
  | u_vowel v l c e : vowel_or_cluster v -> maybe (sd_vowel_length_sign d) l ->
      maybe (sd_coda d) c -> maybe (sd_dead_consonant d) e -> unit (v ++ l ++ c ++ e)
  | u_virama k v e : cluster k -> listed (sd_virama d) v -> maybe (sd_dead_consonant d) e ->
      unit (k ++ v ++ e)
  | u_standalone s : listed (sd_standalone d) s -> unit s
  | u_accept s : listed (sd_accept d) s -> unit s.

  (** A sequence of units. *)
  Definition unit_sequence (s : str) : Prop := exists us, Forall unit us /\ s = concat us.
End Units.

(** Every table of [d] is part of the one of [e]. *)
Definition tables_included (d e : script_data) : Prop :=
  incl (sd_accept d) (sd_accept e) /\ incl (sd_coda d) (sd_coda e) /\
  incl (sd_consonant d) (sd_consonant e) /\ incl (sd_dead_consonant d) (sd_dead_consonant e) /\
  incl (sd_standalone d) (sd_standalone e) /\
  incl (sd_subjoined_consonant d) (sd_subjoined_consonant e) /\
  incl (sd_virama d) (sd_virama e) /\ incl (sd_vowel d) (sd_vowel e) /\
  incl (sd_vowel_length_sign d) (sd_vowel_length_sign e) /\
  incl (sd_vowel_sign d) (sd_vowel_sign e) /\ incl (sd_preserve d) (sd_preserve e) /\
  (sd_no_inherent_vowel d = false -> sd_no_inherent_vowel e = false).

(** [s] can start a unit: it is a non-empty consonant, vowel, standalone or
    exception. *)
Definition starter (d : script_data) (s : str) : Prop :=
  s <> [] /\ (listed (sd_consonant d) s \/ listed (sd_vowel d) s \/
              listed (sd_standalone d) s \/ listed (sd_accept d) s).

(** No table lists the empty string. *)
Definition no_empty_entry (d : script_data) : Prop :=
  forall f, In f [sd_accept d; sd_coda d; sd_consonant d; sd_dead_consonant d; sd_standalone d;
                  sd_subjoined_consonant d; sd_virama d; sd_vowel d; sd_vowel_length_sign d;
                  sd_vowel_sign d] -> ~ listed f [].

(** Entries that depend on a preceding consonant or vowel, and the joiners. *)
Definition dependent (d : script_data) (x : str) : Prop :=
  listed (sd_vowel_sign d) x \/ listed (sd_coda d) x \/ listed (sd_virama d) x \/
  listed (sd_vowel_length_sign d) x \/ listed (sd_dead_consonant d) x \/
  listed (sd_subjoined_consonant d) x \/ In x [[ZWNJ]; [ZWJ]; [ZWS]].

(** Dependent entries that the shipped tables also list as standalones or
    exceptions, or as the start of one: Devanagari avagraha, Meetei Mayek lum
    iyek, Malayalam vowel signs AA and U, chillu N and chillu L. *)
Definition also_starters : list str := [[2365]; [44012]; [3390]; [3393]; [3451]; [3453]]%N.
