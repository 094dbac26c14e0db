(** What lookups should give. *)
From Coq Require Import Ascii String.
From Verif Require Import Base ContainerModel InventoryModel InventorySpec OperationModel SymbolModel.
Local Open Scope list_scope.

(** The symbols an inventory can find: the controls, then its items in order *)
Definition item_ids (s : sinv) : list nat :=
  flat_map (fun x => match x with Plain _ i => [N.to_nat i] | _ => [] end) (items_of (sbase s)).
Definition all_ids (s : sinv) : list nat := seq 0 7 ++ item_ids s.

(** [latest ys ids P r]: [r] is the last of [ids] whose symbol has [P], if there is one. *)
Definition has_prop (ys : list symbol) (P : symbol -> Prop) (id : nat) : Prop := exists y, nth_error ys id = Some y /\ P y.
Definition latest (ys : list symbol) (ids : list nat) (P : symbol -> Prop) (r : option nat) : Prop :=
  match r with
  | Some id => exists before after, ids = before ++ id :: after /\ has_prop ys P id /\ forall j, In j after -> ~ has_prop ys P j
  | None => forall j, In j ids -> ~ has_prop ys P j
  end.
Definition found (r : option nat) (id : nat) : Prop := r = Some id \/ (r = None /\ id = unk).

(** No alias in use that the next [n] unknown symbols need *)
Definition taken (b : inv) : list str := i_reserved b ++ map fst (i_fields b).
Definition room (s : sinv) (n : nat) : Prop :=
  forall k, unknown_count s < k <= unknown_count s + n -> ~ In (unk_alias k) (taken (sbase s)).
(** No method hidden by a field *)
Definition methods_there (b : inv) : Prop := forall a, In a (map fst (i_fields b)) -> ~ In a method_names.
Definition takes_class (s : sinv) (k : N) : Prop := exists ks, c_type (i_container (sbase s)) = Some ks /\ In k ks.
(** The alias of the grapheme of a character *)
Definition u_alias (c : N) : str := codes "u_" ++ hexadecimal c.

(** What was started from and reached *)
Definition reached (n : nat) (typed : list N) (prefix : N) (more : list str) (st : list symbol * sinv) : Prop :=
  exists os, sym_run (controls, new_sinv n typed prefix more) os = Some st.
Definition reached_graphemes (n : nat) (prefix : N) (st : list symbol * sinv) : Prop :=
  exists os, gr_run (controls, new_sinv n [grapheme_class] prefix grapheme_attributes) os = Some st.

(** The index of the [k]-th phoneme of a language *)
Definition phoneme_index (lang : N) (k : nat) : N := (3000000 + lang * 100 + N.of_nat k + 1)%N.

(** Symbols for examples *)
Definition letter (cls : N) (alias : string) (raw index : N) : symbol := Sym cls (codes alias) [raw] [raw] index None.
Definition phoneme (k : nat) : symbol := Sym phon_class (codes "p" ++ decimal k) (codes "p" ++ decimal k) [] 0 None.
