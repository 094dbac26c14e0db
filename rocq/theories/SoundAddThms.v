(** C73, adding features to a letter: what it has stays, what is added is there, nothing else comes. *)
From Verif Require Import Base FeatureModel ProfileModel SoundModel SoundAddProofs.
From Coq Require Import String.

Theorem C73_add_keeps : forall W m fs h r f, ~ (exists a, f = any_of W a) -> In f (read h r) -> In f (read (add_features W m fs h) r).
Proof. exact (fun W m => keeps W m). Qed.
Theorem C73_add_adds : forall W m fs h n p f a r, In f fs -> ~ (exists a, f = any_of W a) -> aspect_of W f = Some a -> In (n, p) m ->
  inventory_of W a = p_inventory p -> lookup (aspect_alias W a) (p_items p) = Some r -> r < List.length h -> In f (read (add_features W m fs h) r).
Proof. exact (fun W m => adds W m). Qed.
Theorem C73_add_only : forall W m fs h r f, In f (read (add_features W m fs h) r) -> In f (read h r) \/ In f fs.
Proof. exact (fun W m => only W m). Qed.
(** One aspect with features 0 and 1, any is 2: any goes, features stay. *)
Example C73_add_example : let W := World (fun _ => Some 0) (fun _ => no_aspect) (fun _ => 2) (fun _ => 3) (fun _ => chars "case") (fun _ => 7) (fun _ => [0]) in
  let m := [(chars "gr_features", Profile 7 [(chars "case", 0)])] in
  add_features W m [1] [[2]] = [[1]] /\ add_features W m [1] [[0]] = [[0; 1]].
Proof. vm_compute. auto. Qed.

Print Assumptions C73_add_keeps.
Print Assumptions C73_add_adds.
Print Assumptions C73_add_only.
