(** What feature sets and profiles should do. *)
From Verif Require Import Base FeatureModel FeatureSpec ProfileModel.

(** The distances of every aspect come from a tree of lists with steps that are not
    negative, and its features are those of the tree, [any] and [n_a]. *)
Definition built (W : world) : Prop :=
  forall f a, aspect_of W f = Some a ->
    exists alias list_alias attributes v,
      distinct v /\ good_aliases alias list_alias attributes v /\ nonneg_steps v /\
      populated alias list_alias attributes v = Some (data W a) /\
      (In f (leaves v) \/ f = any_of W a \/ f = na_of W a).
Definition has_aspect (W : world) (f : nat) : Prop := aspect_of W f <> None.

(** [d] is the least distance between features of [A] and of [B]; ERROR_DISTANCE if it
    is larger, or if there is none. *)
Definition nearest (W : world) (A B : list nat) (d : Z) : Prop :=
  (0 <= d <= ERROR_DISTANCE)%Z /\
  (forall f g e, In f A -> In g B -> distance W f g = Some e -> (d <= e)%Z) /\
  (d = ERROR_DISTANCE \/ exists f g, In f A /\ In g B /\ distance W f g = Some d).

Definition same_set (A B : list nat) : Prop := forall f, In f A <-> In f B.

(** Every feature's aspect is listed in its inventory, aspects of an inventory have
    different aliases, which are no attributes of profiles. *)
Definition well_named (W : world) (attributes : list str) : Prop :=
  (forall f a, aspect_of W f = Some a -> In a (aspects W (inventory_of W a))) /\
  forall inv, NoDup (map (aspect_alias W) (aspects W inv)) /\
    forall a, In a (aspects W inv) ->
      inventory_of W a = inv /\ ~ In (aspect_alias W a) attributes /\
      aspect_of W (any_of W a) = Some a /\ aspect_of W (na_of W a) = Some a.

(** ** Profiles as functions from aspects to features *)
Definition of_aspect (W : world) (a f : nat) : bool := match aspect_of W f with Some b => Nat.eqb b a | None => false end.
(** The features named for an aspect, or else the old ones *)
Definition choose (W : world) (fs : list nat) (old : nat -> list nat) (a : nat) : list nat :=
  match filter (of_aspect W a) fs with [] => old a | l => l end.
Notation plain_profile := (nat * (nat -> list nat))%type.
Fixpoint replace_nth {A} (i : nat) (x : A) (l : list A) : list A :=
  match l, i with
  | [], _ => []
  | _ :: l', 0 => x :: l'
  | y :: l', S i' => y :: replace_nth i' x l'
  end.
Definition plain_op (W : world) (s : list plain_profile) (o : op) : option (list plain_profile) :=
  match o with
  | New n_a inv fs => Some (s ++ [(inv, choose W fs (fun a => [if n_a then na_of W a else any_of W a]))])
  | Update i fs =>
    match nth_error s i with
    | Some (inv, m) => Some (replace_nth i (inv, choose W fs m) s)
    | None => None
    end
  | Copy i => match nth_error s i with Some p => Some (s ++ [p]) | None => None end
  end.
Fixpoint plain_ops (W : world) (s : list plain_profile) (os : list op) : option (list plain_profile) :=
  match os with
  | [] => Some s
  | o :: os' => match plain_op W s o with Some s' => plain_ops W s' os' | None => None end
  end.
(** A profile has one value set per aspect of its inventory, with the given features. *)
Definition represents (W : world) (h : list (list nat)) (p : profile) (q : plain_profile) : Prop :=
  p_inventory p = fst q /\
  map fst (p_items p) = map (aspect_alias W) (aspects W (fst q)) /\
  forall a, In a (aspects W (fst q)) ->
    let s := profile_get W p a h in
    same_set s (snd q a) /\ NoDup s /\ s <> [] /\ forall f, In f s -> aspect_of W f = Some a.

(** The sum of the distances of the value sets of two profiles *)
Inductive total_distance (W : world) (A B : nat -> list nat) : list nat -> Z -> Prop :=
| total_nil : total_distance W A B [] 0
| total_cons a l d t : sets_distance W (A a) (B a) = Some d -> total_distance W A B l t ->
    total_distance W A B (a :: l) (d + t).
Definition total_max (W : world) (l : list nat) : Z := fold_right (fun a t => (max_dist (data W a) + t)%Z) 0%Z l.

(** ** Multi-profiles: one profile for each inventory, the last one given *)
Fixpoint plain_multi_add (q : plain_profile) (M : list plain_profile) : list plain_profile :=
  match M with
  | [] => [q]
  | r :: M' => if Nat.eqb (fst r) (fst q) then q :: M' else r :: plain_multi_add q M'
  end.
(** Giving the profiles [ps] to a multi-profile, one after another *)
Fixpoint multi_run (W : world) (attributes : list str) (inventory_alias : nat -> str) (multi_attributes : list str)
  (ps : list profile) (m : list (str * profile)) (h : list (list nat)) : option (list (str * profile) * list (list nat)) :=
  match ps with
  | [] => Some (m, h)
  | p :: ps' =>
    match multi_new W attributes inventory_alias multi_attributes p m h with
    | Some (_, m', h') => multi_run W attributes inventory_alias multi_attributes ps' m' h'
    | None => None
    end
  end.
