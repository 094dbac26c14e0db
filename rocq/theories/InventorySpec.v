(** Inventories as lists of entries. *)
From Coq Require Import Ascii String.
From Verif Require Import Base ContainerModel ContainerSpec InventoryModel.
Local Open Scope list_scope.

(** Alias, value, and whether it is an item or a supplement *)
Notation entry := (str * obj * bool)%type.
Notation alias_of e := (fst (fst e)).
Notation value_of_entry e := (snd (fst e)).

Definition entry_items (es : list entry) : list obj := flat_map (fun e => if (snd e : bool) then [value_of_entry e] else []) es.

Section Spec.
  Variable h : heap.
  Variable c : container.
  Variable reserved : list str.

  Definition free (es : list entry) (alias : str) : Prop := ~ In alias reserved /\ forall e, In e es -> alias_of e <> alias.
  Definition takeable (v : obj) : Prop := exists k, known h v k /\ accepted c k.
  Definition obj_of (t : thing) (attr : str) (v : obj) : Prop :=
    (attr = [] /\ v = t_self t) \/
    (attr <> [] /\ lookup attr (t_attrs t) = Some v) \/
    (attr <> [] /\ lookup attr (t_attrs t) = None /\ v = MISSING).

  (** One step: a new entry goes to the end, when its alias is free (and, for an item,
      its value can be taken and is not an item yet); otherwise nothing changes. *)
  Inductive entry_step (es : list entry) : inv_op -> answer -> list entry -> Prop :=
  | item_added t attr v : obj_of t attr v -> takeable v -> ~ In v (entry_items es) -> free es (t_alias t) ->
      entry_step es (AddItem t attr) (Added true) (es ++ [(t_alias t, v, true)])
  | item_refused t attr v : obj_of t attr v -> ~ (takeable v /\ ~ In v (entry_items es) /\ free es (t_alias t)) ->
      entry_step es (AddItem t attr) (Added false) es
  | suppl_added t : free es (t_alias t) -> entry_step es (AddSuppl t) (Added true) (es ++ [(t_alias t, t_value t, false)])
  | suppl_refused t : ~ free es (t_alias t) -> entry_step es (AddSuppl t) (Added false) es
  | made a v : free es a -> entry_step es (MakeSuppl a v) (Added true) (es ++ [(a, v, false)])
  | not_made a v : ~ free es a -> entry_step es (MakeSuppl a v) (Added false) es
  | ignored xs : entry_step es (AddAny xs) Self es
  | found a v d b : In (a, v, b) es -> entry_step es (Get a d) (Found v) es
  | not_found a d : (forall e, In e es -> alias_of e <> a) -> entry_step es (Get a d) (Found d) es.
  Inductive entry_steps : list entry -> list inv_op -> list answer -> list entry -> Prop :=
  | no_steps es : entry_steps es [] [] es
  | more_steps es o a es1 os as_ es2 : entry_step es o a es1 -> entry_steps es1 os as_ es2 -> entry_steps es (o :: os) (a :: as_) es2.
End Spec.

(** The inventory holds exactly these entries. *)
Record holds (s : inv) (es : list entry) : Prop := Holds {
  holds_fields : i_fields s = map fst es;
  holds_items : items_of s = entry_items es;
  holds_item_aliases : item_aliases s = map (fun e => alias_of e) (filter (fun e : entry => snd e) es);
  holds_suppl_aliases : suppl_aliases s = map (fun e => alias_of e) (filter (fun e : entry => negb (snd e)) es)
}.

(** Aliases that are not method names *)
Definition method_names : list str := map codes ["add_item"; "valid_item"; "_add_field"; "make_suppl"; "add_suppl"; "get"; "add"]%string.
Definition op_alias (o : inv_op) : option str :=
  match o with AddItem t _ | AddSuppl t => Some (t_alias t) | MakeSuppl a _ => Some a | _ => None end.
Definition safe_op (o : inv_op) : Prop := forall a, op_alias o = Some a -> ~ In a method_names.
Definition op_value_known (h : heap) (o : inv_op) : Prop :=
  match o with AddItem t attr => exists k, known h (field_value t attr) k | _ => True end.
