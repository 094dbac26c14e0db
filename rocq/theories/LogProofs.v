(** Proofs about log messages. *)
From Coq Require Import String.
From Verif Require Import Base LogModel.
Local Open Scope string_scope.
Local Open Scope list_scope.

Lemma text_not_empty o : text_of o <> "".
Proof. unfold text_of. destruct (match text_attr o with Some t => t | None => _ end); discriminate. Qed.
Lemma text_is o t : text_of o = t ->
  (exists x, (text_attr o = Some x \/ text_attr o = None /\ (fst_string o = Some (Some x) \/ fst_string o = None /\ as_str o = x)) /\
     (x <> "" /\ t = x \/ x = "" /\ t = "<no_text>")) \/
  (text_attr o = None /\ fst_string o = Some None /\ t = "<non_string_fst>").
Proof.
  unfold text_of. intros <-. destruct (text_attr o) as [x|].
  { left. exists x. split; [left; reflexivity|]. destruct x; [right|left]; split; try reflexivity; discriminate. }
  destruct (fst_string o) as [[x|]|].
  - left. exists x. split; [right; split; [reflexivity|left; reflexivity]|]. destruct x; [right|left]; split; try reflexivity; discriminate.
  - right. repeat split.
  - left. exists (as_str o). split; [right; split; [reflexivity|right; split; reflexivity]|].
    destruct (as_str o); [right|left]; split; try reflexivity; discriminate.
Qed.
Lemma alias_empty : exists o, alias_of o = "" /\ text_of o <> "".
Proof. exists (Obj None (Some "") None None None "x" "Thing"). split; [reflexivity|discriminate]. Qed.
Lemma name_is o : name_of o =
  match name_attr o, dunder_name o, alias_attr o with Some n, _, _ => n | None, Some n, _ => n | None, None, Some n => n | None, None, None => text_of o end.
Proof. unfold name_of, alias_of. destruct (name_attr o), (dunder_name o); reflexivity. Qed.

(** What is logged, for the frame number [k] of the caller's stack *)
Lemma message_frame stack m k f : nth_error stack k = Some f ->
  dbg_message true stack m k = Returns tt [(file_name f ++ "/" ++ function_name f ++ ": " ++ m)%string].
Proof. intros E. unfold dbg_message, add_caller. replace (k + 2) with (S (S k)) by lia. cbn [nth_error]. rewrite E. reflexivity. Qed.
Lemma message_beyond stack m k : nth_error stack k = None -> dbg_message true stack m k = IndexError.
Proof. intros E. unfold dbg_message, add_caller. replace (k + 2) with (S (S k)) by lia. cbn [nth_error]. rewrite E. reflexivity. Qed.
Lemma return_frame {A} (as_obj : A -> obj) stack v m k f : nth_error stack k = Some f ->
  dbg_return true as_obj stack v m k =
    Returns v [(file_name f ++ "/" ++ function_name f ++ ": " ++ return_message (as_obj v) m)%string].
Proof.
  intros E. unfold dbg_return. rewrite (message_frame _ _ _ f); [reflexivity|]. replace (k + 1) with (S k) by lia. exact E.
Qed.
Lemma return_beyond {A} (as_obj : A -> obj) stack v m k : nth_error stack k = None ->
  dbg_return true as_obj stack v m k = IndexError.
Proof.
  intros E. unfold dbg_return. rewrite message_beyond; [reflexivity|]. replace (k + 1) with (S k) by lia. exact E.
Qed.
Lemma string_app_assoc a b c : ((a ++ b) ++ c = a ++ b ++ c)%string.
Proof. induction a as [|x a IH]; cbn; [reflexivity|rewrite IH; reflexivity]. Qed.
Lemma returns_detail o m : return_message o m = (if String.eqb m "" then "returns " ++ text_of o else "returns " ++ text_of o ++ ", detail: " ++ m)%string.
Proof. unfold return_message. destruct m; [reflexivity|]. cbn [String.eqb]. rewrite string_app_assoc. reflexivity. Qed.

(** All functions that return a value, with the frame of their caller *)
Lemma caller_named stack k f m (contains : obj -> obj -> bool) a b : nth_error stack k = Some f ->
  let at_ text := (file_name f ++ "/" ++ function_name f ++ ": " ++ text)%string in
  dbg_message true stack m k = Returns tt [at_ m] /\
  (forall A (as_obj : A -> obj) v, dbg_return true as_obj stack v m k = Returns v [at_ (return_message (as_obj v) m)]) /\
  dbg_return_true true stack m k = Returns true [at_ (return_message (bool_obj true) m)] /\
  dbg_return_false true stack m k = Returns false [at_ (return_message (bool_obj false) m)] /\
  dbg_return_in true contains stack a b m k =
    Returns (contains b a) [at_ (return_message (bool_obj (contains b a)) (in_message a b m))].
Proof.
  intros E. cbv zeta. split; [apply message_frame; exact E|]. split; [intros A as_obj v; apply return_frame; exact E|].
  unfold dbg_return_true, dbg_return_false, dbg_return_in.
  assert (S1 : forall g, nth_error (here g :: stack) (k + 1) = Some f) by (intros g; replace (k + 1) with (S k) by lia; exact E).
  split; [|split]; apply return_frame; apply S1.
Qed.
Lemma silent stack k m (contains : obj -> obj -> bool) a b :
  dbg_message false stack m k = Returns tt [] /\
  (forall A (as_obj : A -> obj) v, dbg_return false as_obj stack v m k = Returns v []) /\
  dbg_return_true false stack m k = Returns true [] /\ dbg_return_false false stack m k = Returns false [] /\
  dbg_return_in false contains stack a b m k = Returns (contains b a) [].
Proof. repeat split. Qed.
Lemma same_value debug {A} (as_obj : A -> obj) stack v m k : k < List.length stack ->
  exists log, dbg_return debug as_obj stack v m k = Returns v log /\ List.length log = if debug then 1 else 0.
Proof.
  intros L. destruct debug; [|exists []; split; reflexivity].
  destruct (nth_error stack k) as [f|] eqn:E; [|apply nth_error_None in E; lia].
  rewrite (return_frame _ _ _ _ _ f E). eexists. split; reflexivity.
Qed.
Lemma debug_matters : exists (stack : list frame) k, forall A (as_obj : A -> obj) v m,
  dbg_return false as_obj stack v m k = Returns v [] /\ dbg_return true as_obj stack v m k = IndexError.
Proof. exists [], 0. intros A as_obj v m. split; [reflexivity|apply return_beyond; reflexivity]. Qed.

Lemma texts_join args : class_and_texts args = String.concat ", " (map (fun o => class_name o ++ "_" ++ text_of o)%string args).
Proof.
  induction args as [|o args IH]; [reflexivity|]. destruct args as [|o' args]; [reflexivity|].
  change (class_and_texts (o :: o' :: args)) with (class_and_text o ++ ", " ++ class_and_texts (o' :: args))%string.
  rewrite IH. reflexivity.
Qed.
