(** C82: texts of objects and log messages. *)
From Coq Require Import String.
From Verif Require Import Base LogModel LogProofs.
Local Open Scope string_scope.
Local Open Scope list_scope.

(** The text of an object is never empty ... *)
Theorem C82_text_not_empty : forall o, text_of o <> "".
Proof. exact text_not_empty. Qed.
Print Assumptions C82_text_not_empty.
Theorem C82_text : forall o t, text_of o = t ->
  (exists x, (text_attr o = Some x \/ text_attr o = None /\ (fst_string o = Some (Some x) \/ fst_string o = None /\ as_str o = x)) /\
     (x <> "" /\ t = x \/ x = "" /\ t = "<no_text>")) \/
  (text_attr o = None /\ fst_string o = Some None /\ t = "<non_string_fst>").
Proof. exact text_is. Qed.
Print Assumptions C82_text.
(** ... but its alias may be. *)
Theorem C82_alias_refuted : exists o, alias_of o = "" /\ text_of o <> "".
Proof. exact alias_empty. Qed.
Print Assumptions C82_alias_refuted.
Theorem C82_name : forall o, name_of o =
  match name_attr o, dunder_name o, alias_attr o with
  | Some n, _, _ => n | None, Some n, _ => n | None, None, Some n => n | None, None, None => text_of o
  end.
Proof. exact name_is. Qed.
Print Assumptions C82_name.
Theorem C82_texts : forall args, class_and_texts args = String.concat ", " (map (fun o => class_name o ++ "_" ++ text_of o)%string args).
Proof. exact texts_join. Qed.
Print Assumptions C82_texts.

(** Every log function names the function that called it, or that function's k-th caller,
    and returns its value. *)
Theorem C82_caller : forall stack k f m (contains : obj -> obj -> bool) a b, nth_error stack k = Some f ->
  let at_ text := (file_name f ++ "/" ++ function_name f ++ ": " ++ text)%string in
  dbg_message true stack m k = Returns tt [at_ m] /\
  (forall A (as_obj : A -> obj) v, dbg_return true as_obj stack v m k = Returns v [at_ (return_message (as_obj v) m)]) /\
  dbg_return_true true stack m k = Returns true [at_ (return_message (bool_obj true) m)] /\
  dbg_return_false true stack m k = Returns false [at_ (return_message (bool_obj false) m)] /\
  dbg_return_in true contains stack a b m k =
    Returns (contains b a) [at_ (return_message (bool_obj (contains b a)) (in_message a b m))].
Proof. exact caller_named. Qed.
Print Assumptions C82_caller.
Theorem C82_returns : forall o m, return_message o m =
  (if String.eqb m "" then "returns " ++ text_of o else "returns " ++ text_of o ++ ", detail: " ++ m)%string.
Proof. exact returns_detail. Qed.
Print Assumptions C82_returns.
(** Without debugging nothing is logged. *)
Theorem C82_silent : forall stack k m (contains : obj -> obj -> bool) a b,
  dbg_message false stack m k = Returns tt [] /\
  (forall A (as_obj : A -> obj) v, dbg_return false as_obj stack v m k = Returns v []) /\
  dbg_return_true false stack m k = Returns true [] /\ dbg_return_false false stack m k = Returns false [] /\
  dbg_return_in false contains stack a b m k = Returns (contains b a) [].
Proof. exact silent. Qed.
Print Assumptions C82_silent.
(** The value does not depend on debugging, unless the caller asked for is beyond the stack. *)
Theorem C82_value : forall debug A (as_obj : A -> obj) stack v m k, k < List.length stack ->
  exists log, dbg_return debug as_obj stack v m k = Returns v log /\ List.length log = if debug then 1 else 0.
Proof. exact @same_value. Qed.
Print Assumptions C82_value.
Theorem C82_value_refuted : exists (stack : list frame) k, forall A (as_obj : A -> obj) v m,
  dbg_return false as_obj stack v m k = Returns v [] /\ dbg_return true as_obj stack v m k = IndexError.
Proof. exact debug_matters. Qed.
Print Assumptions C82_value_refuted.

(** type_op.py/is_none: returns False, detail: int_0 *)
Example C82_example : let zero := Obj None None None None None "0" "int" in
  dbg_return_false true [Frame "type_op.py" "is_none"; Frame "main.py" "main"] (class_and_texts [zero]) 0 =
    Returns false ["type_op.py/is_none: returns False, detail: int_0"] /\
  dbg_message true [Frame "type_op.py" "is_none"; Frame "main.py" "main"] "x" 1 = Returns tt ["main.py/main: x"] /\
  dbg_return_in true (fun _ _ => true) [Frame "a.py" "f"] zero (Obj (Some "") None None None None "" "Thing") "" 0 =
    Returns true ["a.py/f: returns True, detail: int_0 in <no_text>"] /\
  text_of (Obj None None None None (Some None) "fst" "Fst") = "<non_string_fst>" /\
  name_of (Obj None (Some "a") None (Some "int") None "" "type") = "int".
Proof. vm_compute. repeat split. Qed.
