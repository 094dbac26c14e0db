(** Model of nisaba/scripts/natural_translit/utils/log_op.py: texts that stand for
    objects, and log messages with the place they come from.  An object is what these
    functions ask of it; the call stack is a list of frames, the innermost first. *)
From Coq Require Import String Ascii.
From Verif Require Import Base.
Local Open Scope string_scope.
Local Open Scope list_scope.

Record obj := Obj {
  text_attr : option string; alias_attr : option string; name_attr : option string; dunder_name : option string;
  fst_string : option (option string);  (* for an Fst: its string, if it has just one *)
  as_str : string; class_name : string }.

(** lines 112-113 *)
Definition class_of (o : obj) : string := class_name o.
(** lines 116-126 *)
Definition text_of (o : obj) : string :=
  let text := match text_attr o with
              | Some t => t
              | None => match fst_string o with
                        | Some (Some t) => t
                        | Some None => "<non_string_fst>"
                        | None => as_str o
                        end
              end in
  match text with EmptyString => "<no_text>" | _ => text end.
(** lines 129-138 *)
Definition alias_of (o : obj) : string := match alias_attr o with Some a => a | None => text_of o end.
Definition name_of (o : obj) : string :=
  match name_attr o with
  | Some n => n
  | None => match dunder_name o with Some n => n | None => alias_of o end
  end.
(** lines 141-154 *)
Definition class_and_alias (o : obj) : string := class_of o ++ "_" ++ alias_of o.
Definition class_and_text (o : obj) : string := class_of o ++ "_" ++ text_of o.
Fixpoint class_and_texts (args : list obj) : string :=
  match args with
  | [] => ""
  | [o] => class_and_text o
  | o :: args' => (class_and_text o ++ ", " ++ class_and_texts args')%string
  end.
Definition from_class_and_text (o : obj) : string := "from:" ++ class_and_text o.

(** A frame: the name of the file without its directories, and the function *)
Record frame := Frame { file_name : string; function_name : string }.
(** The value returned and the messages logged *)
Inductive result (A : Type) := Returns (a : A) (log : list string) | IndexError.
Arguments Returns {A}. Arguments IndexError {A}.

Definition here (f : string) : frame := Frame "log_op.py" f.
Section Log.
  (** logging.level_debug() *)
  Variable debug : bool.

  (** lines 39-56; the stack begins with the frame of this function *)
  Definition add_caller (stack : list frame) (message : string) (callstack_index : nat) : option string :=
    match nth_error (here "_add_caller" :: stack) callstack_index with
    | None => None
    | Some f => Some (file_name f ++ "/" ++ function_name f ++ ": " ++ message)%string
    end.
  (** lines 59-70 *)
  Definition return_message (return_value : obj) (message : string) : string :=
    let m := ("returns " ++ text_of return_value)%string in
    match message with EmptyString => m | _ => (m ++ ", detail: " ++ message)%string end.
  Definition in_message (look_for look_in : obj) (message : string) : string :=
    let m := (class_and_text look_for ++ " in " ++ text_of look_in)%string in
    match message with EmptyString => m | _ => (m ++ ", " ++ message)%string end.

  (** lines 78-80; [stack] is the stack of the caller *)
  Definition dbg_message (stack : list frame) (message : string) (callstack_index : nat) : result unit :=
    if debug then
      match add_caller (here "dbg_message" :: stack) message (callstack_index + 2) with
      | Some m => Returns tt [m]
      | None => IndexError
      end
    else Returns tt [].
  (** lines 83-88, for a value and the object it is *)
  Definition dbg_return {A} (as_obj : A -> obj) (stack : list frame) (return_value : A) (message : string) (callstack_index : nat)
    : result A :=
    if debug then
      match dbg_message (here "dbg_return" :: stack) (return_message (as_obj return_value) message) (callstack_index + 1) with
      | Returns _ log => Returns return_value log
      | IndexError => IndexError
      end
    else Returns return_value [].
  Definition bool_obj (b : bool) : obj :=
    Obj None None None None None (if b then "True" else "False") "bool".
  (** lines 91-106; membership is decided by the objects *)
  Definition dbg_return_true (stack : list frame) (message : string) (callstack_index : nat) : result bool :=
    dbg_return bool_obj (here "dbg_return_true" :: stack) true message (callstack_index + 1).
  Definition dbg_return_false (stack : list frame) (message : string) (callstack_index : nat) : result bool :=
    dbg_return bool_obj (here "dbg_return_false" :: stack) false message (callstack_index + 1).
  Definition dbg_return_in (contains : obj -> obj -> bool) (stack : list frame) (look_for look_in : obj) (message : string)
    (callstack_index : nat) : result bool :=
    dbg_return bool_obj (here "dbg_return_in" :: stack) (contains look_in look_for) (in_message look_for look_in message)
      (callstack_index + 1).
End Log.
