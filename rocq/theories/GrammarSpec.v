(** What loading, rewriting and cascades are meant to give. *)
From Coq Require Import Ascii String.
From Verif Require Import Base GrammarModel SharedModel.
Local Open Scope list_scope.

(** An output of least cost *)
Definition least_output (l : lattice) (t : str) : Prop :=
  exists w, In (t, w) l /\ forall p, In p l -> (w <= snd p)%N.
(** The last entry of an archive with that name *)
Definition last_entry (l : archive) (k : str) (f : wfst) : Prop :=
  exists a b, l = a ++ (k, f) :: b /\ ~ In k (map fst b).
(** [present m name]: the archive has a rule of that name *)
Definition present (m : archive) (name : str) : Prop := exists f, get_fst m name = Some f.
(** ASCII letters in lower or upper case *)
Definition small (s : str) : str := map (fun c => if N.leb 65 c && N.leb c 90 then c + 32 else c)%N s.
Definition capital (s : str) : str := map (fun c => if N.leb 97 c && N.leb c 122 then c - 32 else c)%N s.
(** Languages and their scripts *)
Definition scripts_of_languages : list (string * string) :=
  [("bn", "Beng"); ("gu", "Gujr"); ("hi", "Deva"); ("kn", "Knda"); ("ml", "Mlym"); ("mr", "Deva");
   ("or", "Orya"); ("pa", "Guru"); ("si", "Sinh"); ("ta", "Taml"); ("te", "Telu")]%string.
Definition letters_of (s : string) : str := map N_of_ascii (list_ascii_of_string s).
(** The name that is used: the given one, or the script of the language *)
Definition resolves (m : archive) (name name' : str) : Prop :=
  present m name /\ name' = name \/
  ~ present m name /\ exists language script, In (language, script) scripts_of_languages /\ small name = letters_of language /\ name' = capital (letters_of script) /\ present m name'.
(** A path through FSTs one after another *)
Inductive through : list wfst -> str -> str -> N -> Prop :=
| th_end s : through [] s s 0
| th_step (f : wfst) fs s u t v w : In (u, v) (f s) -> through fs u t w -> through (f :: fs) s t (v + w).
(** Rules without parentheses, and their FSTs *)
Definition plain (m : archive) (t : triple) (f : wfst) : Prop :=
  get_fst m (main_rule t) = Some f /\ parens_rule t = [] /\ assign_rule t = [].
(** Rewriting to a string with one rule after another *)
Fixpoint one_by_one (pdt : lattice -> wfst -> wfst -> option wfst -> lattice) (m : archive) (rules : list triple) (s : str) : option str :=
  match rules with
  | [] => Some s
  | t :: rules' => match rewrite_bytes pdt m t s with Some u => one_by_one pdt m rules' u | None => None end
  end.
Definition no_zero (s : str) : Prop := ~ In 0%N s.
Definition no_separator (s : str) : Prop := ~ In 36%N s /\ ~ In 58%N s.

(** Managers given to a shared_ptr, when [n] managers were made before *)
Fixpoint owned (n : nat) (l : list op) : list nat :=
  match l with
  | [] => []
  | Make :: l' => n :: owned (S n) l'
  | Raw :: l' => owned (S n) l'
  | Adopt p :: l' => p :: owned n l'
  | Copy _ :: l' | Destroy _ :: l' => owned n l'
  end.
