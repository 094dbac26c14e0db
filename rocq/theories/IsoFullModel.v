(** The exported conversions FROM_<SCRIPT> and TO_<SCRIPT>: romanization after NFC, and
    its inverse followed by NFC. *)
From Verif Require Import Base RuleModel VisualModel ScriptData ScriptModel IsoModel.

(** What a shortest path gives: the outputs of least cost *)
Definition best_among (l : list (str * N)) : list str :=
  match least l with
  | None => []
  | Some m => map fst (filter (fun p => N.eqb (snd p) m) l)
  end.
(** iso.py:142-171 _script_fsts.  Composing two FSTs is RuleModel's [compose] with the
    costs of the weighted one; NFC has no costs.  [None] if the NFC rules are cyclic. *)
Definition from_script (ns : fst_t -> nat) (d : script_data) (x : str) : option (list (str * N)) :=
  match script_nfc ns d with
  | Some nfc => Some (flat_map (outs (iso_wt d)) (nfc x))
  | None => None
  end.
Definition to_script (ns : fst_t -> nat) (d : script_data) (y : str) : option (list (str * N)) :=
  match script_nfc ns d with
  | Some nfc => Some (flat_map (fun '(z, w) => map (fun t => (t, w)) (nfc z)) (outs (w_invert (iso_wt d)) y))
  | None => None
  end.
