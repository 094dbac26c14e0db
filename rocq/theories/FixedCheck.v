(** Finite checks on the units of a typed Malayalam text. *)
From Verif Require DeromTexts.
From Verif Require Import Base RuleModel RuleSpec ScriptData ScriptTables IsoPieceSpec IsoTextSpec IsoText IsoLongest FixedTables FixedModel FixedSpec FixedJoin.

Definition dot_before (k : kind) (after : option kind) : bool :=
  match k, after with Independent, Some (Syllable | Half | Joined | Independent) => true | _, _ => false end.
Definition tag := (unit * bool)%type.
Definition tag_allowed (a b : tag) : bool := if may_follow (fst a) (fst b) then Bool.eqb (snd b) (dot_before (fst (fst b)) (Some (fst (fst a)))) else false.
Definition piece_of (u : unit) (dot : bool) : tag * str := ((u, dot), (if dot then [46%N] else []) ++ snd (snd u)).
Definition all_pieces : list (tag * str) := map (fun u => piece_of u false) units ++ flat_map (fun u => match fst u with Independent => [piece_of u true] | _ => [] end) units.
Lemma pieces_apart : apart _ tag_allowed fixed_Mlym all_pieces = true. Proof. vm_cast_no_check (eq_refl true). Qed.

(** The letters of a text of a script whose letters are single characters *)
Fixpoint chars (d : script_data) (x : str) : option (list letter) :=
  match x with
  | [] => Some []
  | c :: r => match letter_of d [c], chars d r with Some l, Some t => Some (l :: t) | _, _ => None end
  end.
(** What is read of some letters: what is written, and where the reader is then *)
Fixpoint run (inh : str) (p : place) (x : list letter) : option (str * place) :=
  match x with
  | [] => Some ([], p)
  | c :: r =>
    let add o p' := match run inh p' r with Some (t, q) => Some (o ++ t, q) | None => None end in
    match p, c with
    | Waiting _, Sign o => add o Dotted
    | Waiting _, Virama => add [] Dotted
    | Waiting true, Subjoined o => add o (Waiting false)
    | Waiting _, Vowel o => add (inh ++ 46%N :: o) Dotted
    | Dotted, Vowel o => add (46%N :: o) Dotted
    | _, _ =>
      let before := match p with Waiting _ => inh | _ => [] end in
      match c with
      | Consonant o => add (before ++ o) (Waiting true)
      | Vowel o => add (before ++ o) Dotted
      | Sign o => add (before ++ 45%N :: o) Dotted
      | Virama => add (before ++ [728%N]) Fresh
      | Other o => add (before ++ o) Fresh
      | Subjoined _ => None
      end
    end
  end.
(** A unit is read the same whatever stands around it *)
Definition left_at (k : kind) : place := match k with Mark | Quiet => Fresh | _ => Dotted end.
Definition settled (inh : str) (r : option (str * place)) : option (str * place) :=
  match r with
  | Some (o, Waiting _) => Some (o ++ inh, Dotted)
  | _ => r
  end.
Definition place_eqb (p q : place) : bool := match p, q with Fresh, Fresh | Dotted, Dotted => true | _, _ => false end.
Definition head_ok (l : list letter) : bool := match l with (Consonant _ | Vowel _ | Other _) :: _ => true | _ => false end.
Definition read_ok (rs : list rule) (inh : str) (l : list letter) (p : place) (u : unit) (dot : bool) : bool :=
  match settled inh (run inh p l) with
  | Some (o, q) => if place_eqb q (left_at (fst u)) then str_eqb o (cascade rs (snd (piece_of u dot))) else false
  | None => false
  end.
Definition independent (k : kind) : bool := match k with Independent => true | _ => false end.
Definition unit_ok (rs : list rule) (d : script_data) (inh : str) (u : unit) : bool :=
  match chars d (fst (snd u)) with
  | Some l => if head_ok l then if read_ok rs inh l Fresh u false then read_ok rs inh l Dotted u (independent (fst u)) else false else false
  | None => false
  end.
Lemma units_ok : forallb (unit_ok fixed_Mlym data_Mlym [97%N]) units = true. Proof. vm_cast_no_check (eq_refl true). Qed.
(** all letters of the script are single characters *)
Lemma single_letters : forallb (fun f => forallb (fun r => match fst r with [_] => true | _ => false end) f) (letter_tables data_Mlym) = true.
Proof. vm_cast_no_check (eq_refl true). Qed.
Definition over_ok (u : unit) : bool :=
  if over (script_sigma data_Mlym) (fst (snd u)) then over ascii_input_chars (snd (snd u)) else false.
Lemma units_over : forallb over_ok units = true. Proof. vm_cast_no_check (eq_refl true). Qed.
Lemma units_nfc : forallb (fun r => DeromTexts.lhs_free (map (fun u => fst (snd u)) units) (lhs r)) (sd_nfc data_Mlym) = true. Proof. vm_cast_no_check (eq_refl true). Qed.
Definition nonempty_lhs_b (rs : list rule) : bool := forallb (fun r => match lhs r with [] => false | _ => true end) rs.
Lemma fixed_nonempty_b : nonempty_lhs_b fixed_Mlym = true. Proof. vm_cast_no_check (eq_refl true). Qed.
(** every letter is in the alphabet *)
Lemma letters_over : forallb (fun f => forallb (fun r => over (script_sigma data_Mlym) (fst r)) f) (letter_tables data_Mlym) = true.
Proof. vm_cast_no_check (eq_refl true). Qed.
