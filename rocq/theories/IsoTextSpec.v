(** How a Brahmic text is romanized, letter by letter from left to right.  No costs and no alternatives. *)
From Verif Require Import Base VisualModel ScriptData ScriptTables.

Inductive letter := Consonant (o : str) | Subjoined (o : str) | Sign (o : str) | Virama | Vowel (o : str) | Other (o : str).
Fixpoint romanized (f : string_file) (x : str) : option str :=
  match f with
  | [] => None
  | (i, o) :: f' => if str_eqb i x then Some (match o with Some t => t | None => i end) else romanized f' x
  end.
Definition orelse {A} (a b : option A) : option A := match a with Some _ => a | None => b end.
Definition letter_of (d : script_data) (x : str) : option letter :=
  orelse (option_map Consonant (romanized (sd_consonant d) x))
  (orelse (option_map Subjoined (romanized (sd_subjoined_consonant d) x))
  (orelse (option_map Sign (romanized (sd_vowel_sign d) x))
  (orelse (option_map (fun _ => Virama) (romanized (sd_virama d) x))
  (orelse (option_map Vowel (romanized (sd_vowel d) x))
  (option_map Other (romanized (sd_coda d ++ sd_standalone d ++ sd_dead_consonant d ++ sd_vowel_length_sign d ++ [([8204%N], Some [124%N]); ([8205%N], Some [43%N])]) x)))))).
(** The longest letter at the start of a text and its length; letters have up to four characters. *)
Definition first_letter (d : script_data) (x : str) : option (nat * letter) :=
  let try n := match letter_of d (firstn n x) with Some l => Some (length (firstn n x), l) | None => None end in
  orelse (try 4) (orelse (try 3) (orelse (try 2) (try 1))).
Fixpoint letters (d : script_data) (skip : nat) (x : str) : option (list letter) :=
  match x with
  | [] => Some []
  | _ :: r =>
    match skip with
    | S k => letters d k r
    | O => match first_letter d x with
           | Some (n, l) => option_map (cons l) (letters d (n - 1) r)
           | None => None
           end
    end
  end.
Definition inherent (d : script_data) : option str := match sd_inherent_vowel d with (v, _) :: _ => Some v | [] => None end.

(** Where the reader is: nothing is open; a consonant waits for its vowel and may or may not be followed by a subjoined consonant;
    a vowel that follows is put after a dot. *)
Inductive place := Fresh | Waiting (subjoined : bool) | Dotted.
Definition write (o : option str) (r : option str) : option str := match o, r with Some a, Some b => Some (a ++ b) | _, _ => None end.
Fixpoint read (v : option str) (p : place) (x : list letter) : option str :=
  match x with
  | [] => match p with Waiting _ => v | _ => Some [] end
  | c :: r =>
    match p, c with
    | Waiting _, Sign o => write (Some o) (read v Dotted r)
    | Waiting _, Virama => read v Dotted r
    | Waiting true, Subjoined o => write (Some o) (read v (Waiting false) r)
    | Waiting _, Vowel o => write v (write (Some (46%N :: o)) (read v Dotted r))
    | Dotted, Vowel o => write (Some (46%N :: o)) (read v Dotted r)
    | _, _ =>
      write (match p with Waiting _ => v | _ => Some [] end)
        match c with
        | Consonant o => write (Some o) (read v (Waiting true) r)
        | Vowel o => write (Some o) (read v Dotted r)
        | Sign o => write (Some (45%N :: o)) (read v Dotted r)
        | Virama => write (Some [728%N]) (read v Fresh r)
        | Other o => write (Some o) (read v Fresh r)
        | Subjoined _ => None
        end
    end
  end.
Definition romanize (d : script_data) (x : str) : option str :=
  match letters d 0 x with Some l => read (inherent d) Fresh l | None => None end.

(** The scripts in which this gives the romanization of every text *)
Definition longest_scripts : list script_data :=
  [data_Bugi; data_Deva; data_Gujr; data_Guru; data_Lepc; data_Limb; data_Mlym; data_Mtei; data_Newa; data_Orya; data_Sinh; data_Sylo; data_Takr; data_Taml; data_Telu; data_Tglg; data_Thaa; data_Tirh].
(** In Bengali a nukta is no letter of its own: after these long letters there is none.  In Kannada the vowel AE is not followed by a virama. *)
Definition bengali_odd : list str := [[2480; 8205; 2509; 2479; 2492]; [2437; 2509; 2479; 2494; 2492]; [2447; 2509; 2479; 2494; 2492]; [2441; 2494; 2492]]%N.
Definition kannada_odd : list str := [[3206; 3277; 3247; 3277]]%N.
Definition lacks (odd : list str) (x : str) : Prop := forall o, In o odd -> ~ exists a b, x = a ++ o ++ b.
