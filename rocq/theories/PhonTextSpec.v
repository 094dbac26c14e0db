(** What romanization of phonemes should do. *)
From Coq Require Import String List NArith.
From Verif Require Import Base AlignSpec PhonTables PhonModel.
Import ListNotations.
Local Open Scope list_scope.

Definition code (s : string) : str := map Ascii.N_of_ascii (list_ascii_of_string s).
(** A text of phonemes as symbols *)
Definition symbols (c : part) : list tok := map (fun t => Ph (code t)) (ph c).
Definition text (ps : list phon) : list tok := flat_map (fun p => symbols (body p)) ps.
Definition plus : tok := Ph [43%N].
Definition deleted : tok := Tr [68; 69; 76]%N.
Definition is_translit (t : tok) : Prop := match t with Tr _ => True | _ => False end.
(** Without the symbol that stands for nothing *)
Definition visible (w : list tok) : list tok :=
  filter (fun t => match t with Tr [68; 69; 76]%N => false | _ => true end) w.
(** One piece of text is replaced by one of the possible texts *)
Definition piecewise (R : phon -> list tok -> Prop) (ps : list phon) (out : list tok) : Prop :=
  exists os, Forall2 R ps os /\ out = concat os.
(** Transliterations are written with the small names of the characters *)
Definition small_code (s : string) : str := map (fun c => if N.leb 65 c then if N.leb c 90 then (c + 32)%N else c else c) (code s).
Definition letter_symbol (a : string) : tok := if String.eqb a "DEL" then deleted else Tr (small_code a).
Definition letters_of_names (l : list string) : list tok := map letter_symbol l.
(** Base transliteration, or for composites that of the parts with the combiner between *)
Definition base_piece (p : phon) (o : list tok) : Prop :=
  exists x, get "base" (tr_dict (body p)) = Some (Text x) /\
    (o = letters_of_names x \/ exists a b y z, cmp p = [a; b] /\ get "base" (tr_dict a) = Some (Text y) /\ get "base" (tr_dict b) = Some (Text z) /\
       o = letters_of_names y ++ plus :: letters_of_names z).
(** Phons of a class are written as the transliteration of the class, others stay *)
Definition class_piece (k : string) (p : phon) (o : list tok) : Prop :=
  (hd_error (ftr (body p)) = Some k /\ exists x, get k (tr_dict (body p)) = Some (Text x) /\ o = letters_of_names x) \/
  (hd_error (ftr (body p)) <> Some k /\ o = symbols (body p)).
(** Diphthongs and affricates as such, others by their base *)
Definition best_piece (p : phon) (o : list tok) : Prop :=
  exists k x, (hd_error (ftr (body p)) = Some k /\ In k ["diphthong"; "affricate"]%string \/
     k = "base"%string /\ hd_error (ftr (body p)) <> Some "diphthong"%string /\ hd_error (ftr (body p)) <> Some "affricate"%string) /\
    get k (tr_dict (body p)) = Some (Text x) /\ o = letters_of_names x.
