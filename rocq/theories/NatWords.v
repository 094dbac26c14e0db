(** Texts in which the special sounds occur: names of letters, in the order of [special]. *)
From Coq Require Import String.
From Verif Require Import Base NatModel.
Local Open Scope string_scope.
Local Open Scope list_scope.

Definition sound_words (l : lang) : list string :=
  match l with
  | Hi => ["k an"; "ind an"; "ind a"; "k a i"; "ind a i"; "k a u"; "ind a u"; "vcl"; "k l vcl"; "k r vcl"; "k l vcl long"; "k r vcl long"; "ind l vcl"; "ind r vcl"; "ind l vcl long"; "ind r vcl long"; "ans m"; "ans a"; "ans c"; "ans tt"; "ans k"; "a a"; "a a asp"; "j ny"; "p asp p asp"]
  | Bn => ["ind a"; "vcl"; "k l vcl"; "k r vcl"; "k l vcl long"; "k r vcl long"; "ind l vcl"; "ind r vcl"; "ind l vcl long"; "ind r vcl long"; "a a"; "a a asp"; "ans"; "j ny"; "yy"; "ind oo yy"; "b asp b asp"; "k b"; "p asp"]
  | Ta => ["vcl"; "k l vcl"; "k r vcl"; "k l vcl long"; "k r vcl long"; "ind l vcl"; "ind r vcl"; "ind l vcl long"; "ind r vcl long"; "ans"; "ans t"; "ans c"; "ans tt"; "ans k"; "a a"; "rr rr"; "na rr"; "ind aa k a"; "ind aa p a"; "ind aa t a"; "ind aa tt a"; "ind aa ta a"; "c a"; "ny c a"; "ind aa k chl a"; "j ny"]
  | Gu => ["k an"; "ind an"; "ind a"; "k a i"; "ind a i"; "k a u"; "ind a u"; "vcl"; "k l vcl"; "k r vcl"; "k l vcl long"; "k r vcl long"; "ind l vcl"; "ind r vcl"; "ind l vcl long"; "ind r vcl long"; "ans m"; "ans"; "ans c"; "ans tt"; "ans k"; "a a"; "a a asp"; "j ny"; "p asp"]
  | Kn => ["vcl"; "k l vcl"; "k r vcl"; "k l vcl long"; "k r vcl long"; "ind l vcl"; "ind r vcl"; "ind l vcl long"; "ind r vcl long"; "ans"; "ans t"; "ans c"; "ans tt"; "ans k"; "a a"; "j ny"; "r"; "r chl"; "r eye"]
  | Te => ["vcl"; "k l vcl"; "k r vcl"; "k l vcl long"; "k r vcl long"; "ind l vcl"; "ind r vcl"; "ind l vcl long"; "ind r vcl long"; "ans"; "ans t"; "ans c"; "ans tt"; "ans k"; "a a"; "j ny"]
  | Ml => ["vcl"; "k l vcl"; "k r vcl"; "k l vcl long"; "k r vcl long"; "ind l vcl"; "ind r vcl"; "ind l vcl long"; "ind r vcl long"; "ans"; "ans t"; "ans c"; "ans tt"; "ans k"; "a a"; "rr rr"; "ind aa k"; "ind aa p"; "ind aa t"; "ind aa tt"; "ind aa ta"; "ind aa c"; "ind aa k chl a"; "ind aa k asp"; "ind aa p asp"; "ind aa t asp"; "ind aa tt asp"; "ind aa c asp"; "j ny"]
  | Mr => ["k an"; "ind an"; "ind a"; "k a i"; "ind a i"; "k a u"; "ind a u"; "vcl"; "k l vcl"; "k r vcl"; "k l vcl long"; "k r vcl long"; "ind l vcl"; "ind r vcl"; "ind l vcl long"; "ind r vcl long"; "m h"; "ans m"; "ans"; "ans c"; "ans tt"; "ans k"; "a a"; "a a asp"; "j ny"; "p asp"]
  | Pa => ["add b"; "add c"; "add c"; "add d"; "add dd"; "add f"; "add g"; "add gg"; "add h"; "add j"; "add k"; "add l"; "add ll"; "add lr"; "add m"; "add n"; "add ny"; "add ng"; "add nn"; "add na"; "add p"; "add q"; "add r"; "add rd"; "add rr"; "add s"; "add sh"; "add ss"; "add t"; "add tt"; "add ta"; "add v"; "add x"; "add y"; "add yy"; "add z"; "add vis"; "add vis_ta"; "add upadh"; "add jihva"; "add b asp"; "add c asp"; "add c asp"; "add d asp"; "add dd asp"; "add g asp"; "add j asp"; "add k asp"; "add p asp"; "add rd asp"; "add t asp"; "add tt asp"; "add k chl"; "add l chl"; "add ll chl"; "add n chl"; "add nn chl"; "add rr chl"; "add r chl"; "add r eye"; "add l vcl"; "add r vcl"; "add ind l vcl"; "add ind r vcl"; "add ind l vcl long"; "add ind r vcl long"; "add l vcl long"; "add r vcl long"; "add b asp k asp"; "add c asp k asp"; "add c asp k asp"; "add d asp k asp"; "add dd asp k asp"; "add g asp k asp"; "add j asp k asp"; "add k asp k asp"; "add p asp k asp"; "add rd asp k asp"; "add t asp k asp"; "add tt asp k asp"; "add yy k asp"; "add p asp"; "add p asp k asp"; "b asp k asp"; "asp k asp"; "c asp k asp"; "d asp k asp"; "dd asp k asp"; "g asp k asp"; "j asp k asp"; "k asp k asp"; "rd asp k asp"; "t asp k asp"; "tt asp k asp"; "yy k asp"; "k an"; "ind an"; "ind a"; "k a i"; "ind a i"; "k a u"; "ind a u"; "vcl"; "k l vcl"; "k r vcl"; "k l vcl long"; "k r vcl long"; "ind l vcl"; "ind r vcl"; "ind l vcl long"; "ind r vcl long"; "ans m"; "ans t"; "ans c"; "ans tt"; "ans k"; "tip m"; "tip t"; "tip c"; "tip tt"; "tip k"; "ind u ans"; "k oo ind aa ans"; "ans v a"; "a a"; "a a asp"; "p asp"]
  end.
(** Letters of a word *)
Fixpoint split_names (s cur : str) : list str :=
  match s with [] => [rev cur] | c :: s' => if N.eqb c 32 then rev cur :: split_names s' [] else split_names s' (c :: cur) end.
Definition letters_named (w : string) : list bchar := flat_map (fun n => filter (fun c => str_eqb (bytes (btyp c)) n) SINGLE_POINT) (split_names (bytes w) []).
