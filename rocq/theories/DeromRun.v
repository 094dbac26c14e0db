(** Deromanizers from letters to texts. *)
From Coq Require Import String.
From Verif Require Import Base RuleModel RegexModel RegexProofs IsoModel AlignModel AlignSpec AlignProofs AlignMore NatModel NatSpec NatProofs NatBytes NatBlocks NatBlocksProofs NatTyp NatTypMain DeromModel DeromBytes DeromPieces DeromSpec DeromReading DeromText DeromIso.
Local Open Scope list_scope.

(** ** Conditions on operations as tests *)
Definition plainb (t : tok) : bool := match t with Gr (_ :: _) | Tr (_ :: _) => true | _ => false end.
Lemma plainb_ok t : plainb t = true -> plain t. Proof. destruct t as [[|]|[|]|[|]|]; cbn; try discriminate; discriminate. Qed.
Fixpoint ends_trb (r : tre) : bool :=
  match r with
  | TWords l => forallb (fun w : word => match rev w with Tr (_ :: _) :: _ => true | _ => false end) l
  | TCat _ b => ends_trb b
  | _ => false
  end.
Lemma ends_trb_ok r : ends_trb r = true -> ends_tr r.
Proof.
  induction r as [l| | |a _ b IH|a _ b _|a _|a _]; cbn [ends_trb]; try discriminate; intros H w M.
  - apply words_inv in M. pose proof (proj1 (forallb_forall _ _) H _ M) as K. cbn beta in K. destruct (rev w) as [|[| |[|c n]|] u] eqn:E; try discriminate K. exists (rev u), (c :: n). split; [|discriminate]. rewrite <- (rev_involutive w), E. reflexivity.
  - apply tcat_inv in M as (x & y & -> & _ & M). destruct (IH H y M) as (y' & n & -> & N). exists (x ++ y'), n. rewrite <- app_assoc. auto.
Qed.
Definition plain_opb (o : op) : bool :=
  match o with
  | Rewrite rs p f => if forallb ruleb rs then if ctxb p then if ctxb f then forallb (fun q : word * word => forallb plainb (snd q)) rs else false else false else false
  | Insert new (Some (_, r)) f => if forallb symbolb new then if reb r then if ctxb f then if ends_trb r then forallb plainb new else false else false else false else false
  | _ => false
  end.
Lemma ctxb_ok c : ctxb c = true -> symbols_ctx c. Proof. destruct c as [[e r]|]; cbn; [apply reb_ok|trivial]. Qed.
Lemma plain_opb_ok o : plain_opb o = true -> plain_op o.
Proof.
  destruct o as [rs p f|new [[e r]|] f|l]; cbn [plain_opb]; try discriminate.
  - destruct (forallb ruleb rs) eqn:A; [|discriminate]. destruct (ctxb p) eqn:B; [|discriminate]. destruct (ctxb f) eqn:C; [|discriminate]. intros D. split; [split; [exact (forallb_Forall _ _ _ ruleb_ok A)|split; apply ctxb_ok; assumption]|]. cbn [writes]. apply (forallb_Forall (fun q : word * word => forallb plainb (snd q))); [|exact D]. intros q H. exact (forallb_Forall _ _ _ plainb_ok H).
  - destruct (forallb symbolb new) eqn:A; [|discriminate]. destruct (reb r) eqn:B; [|discriminate]. destruct (ctxb f) eqn:C; [|discriminate]. destruct (ends_trb r) eqn:D; [|discriminate]. intros E. split; [split; [exact (forallb_Forall _ _ _ symbolb_ok A)|split; [apply reb_ok; exact B|split; [apply ctxb_ok; exact C|apply ends_trb_ok; exact D]]]|]. exact (forallb_Forall _ _ _ plainb_ok E).
Qed.
Definition one_opb (o : op) : bool :=
  match o with Rewrite rs _ _ => if forallb (fun q : word * word => match fst q with [] => false | _ => true end) rs then apartb rs else false | Insert _ _ _ => true | Pairs _ => false end.
Lemma one_opb_ok o : one_opb o = true -> one_op o.
Proof.
  destruct o as [rs p f|new p f|l]; cbn [one_opb one_op]; [|trivial|discriminate]. destruct (forallb _ rs) eqn:E; [|discriminate]. intros A. split; [|exact A].
  revert E. apply forallb_Forall. intros q H K. cbn beta in H. rewrite K in H. discriminate H.
Qed.
Definition good_opb (o : op) : bool :=
  match o with Rewrite rs _ _ => forallb (fun q : word * word => match fst q, snd q with _ :: _, _ :: _ => if forallb grapheme (fst q) then forallb translit (snd q) else false | _, _ => false end) rs | _ => false end.
Lemma good_opb_ok o : good_opb o = true -> good_op o.
Proof.
  destruct o as [rs p f| |]; cbn [good_opb good_op]; try discriminate. apply forallb_Forall. intros [l r] H. unfold good_rule. cbn [fst snd] in *. destruct l as [|t l]; [discriminate H|]. destruct r as [|u r]; [discriminate H|]. destruct (forallb grapheme (t :: l)) eqn:E; [|discriminate H]. split; [discriminate|split; [reflexivity|split; [discriminate|exact H]]].
Qed.

(** ** Runs *)
Lemma letters_symbols w : Forall lower w -> Forall symbol (letters_of w) /\ Forall plain (letters_of w) /\ forallb is_letter (letters_of w) = true /\ forallb grapheme (letters_of w) = true.
Proof.
  induction 1 as [|c w H _ (A & B & C & D)]; [repeat split; constructor|]. cbn [letters_of map forallb] in *. unfold lower in H. split; [constructor; [constructor; [right; left; exact H|constructor]|exact A]|]. split; [constructor; [discriminate|exact B]|]. split; [|exact D].
  cbn [is_letter]. destruct H as [H1 H2]. apply N.leb_le in H1. apply N.leb_le in H2. rewrite H1, H2. exact C.
Qed.
Lemma letters_inj a b : letters_of a = letters_of b -> a = b.
Proof. revert b. induction a as [|c a IH]; intros [|d b] E; try discriminate E; [reflexivity|]. cbn in E. injection E as -> E. f_equal. auto. Qed.
Definition run_letters (ops : list op) (printer : wt) (w : str) : list str := flat_map (fun t => map fst (outs printer t)) (flat_map (run_bytes ops) (map fst (outs ltn2typ w))).
Lemma run_letters_only ops tab w out o : Forall plain_op ops -> Forall one_op ops -> Forall (fun p : tok * str => symbol (fst p)) tab -> Forall lower w -> performs_all ops (letters_of w) out -> values tab out = Some o -> only o (run_letters ops (WStar (WPairs (table_pairs tab))) w).
Proof.
  intros Po Oo St Lw P V x. destruct (letters_symbols w Lw) as (Sw & Pw & _). destruct (plain_all ops _ _ Po P Sw Pw) as [So _]. pose proof (print_values tab out o St So V) as Q. unfold run_letters. rewrite in_flat_map. split.
  - intros (t & It & Ix). apply in_flat_map in It as (r & Ir & It). apply read_letters in Ir as [_ ->]. apply (run_plain ops Po _ _ Sw Pw) in It as (out' & P' & ->). rewrite (performs_all_unique _ _ _ Oo P' _ P) in Ix. apply Q. exact Ix.
  - intros ->. exists (encs out). split; [|apply Q; reflexivity]. apply in_flat_map. exists (encs (letters_of w)). split; [apply read_letters; auto|]. apply (run_plain ops Po _ _ Sw Pw). eauto.
Qed.
Lemma run_letters_none ops pr w : ~ Forall lower w -> run_letters ops pr w = [].
Proof.
  intros N. unfold run_letters. destruct (map fst (outs ltn2typ w)) as [|r l] eqn:E; [reflexivity|]. exfalso. apply N. apply (read_letters w r). rewrite E. left. reflexivity.
Qed.

(** ** The sounds of the spellings *)
Definition has (l : list string) (s : string) : bool := existsb (String.eqb s) l.
Lemma has_ok l s : has l s = true -> In s l. Proof. intros H. apply existsb_exists in H as (x & I & E). apply String.eqb_eq in E. subst x. exact I. Qed.
Definition sound_known (o : orthography) (x : sound) : Prop :=
  match x with Cons cs => Forall (fun c => In c (map fst (o_consonants o))) cs | Vow v => In v (map fst (o_vowels o)) | Nas => o_anusvara o <> None end.
Definition sound_knownb (o : orthography) (x : sound) : bool :=
  match x with Cons cs => forallb (has (map fst (o_consonants o))) cs | Vow v => has (map fst (o_vowels o)) v | Nas => match o_anusvara o with Some _ => true | None => false end end.
Lemma sound_knownb_ok o x : sound_knownb o x = true -> sound_known o x.
Proof. destruct x as [cs|v|]; cbn; intros H; [exact (forallb_Forall _ _ _ (fun s => has_ok _ s) H)|exact (has_ok _ _ H)|destruct (o_anusvara o); discriminate]. Qed.
Lemma cluster_known o last cs : Forall (fun c => In c (map fst (o_consonants o))) cs -> (forall c, In c (map fst (o_consonants o)) -> known o (last c)) -> Forall (known o) (cluster last cs).
Proof.
  intros F H. induction F as [|c cs Hc Hcs IH]; [constructor|]. destruct cs as [|c' cs]; cbn [cluster] in *; [constructor; [auto|constructor]|]. constructor; [exact Hc|exact IH].
Qed.
Lemma write_known o final n : (forall c, In c (map fst (o_consonants o)) -> known o (final c)) -> forall l, List.length l <= n -> Forall (sound_known o) l -> Forall (known o) (write final l).
Proof.
  intros H. induction n as [|n IH]; intros l Ln F; [destruct l; [constructor|cbn in Ln; lia]|]. destruct l as [|x l]; [constructor|]. cbn [List.length] in Ln. inversion F as [|? ? Fx Fl]; subst. destruct x as [cs|v|]; cbn [sound_known] in Fx.
  - assert (G : Forall (known o) (cluster final cs ++ write final l)) by (apply Forall_app; split; [exact (cluster_known o final cs Fx H)|apply IH; [lia|exact Fl]]).
    destruct l as [|[cs'|v|] l]; try exact G. cbn [write]. inversion Fl as [|? ? Fv Fl']; subst. apply Forall_app. split; [apply cluster_known; [exact Fx|]; intros c Hc; split; [exact Hc|exact Fv]|]. apply IH; [cbn in Ln; lia|exact Fl'].
  - cbn [write]. constructor; [exact Fx|apply IH; [lia|exact Fl]].
  - cbn [write]. constructor; [exact Fx|apply IH; [lia|exact Fl]].
Qed.
Lemma read_known o (T : list (list (string * sound))) (R : reading) : forallb (forallb (fun p : string * sound => sound_knownb o (snd p))) T = true -> Forall (fun p => (snd p = Nas /\ o_anusvara o <> None) \/ exists rk, spelled T rk p) R -> Forall (sound_known o) (map snd R).
Proof.
  intros C F. induction F as [|p R [[E N]|(rk & cl & En & I)] _ IH]; cbn [map]; constructor; try exact IH; [rewrite E; exact N|]. apply sound_knownb_ok. pose proof (proj1 (forallb_forall _ _) C _ (nth_error_In _ _ En)) as K. exact (proj1 (forallb_forall _ _) K _ I).
Qed.
