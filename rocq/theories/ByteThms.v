(** C07: grammars compiled over bytes and over code points agree. *)
From Verif Require Import Base RuleModel VisualModel ScriptData WellformedModel ScriptModel Utf8Model
  Utf8Spec ByteModel ByteSpec ByteGrammar ScriptTables.

(** Both modes report a conflict, or both build an FST and the byte FST maps
    the encoding of a text to the encodings of the results. *)
Theorem C07_rules_agree : forall ns nsb rs sigma, plain_rules rs -> plain_sigma sigma ->
  (forall r, In r rs -> over sigma (rhs r) = true) ->
  (fst_from_rules ns rs sigma = None /\ fst_from_rules nsb (byte_rules rs) BYTE = None) \/
  exists f fb, fst_from_rules ns rs sigma = Some f /\ fst_from_rules nsb (byte_rules rs) BYTE = Some fb /\
    forall s t, over sigma s = true -> utf8 s t -> Forall2 utf8 (f s) (fb t).
Proof. exact rules_agree. Qed.
Print Assumptions C07_rules_agree.

(** An occurrence of encoded text in encoded text is on code-point boundaries. *)
Theorem C07_matches_aligned : forall s t l x a b, plain s -> plain l -> utf8 s t -> utf8 l x -> l <> [] ->
  t = a ++ x ++ b -> exists s1 s2, s = s1 ++ l ++ s2 /\ utf8 s1 a /\ utf8 s2 b.
Proof. exact matches_aligned. Qed.
Print Assumptions C07_matches_aligned.

Theorem C07_shipped_rules_agree : forall ns nsb d rs, In d all_scripts ->
  In rs [sd_nfc d; sd_visual_rewrite d; sd_reading_norm d] ->
  exists f fb, fst_from_rules ns rs (script_sigma d) = Some f /\
    fst_from_rules nsb (byte_rules rs) BYTE = Some fb /\
    forall s t, over (script_sigma d) s = true -> utf8 s t -> Forall2 utf8 (f s) (fb t).
Proof. exact shipped_rules_agree. Qed.
Print Assumptions C07_shipped_rules_agree.

(** The whole visual normalizer of every shipped script. *)
Theorem C07_shipped_visual_norm_agrees : forall ns nsb is_mn d, In d all_scripts ->
  exists f fb, script_visual_norm ns is_mn d = Some f /\ byte_script_visual_norm nsb is_mn d = Some fb /\
    forall s t, over (script_sigma d) s = true -> utf8 s t -> Forall2 utf8 (f s) (fb t).
Proof. exact shipped_visual_agree. Qed.
Print Assumptions C07_shipped_visual_norm_agrees.

Theorem C07_well_formed_agrees : forall d s t, re_plain (accept_well_formed d) -> plain s -> utf8 s t ->
  well_formed (byte_data d) t = well_formed d s.
Proof. exact well_formed_agree. Qed.
Print Assumptions C07_well_formed_agrees.

(** Nothing but encodings of well-formed text is accepted in byte mode. *)
Theorem C07_well_formed_image : forall d t, re_plain (accept_well_formed d) ->
  (well_formed (byte_data d) t = true <-> exists s, utf8 s t /\ well_formed d s = true).
Proof. exact well_formed_image. Qed.
Print Assumptions C07_well_formed_image.

Theorem C07_shipped_tables_plain : forall d, In d all_scripts -> re_plain (accept_well_formed d).
Proof. exact shipped_tables_plain. Qed.
Print Assumptions C07_shipped_tables_plain.

(** The restriction to the alphabet is needed: the byte normalizer passes on
    text of other scripts, the code-point normalizer has no output for it. *)
Theorem C07_agree_on_all_text_refuted : exists d ns is_mn f fb s t,
  In d all_scripts /\ script_visual_norm ns is_mn d = Some f /\
  byte_script_visual_norm ns is_mn d = Some fb /\ plain s /\ utf8 s t /\ f s = [] /\ fb t = [t].
Proof. exact modes_differ. Qed.
Print Assumptions C07_agree_on_all_text_refuted.

(** U+0915 U+093C becomes U+0958 in both modes, here with one rule. *)
Example C07_example :
  let rs := [Rule [2325; 2364] [2392]]%N in
  let sigma := [2325; 2364; 2392]%N in
  plain_rules rs /\ plain_sigma sigma /\ (forall r, In r rs -> over sigma (rhs r) = true) /\
  match fst_from_rules (fun _ => 0) rs sigma, fst_from_rules (fun _ => 0) (byte_rules rs) BYTE with
  | Some f, Some fb =>
    f [2325; 2325; 2364]%N = [[2325; 2392]]%N /\
    fb [0xE0; 0xA4; 0x95; 0xE0; 0xA4; 0x95; 0xE0; 0xA4; 0xBC]%N
      = [[0xE0; 0xA4; 0x95; 0xE0; 0xA5; 0x98]]%N
  | _, _ => False
  end.
Proof.
  assert (H : forall s, forallb scalarb s = true -> plain s) by (intros; apply scalars_plain; auto).
  cbv zeta. split.
  { intros r [<-|[]]. split; [apply H; reflexivity|]. split; [apply H; reflexivity|discriminate]. }
  split; [apply H; reflexivity|]. split; [intros r [<-|[]]; reflexivity|]. vm_compute. auto.
Qed.
