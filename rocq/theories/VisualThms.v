(** C08, C09: mark de-duplication and the joiner treatment of visual
    normalization. *)
From Verif Require Import Base RuleModel RuleSpec VisualModel VisualSpec VisualProofs
  ScriptData ScriptModel ScriptTables ScriptChecks.

(** ** C08 *)
Theorem C08_collapses_runs : forall ns marks sigma, marks <> [] ->
  exists f, dedup_chars ns marks sigma = Some f /\
    (forall r, maximal r -> over sigma (expand r) = true ->
       f (expand r) = [expand (shrink marks r)]) /\
    (forall s, over sigma s = false -> f s = []).
Proof. exact dedup_chars_spec. Qed.
Print Assumptions C08_collapses_runs.

(** Every text has a decomposition into maximal runs. *)
Theorem C08_runs_cover : forall s, exists r, maximal r /\ expand r = s.
Proof. exact runs_exist. Qed.
Print Assumptions C08_runs_cover.

Theorem C08_no_doubles_idempotent : forall ns marks sigma f, marks <> [] ->
  dedup_chars ns marks sigma = Some f ->
  forall s, over sigma s = true -> exists t, f s = [t] /\ f t = [t] /\
    forall c, In c marks -> ~ is_infix [c; c] t.
Proof. exact dedup_result. Qed.
Print Assumptions C08_no_doubles_idempotent.

Theorem C08_set_order_irrelevant : forall ns1 ns2 marks1 marks2 sigma, marks1 <> [] ->
  (forall c, In c marks1 <-> In c marks2) ->
  exists f1 f2, dedup_chars ns1 marks1 sigma = Some f1 /\
    dedup_chars ns2 marks2 sigma = Some f2 /\ forall s, f1 s = f2 s.
Proof. exact dedup_order. Qed.
Print Assumptions C08_set_order_irrelevant.

Example C08_example :
  let r := [(1%N, 2); (7%N, 1); (2%N, 0); (1%N, 1)] in
  maximal r /\ expand r = [1; 1; 1; 7; 7; 2; 1; 1]%N /\
  match dedup_chars (fun _ => 1) [1; 2]%N [1; 2; 7]%N with
  | Some f => f [1; 1; 1; 7; 7; 2; 1; 1]%N = [[1; 7; 7; 2; 1]%N]
  | None => False
  end.
Proof. vm_compute. repeat split; discriminate. Qed.

(** ** C09 *)

(** The result is read off a cut of the text in which each preserve sequence
    standing between listed consonants is one piece: these pieces and all
    characters that are not joiners stay, all other joiners go. *)
Theorem C09_exact_result : forall ns nfc dedup rw P K sigma f,
  good_preserve P sigma -> visual_norm ns nfc dedup rw P K sigma = Some f ->
  (forall s u, before_joiners nfc dedup rw s u -> over sigma u = true) ->
  forall s t, In t (f s) <->
    exists u gs, before_joiners nfc dedup rw s u /\
      ctx_cut (spans P) (ends_in K) (starts_in K) [] u gs /\ t = flat_map kept gs.
Proof. exact visual_cut. Qed.
Print Assumptions C09_exact_result.

Theorem C09_joiners_only_inside_preserved : forall ns nfc dedup rw P K sigma f,
  good_preserve P sigma -> visual_norm ns nfc dedup rw P K sigma = Some f ->
  forall s t, In t (f s) -> over sigma t = true /\
   exists u, before_joiners nfc dedup rw s u /\
    (over sigma u = true ->
     without_joiners t = without_joiners u /\
     (forall a j b, t = a ++ j :: b -> In j joiners ->
        exists x y p q it, In it P /\ pseq it = p ++ j :: q /\ a = x ++ p /\ b = q ++ y) /\
     ((forall it, In it P -> exists j, In j joiners /\ In j (pseq it)) ->
      (forall c, In c u -> ~ In c joiners) -> t = u)).
Proof. exact visual_joiners. Qed.
Print Assumptions C09_joiners_only_inside_preserved.

Theorem C09_preserved_between_consonants : forall ns nfc dedup rw P K sigma f,
  good_preserve P sigma -> prefix_free (spans P) ->
  visual_norm ns nfc dedup rw P K sigma = Some f ->
  forall s x k it k' y t,
  nfc s = [x ++ k ++ pseq it ++ k' ++ y] ->
  dedup (x ++ k ++ pseq it ++ k' ++ y) = [x ++ k ++ pseq it ++ k' ++ y] ->
  rw (x ++ k ++ pseq it ++ k' ++ y) = [x ++ k ++ pseq it ++ k' ++ y] ->
  over sigma (x ++ k ++ pseq it ++ k' ++ y) = true ->
  In k K -> In k' K -> In it P ->
  (forall c it', In c (x ++ k) -> In it' P -> ~ In c (pseq it')) ->
  In t (f s) ->
  exists t', t = without_joiners (x ++ k) ++ pseq it ++ t'.
Proof. exact visual_preserved. Qed.
Print Assumptions C09_preserved_between_consonants.

(** The shipped tables of the twenty scripts meet the requirements, and their
    normalizers give exactly one result for every text over the alphabet. *)
Theorem C09_shipped_tables_good : forall d, In d all_scripts ->
  good_preserve (sd_preserve d) (script_sigma d) /\ prefix_free (spans (sd_preserve d)) /\
  forall it, In it (sd_preserve d) -> exists j, In j joiners /\ In j (pseq it).
Proof. exact shipped_preserve. Qed.
Print Assumptions C09_shipped_tables_good.

Theorem C09_shipped_total_functional : forall ns is_mn d, In d all_scripts ->
  exists f, script_visual_norm ns is_mn d = Some f /\
    forall s, over (script_sigma d) s = true ->
    exists t, f s = [t] /\ over (script_sigma d) t = true.
Proof. exact shipped_visual_total. Qed.
Print Assumptions C09_shipped_total_functional.

Theorem C09_shipped_joiners : forall ns is_mn d f, In d all_scripts ->
  script_visual_norm ns is_mn d = Some f ->
  forall s t a j b, over (script_sigma d) s = true -> In t (f s) ->
  t = a ++ j :: b -> In j joiners ->
  exists x y p q it, In it (sd_preserve d) /\ pseq it = p ++ j :: q /\ a = x ++ p /\ b = q ++ y.
Proof. exact shipped_joiners. Qed.
Print Assumptions C09_shipped_joiners.

(** Devanagari KA VIRAMA ZWNJ KA keeps its joiner, KA ZWNJ VIRAMA KA does not,
    nor does KA VIRAMA ZWNJ at the end. *)
Example C09_example :
  match script_visual_norm (fun _ => 1) (fun c => N.eqb c 2381) data_Deva with
  | Some f => f [2325; 2381; 8204; 2325]%N = [[2325; 2381; 8204; 2325]%N] /\
              f [2325; 8204; 2381; 2325; 2381; 8204]%N = [[2325; 2381; 2325; 2381]%N]
  | None => False
  end.
Proof. vm_compute. auto. Qed.
