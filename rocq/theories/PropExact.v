(** Documents with references: when they compile (C20), and that the order of
    the maps does not matter (C23).

    [meets T d doc d' v] (SpecShape.v): v, read under draft d', is doc, a schema
    inside it, or one behind a reference.  [right]: v is locally well formed.
    [sealed re d m] (CompileVisit.v): beside its reference the object m has no
    malformed keyword and no schemas but definitions.  Without that the claims
    are false, see C23_refuted.  [checking]: the loader validates, and l comes
    to doc, whose meta-schema is that of draft d.  [lawful] (SpecDrafts.v): a
    schema of the draft, by the texts. *)
From Verif Require Import CheckedShape CheckedExact DraftsLoad URLProps ExactLoad.

(** ** C20 *)
Theorem C20_exact_references : forall w, url_laws w -> web_laws w -> forall fuel o sl l p doc lib,
  fair o -> loader_fit l -> sl_ok sl -> sl_validate sl = false -> source w sl l p doc ->
  covered (view w sl l) p lib doc -> lib_fuel doc lib < fuel ->
  let met := meets (heads_to (view w sl l) p doc) (root_draft w sl doc) doc in
  (forall d v, met d v -> all_numbers (moderate (e_ratlim (w_go w))) v) ->
  settled_in (found (view w sl l) p doc) (root_draft w sl doc) ->
  (forall d m k, met d (VMap m) -> assoc "$ref" m = Some (VStr k) -> sealed (fun p => e_re_ok (w_go w) p = true) d m) ->
  (exists sch sl', Compile w fuel o sl l = LOk sch sl') <-> forall d v, met d v -> right (view w sl l) d v.
Proof. exact source_exact. Qed.
Print Assumptions C20_exact_references.

(** ** C23 *)
Theorem C23_references : forall w, url_laws w -> web_laws w -> forall fuel o fuel' o' sl l p doc lib,
  fair o -> fair o' -> loader_fit l -> sl_ok sl -> sl_validate sl = false -> source w sl l p doc ->
  covered (view w sl l) p lib doc -> lib_fuel doc lib < fuel -> lib_fuel doc lib < fuel' ->
  let met := meets (heads_to (view w sl l) p doc) (root_draft w sl doc) doc in
  (forall d v, met d v -> all_numbers (moderate (e_ratlim (w_go w))) v) ->
  settled_in (found (view w sl l) p doc) (root_draft w sl doc) ->
  (forall d m k, met d (VMap m) -> assoc "$ref" m = Some (VStr k) -> sealed (fun p => e_re_ok (w_go w) p = true) d m) ->
  (exists sch sl', Compile w fuel o sl l = LOk sch sl') <-> (exists sch sl', Compile w fuel' o' sl l = LOk sch sl').
Proof. exact source_order. Qed.
Print Assumptions C23_references.

(** ** C56 with references: a document is taken exactly if it is a schema of its
    draft and every schema met is right. *)
Theorem C56_references : forall w, url_laws w -> web_laws w -> meta_urls w -> (0 <= e_ratlim (w_go w))%Z ->
  forall fuel o sl l p doc d lib, checking w fuel o sl l p doc d -> d <> Hybrid ->
  covered (view w sl l) p lib doc -> lib_fuel doc lib < fuel ->
  let met := meets (heads_to (view w sl l) p doc) d doc in
  (forall d' v, met d' v -> all_numbers (moderate (e_ratlim (w_go w))) v) -> settled_in (found (view w sl l) p doc) d ->
  (forall d' m k, met d' (VMap m) -> assoc "$ref" m = Some (VStr k) -> sealed (fun p => e_re_ok (w_go w) p = true) d' m) ->
  (exists sch sl', Compile w fuel o sl l = LOk sch sl') <->
  lawful (fun f s => fmt (w_go w) f (VStr s)) same d doc /\ forall d' v, met d' v -> right (view w sl l) d' v.
Proof. exact checked_exact. Qed.
Print Assumptions C56_references.

(** ** C49: both with Go's URL library *)
Theorem C49_compiles : forall go fs http rest, serves_plain go fs http rest -> let P := plain_world go fs http rest in forall fuel o sl l p doc lib,
  fair o -> loader_fit l -> sl_ok sl -> plain_loader go fs http rest l -> plain_pool go fs http rest (sl_pool sl) -> sl_validate sl = false -> source P sl l p doc ->
  covered (view P sl l) p lib doc -> lib_fuel doc lib < fuel ->
  let met := meets (heads_to (view P sl l) p doc) (root_draft P sl doc) doc in
  (forall d v, met d v -> all_numbers (moderate (e_ratlim go)) v) -> settled_in (found (view P sl l) p doc) (root_draft P sl doc) ->
  (forall d m k, met d (VMap m) -> assoc "$ref" m = Some (VStr k) -> sealed (fun p => e_re_ok go p = true) d m) ->
  (exists sch sl', Compile (go_world go fs http rest) fuel o sl l = LOk sch sl') <-> forall d v, met d v -> right (view P sl l) d v.
Proof. exact plain_exact. Qed.
Print Assumptions C49_compiles.
Theorem C49_checked : forall go fs http rest, serves_plain go fs http rest -> let P := plain_world go fs http rest in forall fuel o sl l p doc d lib, (0 <= e_ratlim go)%Z ->
  plain_loader go fs http rest l -> plain_pool go fs http rest (sl_pool sl) -> checking P fuel o sl l p doc d -> d <> Hybrid ->
  covered (view P sl l) p lib doc -> lib_fuel doc lib < fuel ->
  let met := meets (heads_to (view P sl l) p doc) d doc in
  (forall d' v, met d' v -> all_numbers (moderate (e_ratlim go)) v) -> settled_in (found (view P sl l) p doc) d ->
  (forall d' m k, met d' (VMap m) -> assoc "$ref" m = Some (VStr k) -> sealed (fun p => e_re_ok go p = true) d' m) ->
  (exists sch sl', Compile (go_world go fs http rest) fuel o sl l = LOk sch sl') <->
  lawful (fun f s => fmt go f (VStr s)) same d doc /\ forall d' v, met d' v -> right (view P sl l) d' v.
Proof. exact plain_checked_exact. Qed.
Print Assumptions C49_checked.

(** A recursive schema that compiles, and one with a flaw that only its
    references lead to; in both orders. *)
Definition good_refs := "{""definitions"":{""n"":{""minimum"":0},""t"":{""properties"":{""l"":{""$ref"":""#/definitions/t""},""v"":{""$ref"":""#/definitions/n""}}}},""items"":{""$ref"":""#/definitions/t""}}".
Definition bad_refs := "{""a"":{""anyOf"":[{""$ref"":""#""},{""minLength"":2,""maxLength"":1}]},""properties"":{""x"":{""$ref"":""#/a""},""y"":{""$ref"":""#/a""}}}".
Notation w0 := (serving [] []).
Notation here t := (known_documents w0 NewSchemaLoader (the_doc t)).
Notation its_doc t := (resolve parse0 inherits0 "" (the_doc t)).
Notation its_view t := (view w0 NewSchemaLoader (LString t)).
Definition refs_ready (t : string) (lib : pool) (L : list (draft * value)) : bool :=
  (text_ready w0 NewSchemaLoader (LString t) (the_doc t) && covered_b (its_view t) (here t) lib (its_doc t) && (lib_fuel (its_doc t) lib <? FUEL) &&
   draft_eqb (root_draft w0 NewSchemaLoader (its_doc t)) Hybrid && (one_draft_b lib Hybrid || all_drafts_b lib) &&
   walk_b (flead (its_view t) (here t) Hybrid) L (Hybrid, its_doc t))%bool.
Definition refs_of (t : string) : pool := gather (its_view t) (here t) 20 (mentioned (its_doc t)) [].
Definition met_of (t : string) : list (draft * value) := collect_met (flead (its_view t) (here t) Hybrid) 60 [(Hybrid, its_doc t)] [].
Lemma refs_checked t : decode_use_number t = Some (the_doc t) -> refs_ready t (refs_of t) (met_of t) = true ->
  source w0 NewSchemaLoader (LString t) (here t) (its_doc t) /\ covered (its_view t) (here t) (refs_of t) (its_doc t) /\ lib_fuel (its_doc t) (refs_of t) < FUEL /\
  let met := meets (heads_to (its_view t) (here t) (its_doc t)) (root_draft w0 NewSchemaLoader (its_doc t)) (its_doc t) in
  (forall d v, met d v -> all_numbers (moderate 1000000) v) /\ settled_in (found (its_view t) (here t) (its_doc t)) (root_draft w0 NewSchemaLoader (its_doc t)) /\
  (forall d m k, met d (VMap m) -> assoc "$ref" m = Some (VStr k) -> sealed (fun p => e_re_ok go0 p = true) d m).
Proof.
  intros ED B. unfold refs_ready in B. rewrite !andb_true_iff in B. destruct B as (((((B1 & B2) & B3) & B4) & B5) & B6). apply draft_eqb_eq in B4. rewrite B4.
  split; [apply text_source; auto; apply (serving_laws [] [])|]. pose proof (covered_checked _ _ _ _ B2) as C. split; [exact C|]. split; [apply Nat.ltb_lt; exact B3|].
  split; [|split].
  - eapply walk_numbers; [apply flead_only|discriminate|exact B6].
  - eapply settled_checked; eauto.
  - intros d m k. eapply walk_sealed; [apply flead_only|exact B6].
Qed.
Definition succeeds {A} (x : lres A) : bool := match x with LOk _ _ => true | _ => false end.
Example C23_references_example :
  refs_ready good_refs (refs_of good_refs) (met_of good_refs) = true /\ decode_use_number good_refs = Some (the_doc good_refs) /\
  refs_ready bad_refs (refs_of bad_refs) (met_of bad_refs) = true /\ decode_use_number bad_refs = Some (the_doc bad_refs) /\
  succeeds (Compile w0 FUEL in_order NewSchemaLoader (LString good_refs)) = true /\ succeeds (Compile w0 FUEL backwards NewSchemaLoader (LString good_refs)) = true /\
  succeeds (Compile w0 FUEL in_order NewSchemaLoader (LString bad_refs)) = false /\ succeeds (Compile w0 FUEL backwards NewSchemaLoader (LString bad_refs)) = false.
Proof. vm_compute. auto 10. Qed.

(** With Validate on: a recursive schema; a schema of the draft with a flaw
    behind a reference; and one that is none of the draft. *)
Definition strict_good := "{""$schema"":""http://json-schema.org/draft-07/schema#"",""definitions"":{""t"":{""properties"":{""l"":{""$ref"":""#/definitions/t""},""v"":{""exclusiveMinimum"":0}}}},""items"":{""$ref"":""#/definitions/t""}}".
Definition strict_flaw := "{""$schema"":""http://json-schema.org/draft-07/schema#"",""a"":{""maxLength"":1,""minLength"":2,""not"":{""$ref"":""#""}},""properties"":{""x"":{""$ref"":""#/a""}}}".
Definition strict_none := "{""$schema"":""http://json-schema.org/draft-07/schema#"",""properties"":{""x"":{""$ref"":""#""},""y"":{""anyOf"":[]}}}".
Definition strict_enough : nat := 60 * 80.
Notation s_here t := (known_documents w0 CheckedFetch.strict (the_doc t)).
Notation s_view t := (view w0 CheckedFetch.strict (LString t)).
Definition strict_refs (t : string) : pool := gather (s_view t) (s_here t) 20 (mentioned (its_doc t)) [].
Definition strict_met (t : string) : list (draft * value) := collect_met (flead (s_view t) (s_here t) Draft7) 60 [(Draft7, its_doc t)] [].
Definition strict_ready (t : string) : bool :=
  (checking_b w0 Draft7 strict_enough t && covered_b (s_view t) (s_here t) (strict_refs t) (its_doc t) && (lib_fuel (its_doc t) (strict_refs t) <? strict_enough) &&
   (one_draft_b (strict_refs t) Draft7 || all_drafts_b (strict_refs t)) && walk_b (flead (s_view t) (s_here t) Draft7) (strict_met t) (Draft7, its_doc t))%bool.
Lemma strict_checked t : decode_use_number t = Some (the_doc t) -> strict_ready t = true ->
  checking w0 strict_enough in_order CheckedFetch.strict (LString t) (s_here t) (its_doc t) Draft7 /\
  covered (s_view t) (s_here t) (strict_refs t) (its_doc t) /\ lib_fuel (its_doc t) (strict_refs t) < strict_enough /\
  let met := meets (heads_to (s_view t) (s_here t) (its_doc t)) Draft7 (its_doc t) in
  (forall d v, met d v -> all_numbers (moderate 1000000) v) /\ settled_in (found (s_view t) (s_here t) (its_doc t)) Draft7 /\
  (forall d m k, met d (VMap m) -> assoc "$ref" m = Some (VStr k) -> sealed (fun p => e_re_ok go0 p = true) d m).
Proof.
  intros ED B. unfold strict_ready in B. rewrite !andb_true_iff in B. destruct B as ((((B1 & B2) & B3) & B5) & B6).
  split; [apply checking_checked; auto; [apply (serving_laws [] [])|apply (serving_web [] [])]|].
  pose proof (covered_checked _ _ _ _ B2) as C. split; [exact C|]. split; [apply Nat.ltb_lt; exact B3|].
  split; [|split].
  - eapply walk_numbers; [apply flead_only|discriminate|exact B6].
  - eapply settled_checked; eauto.
  - intros d m k. eapply walk_sealed; [apply flead_only|exact B6].
Qed.
Example C56_references_example :
  (strict_ready strict_good && strict_ready strict_flaw && strict_ready strict_none)%bool = true /\
  decode_use_number strict_good = Some (the_doc strict_good) /\ decode_use_number strict_flaw = Some (the_doc strict_flaw) /\ decode_use_number strict_none = Some (the_doc strict_none) /\
  map (fun t => match Compile w0 strict_enough in_order CheckedFetch.strict (LString t) with LOk _ _ => "taken" | LErr (EMeta _) _ => "no schema" | LErr _ _ => "flawed" | _ => "" end)
    [strict_good; strict_flaw; strict_none] = ["taken"; "flawed"; "no schema"].
Proof. vm_compute. auto 10. Qed.
