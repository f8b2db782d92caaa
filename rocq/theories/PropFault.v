(** C62: every error of Compile tells a mistake of a schema it met.

    [blamed re url same d v e] (SpecFault.v): the text of the error e tells a
    mistake that v, read as a schema of draft d, contains; or e is the error of
    a URL of v that net/url does not parse, or that of a constant of v beyond
    the float64s.  [meets] (SpecShape.v): doc, the schemas inside it and behind
    references.  [all_found]: every reference leads somewhere. *)
From Verif Require Import DraftsLoad URLProps LoadFetch ExactLoad CheckedExact CompileFetch FaultFetch PropExact SpecFault.
Open Scope string_scope.
Open Scope list_scope.

Theorem C62_blame_partial : forall w, url_laws w -> web_laws w -> forall fuel o sl l p doc e sl',
  fair o -> loader_fit l -> sl_ok sl -> sl_validate sl = false -> source w sl l p doc -> all_found (view w sl l) p doc ->
  let met := meets (heads_to (view w sl l) p doc) (root_draft w sl doc) doc in
  (forall d v, met d v -> all_numbers (moderate (e_ratlim (w_go w))) v) ->
  Compile w fuel o sl l = LErr e sl' ->
  exists d v, met d v /\ blamed (fun p => e_re_ok (w_go w) p = true) (fun s => w_parse w s <> None) same d v e.
Proof. exact source_blames. Qed.
Print Assumptions C62_blame_partial.

(** With Validate on. *)
Theorem C62_checked_partial : forall w, url_laws w -> web_laws w -> meta_urls w -> (0 <= e_ratlim (w_go w))%Z ->
  forall fuel o sl l p doc d e sl', checking w fuel o sl l p doc d -> d <> Hybrid -> all_found (view w sl l) p doc ->
  let met := meets (heads_to (view w sl l) p doc) d doc in
  (forall d v, met d v -> all_numbers (moderate (e_ratlim (w_go w))) v) ->
  Compile w fuel o sl l = LErr e sl' ->
  ((exists es, meta_tells (w_go w) d doc es /\ e = EMeta es) /\ ~ lawful (fun f s => fmt (w_go w) f (VStr s)) same d doc) \/
  (lawful (fun f s => fmt (w_go w) f (VStr s)) same d doc /\
   exists d v, met d v /\ blamed (fun p => e_re_ok (w_go w) p = true) (fun s => w_parse w s <> None) same d v e).
Proof. exact checked_blames. Qed.
Print Assumptions C62_checked_partial.

(** With Go's URL library. *)
Theorem C62_library_partial : forall go fs http rest, serves_plain go fs http rest -> let P := plain_world go fs http rest in forall fuel o sl l p doc e sl',
  fair o -> loader_fit l -> sl_ok sl -> plain_loader go fs http rest l -> plain_pool go fs http rest (sl_pool sl) -> sl_validate sl = false -> source P sl l p doc ->
  all_found (view P sl l) p doc ->
  let met := meets (heads_to (view P sl l) p doc) (root_draft P sl doc) doc in
  (forall d v, met d v -> all_numbers (moderate (e_ratlim go)) v) ->
  Compile (go_world go fs http rest) fuel o sl l = LErr e sl' ->
  exists d v, met d v /\ blamed (fun p => e_re_ok go p = true) (fun s => w_parse P s <> None) same d v e.
Proof. intros go fs http rest HS P. exact (plain_blames go fs http rest HS). Qed.
Print Assumptions C62_library_partial.

(** The errors of a few schemas, as Error() tells them. *)
Definition told (w : world) (fuel : nat) (sl : sloader) (t : string) : option string :=
  match Compile w fuel in_order sl (LString t) with LErr e _ => Error e | _ => None end.
Definition no_allOf := "{""properties"":{""a"":{""allOf"":5}}}".
Definition no_names := "{""properties"":{""a"":{""propertyNames"":5}}}".
Definition no_type := "{""definitions"":{""a"":{""type"":[""string"",""text""]}},""items"":{""$ref"":""#/definitions/a""}}".
Example C62_example :
  forallb (fun t => refs_ready t (refs_of t) (met_of t)) [bad_refs; no_allOf; no_names; no_type] = true /\
  map (fun t => decode_use_number t) [bad_refs; no_allOf; no_names; no_type] = map (fun t => Some (the_doc t)) [bad_refs; no_allOf; no_names; no_type] /\
  map (told w0 FUEL NewSchemaLoader) [bad_refs; no_type] =
    [Some "minLength cannot be greater than maxLength";
     Some "has a primitive type that is NOT VALID -- given: /text/ Expected valid values are:[array boolean integer number null object string]"] /\
  strict_ready strict_flaw = true /\ told w0 strict_enough CheckedFetch.strict strict_flaw = Some "minLength cannot be greater than maxLength".
Proof. vm_compute. auto 10. Qed.
(** The hypotheses of C62_blame_partial hold of them, and what it says of the
    first. *)
Example C62_hypotheses t : decode_use_number t = Some (the_doc t) -> refs_ready t (refs_of t) (met_of t) = true ->
  source w0 NewSchemaLoader (LString t) (here t) (its_doc t) /\ all_found (its_view t) (here t) (its_doc t) /\
  (forall d v, meets (heads_to (its_view t) (here t) (its_doc t)) (root_draft w0 NewSchemaLoader (its_doc t)) (its_doc t) d v -> all_numbers (moderate 1000000) v).
Proof. intros E B. destruct (refs_checked t E B) as (H1 & H2 & _ & H3 & _). split; auto. split; auto. eapply covered_complete; eauto. Qed.

(** The keyword named need not be one of the schema's: an "allOf" that is no
    array is reported as an "anyOf" (schema.go:894), a "propertyNames" that is
    no schema as a "patternProperties" (schema.go:365); neither document has
    such a keyword anywhere. *)
Definition lacks (k : string) (q : draft * value) : bool := match snd q with VMap m => match assoc k m with None => true | _ => false end | _ => true end.
Theorem C62_keyword_refuted :
  let names t text k :=
    (exists e sl', Compile w0 FUEL in_order NewSchemaLoader (LString t) = LErr e sl' /\ Error e = Some text) /\
    forall d m, meets (heads_to (its_view t) (here t) (its_doc t)) Hybrid (its_doc t) d (VMap m) -> assoc k m = None in
  names no_allOf "anyOf must be of an array" "anyOf" /\
  names no_names "Invalid type. Expected: valid schema, given: patternProperties" "patternProperties".
Proof.
  cbv zeta.
  assert (K : forall t k, walk_b (flead (its_view t) (here t) Hybrid) (met_of t) (Hybrid, its_doc t) = true -> forallb (lacks k) (met_of t) = true ->
    forall d m, meets (heads_to (its_view t) (here t) (its_doc t)) Hybrid (its_doc t) d (VMap m) -> assoc k m = None).
  { intros t k B1 B2 d m M. pose proof (walk_collected _ _ _ (flead_only _ _ _ _) _ _ B1 _ _ M) as H. rewrite forallb_forall in B2. specialize (B2 _ H).
    unfold lacks in B2. cbn in B2. destruct (assoc k m); [discriminate|reflexivity]. }
  split; (split; [eexists; eexists; split; [vm_compute; reflexivity|vm_compute; reflexivity]|apply K; vm_compute; reflexivity]).
Qed.
Print Assumptions C62_keyword_refuted.
