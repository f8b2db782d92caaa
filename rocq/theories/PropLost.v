(** References that lead nowhere (C66).

    [met]: the schemas met from the root, through the keywords that hold
    schemas and through references; [heads_to]: what a reference leads to, in
    the documents known and those that are served; [lost] (SpecLost.v): a
    reference that leads nowhere, and the error for it; [either_way], [charted]:
    every reference met does one or the other (what is left out: identifiers
    that clash, and documents served that the library cannot use at all).
    [right]: the schema has the shapes its draft asks for. *)
From Verif Require Import CheckedShape CheckedLost DraftsLoad URLProps LostLoad ModelError.
From Verif Require Import SpecLost.
Open Scope string_scope.
Open Scope list_scope.
Open Scope nat_scope.

Theorem C66_exact : forall w, url_laws w -> web_laws w -> forall fuel o sl l p doc lib,
  fair o -> loader_fit l -> sl_ok sl -> sl_validate sl = false -> source w sl l p doc ->
  charted (view w sl l) p lib doc -> lib_fuel doc lib < fuel ->
  let T := heads_to (view w sl l) p doc in let met := meets T (root_draft w sl doc) doc in
  (forall d v, met d v -> all_numbers (moderate (e_ratlim (w_go w))) v) -> settled_in (SpecFetch.found (view w sl l) p doc) (root_draft w sl doc) ->
  (forall d m k, met d (VMap m) -> assoc "$ref" m = Some (VStr k) -> sealed (fun p => e_re_ok (w_go w) p = true) d m) ->
  (exists sch sl', Compile w fuel o sl l = LOk sch sl') <->
  (forall d v, met d v -> right (view w sl l) d v) /\
  (forall d m k, met d (VMap m) -> assoc "$ref" m = Some (VStr k) -> exists d' x, T d k d' x).
Proof. exact source_resolves. Qed.
Print Assumptions C66_exact.

Theorem C66_returns : forall w, url_laws w -> web_laws w -> forall fuel o sl l p doc lib,
  fair o -> loader_fit l -> sl_ok sl -> sl_validate sl = false -> source w sl l p doc ->
  charted (view w sl l) p lib doc -> lib_fuel doc lib < fuel ->
  Compile w fuel o sl l <> LNoFuel /\
  (Compile w fuel o sl l = LPanic -> ~ forall d v, meets (heads_to (view w sl l) p doc) (root_draft w sl doc) doc d v -> tame (view w sl l) v).
Proof. exact source_charted. Qed.
Print Assumptions C66_returns.

(** An error is about a mistake (C62), or about a reference that leads nowhere. *)
Theorem C66_blame : forall w, url_laws w -> web_laws w -> forall fuel o sl l p doc e sl',
  fair o -> loader_fit l -> sl_ok sl -> sl_validate sl = false -> source w sl l p doc -> either_way (view w sl l) p doc ->
  let met := meets (heads_to (view w sl l) p doc) (root_draft w sl doc) doc in
  (forall d v, met d v -> all_numbers (moderate (e_ratlim (w_go w))) v) ->
  Compile w fuel o sl l = LErr e sl' ->
  (exists d v, met d v /\ blamed (fun p => e_re_ok (w_go w) p = true) (fun s => w_parse w s <> None) same d v e) \/
  exists d m k, met d (VMap m) /\ assoc "$ref" m = Some (VStr k) /\ dangles (view w sl l) p k e.
Proof. exact source_dangles. Qed.
Print Assumptions C66_blame.

(** With Validate on. *)
Theorem C66_checked : forall w, url_laws w -> web_laws w -> meta_urls w -> (0 <= e_ratlim (w_go w))%Z ->
  forall fuel o sl l p doc d lib, checking w fuel o sl l p doc d -> d <> Hybrid ->
  charted (view w sl l) p lib doc -> lib_fuel doc lib < fuel ->
  let T := heads_to (view w sl l) p doc in let met := meets T d doc in
  (forall d v, met d v -> all_numbers (moderate (e_ratlim (w_go w))) v) -> settled_in (SpecFetch.found (view w sl l) p doc) d ->
  (forall d m k, met d (VMap m) -> assoc "$ref" m = Some (VStr k) -> sealed (fun p => e_re_ok (w_go w) p = true) d m) ->
  (exists sch sl', Compile w fuel o sl l = LOk sch sl') <->
  lawful (fun f s => fmt (w_go w) f (VStr s)) same d doc /\
  (forall d v, met d v -> right (view w sl l) d v) /\
  (forall d m k, met d (VMap m) -> assoc "$ref" m = Some (VStr k) -> exists d' x, T d k d' x).
Proof. exact checked_resolves. Qed.
Print Assumptions C66_checked.
Theorem C66_checked_blame : forall w, url_laws w -> web_laws w -> meta_urls w -> (0 <= e_ratlim (w_go w))%Z ->
  forall fuel o sl l p doc d e sl', checking w fuel o sl l p doc d -> d <> Hybrid -> either_way (view w sl l) p doc ->
  let met := meets (heads_to (view w sl l) p doc) d doc in
  (forall d v, met d v -> all_numbers (moderate (e_ratlim (w_go w))) v) ->
  Compile w fuel o sl l = LErr e sl' -> lawful (fun f s => fmt (w_go w) f (VStr s)) same d doc ->
  (exists d v, met d v /\ blamed (fun p => e_re_ok (w_go w) p = true) (fun s => w_parse w s <> None) same d v e) \/
  exists d m k, met d (VMap m) /\ assoc "$ref" m = Some (VStr k) /\ dangles (view w sl l) p k e.
Proof. exact checked_dangles. Qed.
Print Assumptions C66_checked_blame.

(** With Go's net/url, for the documents C49 is about. *)
Theorem C66_library : forall go fs http rest, serves_plain go fs http rest -> let P := plain_world go fs http rest in forall fuel o sl l p doc lib,
  fair o -> loader_fit l -> sl_ok sl -> plain_loader go fs http rest l -> plain_pool go fs http rest (sl_pool sl) -> sl_validate sl = false -> source P sl l p doc ->
  charted (view P sl l) p lib doc -> lib_fuel doc lib < fuel ->
  let T := heads_to (view P sl l) p doc in let met := meets T (root_draft P sl doc) doc in
  (forall d v, met d v -> all_numbers (moderate (e_ratlim go)) v) -> settled_in (SpecFetch.found (view P sl l) p doc) (root_draft P sl doc) ->
  (forall d m k, met d (VMap m) -> assoc "$ref" m = Some (VStr k) -> sealed (fun p => e_re_ok go p = true) d m) ->
  (exists sch sl', Compile (go_world go fs http rest) fuel o sl l = LOk sch sl') <->
  (forall d v, met d v -> right (view P sl l) d v) /\
  (forall d m k, met d (VMap m) -> assoc "$ref" m = Some (VStr k) -> exists d' x, T d k d' x).
Proof. exact plain_resolves. Qed.
Print Assumptions C66_library.
Theorem C66_library_blame : forall go fs http rest, serves_plain go fs http rest -> let P := plain_world go fs http rest in forall fuel o sl l p doc e sl',
  fair o -> loader_fit l -> sl_ok sl -> plain_loader go fs http rest l -> plain_pool go fs http rest (sl_pool sl) -> sl_validate sl = false -> source P sl l p doc ->
  either_way (view P sl l) p doc ->
  let met := meets (heads_to (view P sl l) p doc) (root_draft P sl doc) doc in
  (forall d v, met d v -> all_numbers (moderate (e_ratlim go)) v) ->
  Compile (go_world go fs http rest) fuel o sl l = LErr e sl' ->
  (exists d v, met d v /\ blamed (fun p => e_re_ok go p = true) (fun s => w_parse P s <> None) same d v e) \/
  exists d m k, met d (VMap m) /\ assoc "$ref" m = Some (VStr k) /\ dangles (view P sl l) p k e.
Proof. exact plain_dangles. Qed.
Print Assumptions C66_library_blame.

(** A reference into the document that names nothing, one to a page that is not
    served, one that is relative to nothing, one into a page that has no such
    part; behind another reference or not. *)
Definition web := serving [] [("http://h/page", "{""definitions"":{""a"":{""$ref"":""#/definitions/b""},""c"":{}}}")].
Definition lost_1 := "{""definitions"":{""a"":{}},""items"":{""anyOf"":[{""$ref"":""#/definitions/a""},{""$ref"":""#/definitions/none""}]}}".
Definition lost_2 := "{""properties"":{""x"":{""$ref"":""http://h/other""}}}".
Definition lost_3 := "{""not"":{""$ref"":""other.json#/a""}}".
Definition lost_4 := "{""not"":{""$ref"":""http://h/page#/definitions/a""}}".
Definition kept := "{""not"":{""$ref"":""http://h/page#/definitions/c""}}".
Notation here t := (known_documents web NewSchemaLoader (the_doc t)).
Notation its_doc t := (resolve parse0 inherits0 "" (the_doc t)).
Notation its_view t := (view web NewSchemaLoader (LString t)).
Definition lost_fuel : nat := 900.
Definition refs_of (t : string) : pool := chart (its_view t) (here t) 20 (mentioned (its_doc t)) [].
Definition met_of (t : string) : list (draft * value) := collect_met (glead (its_view t) (here t) (its_doc t) Hybrid) 60 [(Hybrid, its_doc t)] [].
Definition lost_ready (t : string) : bool :=
  (text_ready web NewSchemaLoader (LString t) (the_doc t) && charted_b (its_view t) (here t) (refs_of t) (its_doc t) && (lib_fuel (its_doc t) (refs_of t) <? lost_fuel) &&
   draft_eqb (root_draft web NewSchemaLoader (its_doc t)) Hybrid && (one_draft_b (refs_of t) Hybrid || all_drafts_b (refs_of t)) &&
   walk_b (glead (its_view t) (here t) (its_doc t) Hybrid) (met_of t) (Hybrid, its_doc t))%bool.
Definition outcome (t : string) : option cerr := match Compile web lost_fuel in_order NewSchemaLoader (LString t) with LErr e _ => Some e | _ => None end.
Example C66_example :
  forallb lost_ready [lost_1; lost_2; lost_3; lost_4; kept] = true /\
  map outcome [lost_1; lost_2; lost_3; lost_4] =
    [Some EPointer; Some EFetch; Some (EMsg "Reference {{.reference}} must be canonical" [("reference", "other.json#/a")]); Some EPointer] /\
  (exists sch sl, Compile web lost_fuel in_order NewSchemaLoader (LString kept) = LOk sch sl).
Proof. split; [vm_compute; reflexivity|]. split; [vm_compute; reflexivity|]. eexists. eexists. vm_compute. reflexivity. Qed.
(** They meet the hypotheses. *)
Example C66_hypotheses t : decode_use_number t = Some (the_doc t) -> lost_ready t = true ->
  source web NewSchemaLoader (LString t) (here t) (its_doc t) /\ charted (its_view t) (here t) (refs_of t) (its_doc t) /\ lib_fuel (its_doc t) (refs_of t) < lost_fuel /\
  let met := meets (heads_to (its_view t) (here t) (its_doc t)) (root_draft web NewSchemaLoader (its_doc t)) (its_doc t) in
  (forall d v, met d v -> all_numbers (moderate 1000000) v) /\ settled_in (found (its_view t) (here t) (its_doc t)) (root_draft web NewSchemaLoader (its_doc t)) /\
  (forall d m k, met d (VMap m) -> assoc "$ref" m = Some (VStr k) -> sealed (fun p => e_re_ok go0 p = true) d m).
Proof.
  intros ED B. unfold lost_ready in B. rewrite !andb_true_iff in B. destruct B as (((((B1 & B2) & B3) & B4) & B5) & B6). apply draft_eqb_eq in B4. rewrite B4.
  split; [apply text_source; auto; apply (serving_laws [] [])|]. pose proof (charted_checked _ _ _ _ B2) as C. split; [exact C|]. split; [apply Nat.ltb_lt; exact B3|].
  split; [|split].
  - eapply walk_numbers; [apply glead_only|discriminate|exact B6].
  - eapply settled_charted; eauto.
  - intros d m k. eapply walk_sealed; [apply glead_only|exact B6].
Qed.
