(** Compile through any loader: references to documents that are known, or
    fetched on the way (C01, C05, C20), and with meta-schema validation (C47).

    [source w sl l p doc] (LoadFetch.v): what the loader sl starts from when
    given l: doc is the text of l with its references resolved, or what the
    reference of l leads to; p holds the documents known then.
    [heads_to] (SpecFetch.v): where references lead, known documents first.
    [url_laws], [web_laws], [meta_urls] are asked of the URL library; see
    World2.v for worlds that have them. *)
From Verif Require Import CheckedFetch.

(** ** C01 *)
Theorem C01_any_loader : forall w, url_laws w -> web_laws w -> forall fuel o sl l p doc sch sl',
  fair o -> loader_fit l -> sl_ok sl -> sl_validate sl = false -> source w sl l p doc ->
  let d := root_draft w sl doc in
  all_found (view w sl l) p doc -> settled_in (found (view w sl l) p doc) d ->
  Compile w fuel o sl l = LOk sch sl' ->
  let T := heads_to (view w sl l) p doc d in
  guarded T d doc ->
  forall v, usual (e_ratlim (w_go w)) v ->
  (forall d' m x, needed T d doc v d' (VMap m) x -> assoc "$ref" m = None -> fits (e_ratlim (w_go w)) m x) ->
  forall o', fair o' ->
  exists r, returns (w_go w) (s_heap sch) (s_root sch) o' v r /\
    (Valid r = true <-> meaning (pat (w_go w)) (fmt (w_go w)) same T d doc v).
Proof. exact source_total. Qed.
Print Assumptions C01_any_loader.

(** Two documents on the web; the first is compiled by its URL, the second is
    fetched on the way. *)
Definition web_tree := "{""$schema"":""http://json-schema.org/draft-07/schema#"",""$id"":""http://x/tree"",""minProperties"":1,
  ""properties"":{""n"":{""$ref"":""types#/definitions/pos""},""kids"":{""items"":{""$ref"":""#""}}}}".
Definition web_types := "{""definitions"":{""pos"":{""exclusiveMinimum"":0,""if"":{""minimum"":10},""then"":{""maximum"":20}}}}".
Definition web := serving [] [("http://x/tree", web_tree); ("http://x/types", web_types)].
Definition web_load := LRef 0 "http://x/tree".
Definition web_doc : value := Eval vm_compute in match fetched_doc web NewSchemaLoader web_load "http://x/tree" with Some q => fst q | None => VNil end.
Definition web_pool : pool := [("http://x/tree", Spd web_doc (Some Draft7))].
Definition web_ce := view web NewSchemaLoader web_load.
Definition web_lib : pool := Eval vm_compute in gather web_ce web_pool 20 (mentioned web_doc) [].
Definition web_lead := flead web_ce web_pool Draft7.
Definition web_all : list (draft * value) := Eval vm_compute in collect web_lead 40 [(Draft7, web_doc)] [].
Lemma web_source : source web NewSchemaLoader web_load web_pool web_doc.
Proof. apply (fetched_checked web NewSchemaLoader web_load "http://x/tree" web_doc (Some Draft7)); vm_compute; reflexivity. Qed.
Lemma web_covered : covered web_ce web_pool web_lib web_doc.
Proof. apply covered_checked. vm_compute. reflexivity. Qed.
Example C01_any_loader_example :
  source web NewSchemaLoader web_load web_pool web_doc /\ root_draft web NewSchemaLoader web_doc = Draft7 /\
  all_found web_ce web_pool web_doc /\ settled_in (found web_ce web_pool web_doc) Draft7 /\
  (let T := heads_to web_ce web_pool web_doc Draft7 in
   guarded T Draft7 web_doc /\ forall d m, within T Draft7 web_doc d (VMap m) -> assoc "$ref" m = None -> regular 1000000 m) /\
  match Compile web FUEL in_order NewSchemaLoader web_load with
  | LOk sch _ => error_names (validateDocument go0 (s_heap sch) FUEL in_order (s_root sch) (the_doc "{""n"":20,""kids"":[{""n"":0},{""n"":21},{}]}")) =
      [("number_gt", "kids.0.n"); ("condition_then", "kids.1.n"); ("number_lte", "kids.1.n"); ("array_min_properties", "kids.2")]
  | _ => False
  end.
Proof.
  split; [exact web_source|]. split; [vm_compute; reflexivity|]. split; [exact (covered_all _ _ _ _ web_covered)|].
  split; [apply (settled_checked _ _ _ _ _ web_covered); vm_compute; reflexivity|]. split; [|vm_compute; reflexivity].
  assert (G : guarded_b web_lead 30 web_all (Draft7, web_doc) = true) by (vm_compute; reflexivity).
  assert (R : regulars_b 1000000 web_all = true) by (vm_compute; reflexivity).
  split; [eapply guarded_checked; [apply flead_only|exact G]|]. intros d m. eapply regulars_checked; [apply flead_only|exact G|exact R].
Qed.

(** ** C05, C24: bounded recursion *)
(** [lib] lists the documents referred to; the document is at most [n] deep
    between steps into the instance.  Compile needs no more fuel than
    [lib_fuel doc lib], Validate no more than [vsize v * S n + n]. *)
Theorem C05_bounded : forall w, url_laws w -> web_laws w -> forall fuel o sl l p doc lib n,
  fair o -> loader_fit l -> sl_ok sl -> sl_validate sl = false -> source w sl l p doc ->
  let ce := view w sl l in let d := root_draft w sl doc in let T := heads_to ce p doc d in
  covered ce p lib doc -> lib_fuel doc lib < fuel -> settled_in (found ce p doc) d ->
  (forall d' x, meets (heads_to ce p doc) d doc d' x -> right ce d' x) -> shallow T n d doc ->
  exists sch p', Compile w fuel o sl l = LOk sch (with_pool p' (with_factory (LoaderFactory l) sl)) /\ grown ce p p' /\
    forall v, usual (e_ratlim (w_go w)) v ->
    (forall d' m x, needed T d doc v d' (VMap m) x -> assoc "$ref" m = None -> fits (e_ratlim (w_go w)) m x) ->
    forall k o', fair o' -> vsize v * S n + n <= k ->
    exists r, validateDocument (w_go w) (s_heap sch) k o' (s_root sch) v = Ok r /\
      (Valid r = true <-> meaning (pat (w_go w)) (fmt (w_go w)) same T d doc v).
Proof. exact source_decides. Qed.
Print Assumptions C05_bounded.

Theorem C20_any_loader : forall w, url_laws w -> web_laws w -> forall fuel o sl l p doc lib,
  fair o -> loader_fit l -> sl_ok sl -> sl_validate sl = false -> source w sl l p doc ->
  covered (view w sl l) p lib doc -> lib_fuel doc lib < fuel ->
  let met := meets (heads_to (view w sl l) p doc) (root_draft w sl doc) doc in
  match Compile w fuel o sl l with
  | LOk _ _ => read_ok (fun p => e_re_ok (w_go w) p = true) (fun s => w_parse w s <> None) (root_draft w sl doc) doc
  | LErr _ _ => ~ forall d v, met d v -> right (view w sl l) d v
  | LPanic => ~ forall d v, met d v -> tame (view w sl l) v
  | LNoFuel => False
  end.
Proof. exact source_shape. Qed.
Print Assumptions C20_any_loader.

Definition web_met : list (draft * value) := Eval vm_compute in collect_met web_lead 60 [(Draft7, web_doc)] [].
Definition web_url (s : string) : bool := match parse0 s with Some _ => true | None => false end.
Example C05_bounded_example :
  covered web_ce web_pool web_lib web_doc /\ lib_fuel web_doc web_lib < 200 /\
  (forall d x, meets (heads_to web_ce web_pool web_doc) Draft7 web_doc d x -> right web_ce d x) /\
  shallow (heads_to web_ce web_pool web_doc Draft7) 4 Draft7 web_doc.
Proof.
  split; [exact web_covered|]. split; [apply Nat.ltb_lt; vm_compute; reflexivity|]. split.
  { apply (meets_right web_lead web_url _ Draft7 (flead_only _ _ _ _)) with (L := web_met); [discriminate| |vm_compute; reflexivity].
    unfold web_url. intros s. change (u_parse web_ce s) with (parse0 s). destruct (parse0 s); discriminate. }
  eapply (shallow_checked web_lead); [apply flead_only|]. instantiate (1 := web_all). vm_compute. reflexivity.
Qed.

(** ** C47 *)
(** [conforms env d doc] (SpecMeta.v): doc is valid, by the meaning of JSON
    Schema, against the text of the meta-schema of draft d that the library
    ships.  [meta_url]: the meta-schema asked for.  [checking] (MetaLoad.v): a
    loader with Validate and AutoDetect on is about to compile l, which starts
    from doc; nothing but the shipped meta-schemas is registered at their URLs. *)
Theorem C47_rejects : forall w, url_laws w -> web_laws w -> meta_urls w -> (0 <= e_ratlim (w_go w))%Z ->
  forall fuel o sl l p doc d, checking w fuel o sl l p doc d -> d <> Hybrid -> ~ conforms (w_go w) d doc ->
  exists es sl', meta_tells (w_go w) d doc es /\ Compile w fuel o sl l = LErr (EMeta es) sl'.
Proof. exact checked_rejects. Qed.
Print Assumptions C47_rejects.
Theorem C47_verdict : forall w, url_laws w -> web_laws w -> meta_urls w -> (0 <= e_ratlim (w_go w))%Z ->
  forall fuel o sl l p doc d' sch sl', checking w fuel o sl l p doc d' -> Compile w fuel o sl l = LOk sch sl' ->
  (d' = Hybrid \/ conforms (w_go w) d' doc) /\
  let d := root_draft w sl doc in
  (all_found (view w sl l) p doc -> settled_in (found (view w sl l) p doc) d ->
  let T := heads_to (view w sl l) p doc d in
  guarded T d doc ->
  forall v, usual (e_ratlim (w_go w)) v ->
  (forall d' m x, needed T d doc v d' (VMap m) x -> assoc "$ref" m = None -> fits (e_ratlim (w_go w)) m x) ->
  forall o', fair o' ->
  exists r, returns (w_go w) (s_heap sch) (s_root sch) o' v r /\
    (Valid r = true <-> meaning (pat (w_go w)) (fmt (w_go w)) same T d doc v)).
Proof. exact checked_verdict. Qed.
Print Assumptions C47_verdict.
Theorem C47_accepts : forall w, url_laws w -> web_laws w -> meta_urls w -> (0 <= e_ratlim (w_go w))%Z ->
  forall fuel o sl l p doc d' lib n, checking w fuel o sl l p doc d' -> d' = Hybrid \/ conforms (w_go w) d' doc ->
  let ce := view w sl l in let d := root_draft w sl doc in let T := heads_to ce p doc d in
  covered ce p lib doc -> lib_fuel doc lib < fuel -> settled_in (found ce p doc) d ->
  (forall d' x, meets (heads_to ce p doc) d doc d' x -> right ce d' x) -> shallow T n d doc ->
  exists sch p', Compile w fuel o sl l = LOk sch (with_pool p' (with_factory (LoaderFactory l) sl)) /\ grown ce p p' /\
    forall v, usual (e_ratlim (w_go w)) v ->
    (forall d' m x, needed T d doc v d' (VMap m) x -> assoc "$ref" m = None -> fits (e_ratlim (w_go w)) m x) ->
    forall k o', fair o' -> vsize v * S n + n <= k ->
    exists r, validateDocument (w_go w) (s_heap sch) k o' (s_root sch) v = Ok r /\
      (Valid r = true <-> meaning (pat (w_go w)) (fmt (w_go w)) same T d doc v).
Proof. exact checked_accepts. Qed.
Print Assumptions C47_accepts.
Theorem C47_add_schema : forall w, url_laws w -> web_laws w -> meta_urls w -> (0 <= e_ratlim (w_go w))%Z ->
  forall fuel o url l sl ref doc d, fair o -> loader_fit l -> sl_ok sl -> sl_validate sl = true -> meta_intact (sl_pool sl) ->
  w_parse w url = Some ref -> fst (LoadJSON w l) = Some doc -> ordinary (e_ratlim (w_go w)) doc ->
  (sl_auto sl = true -> well_declared (w_parse w) doc) -> meta_url w sl doc = meta_at d -> meta_enough d doc fuel -> d <> Hybrid ->
  exists sl1, meta_intact (sl_pool sl1) /\ sl_validate sl1 = true /\ (forall r e, assoc r (sl_pool sl) = Some e -> assoc r (sl_pool sl1) = Some e) /\
    (conforms (w_go w) d doc /\ AddSchema w fuel o url l sl = lbind (pool_parseReferences w (shift o 1) doc ref true sl1) (fun _ sl => LOk tt sl) \/
     ~ conforms (w_go w) d doc /\ exists es, meta_tells (w_go w) d doc es /\ AddSchema w fuel o url l sl = LErr (EMeta es) sl1).
Proof. exact AddSchema_checked. Qed.
Print Assumptions C47_add_schema.
Theorem C47_add_schemas : forall w, url_laws w -> web_laws w -> meta_urls w -> (0 <= e_ratlim (w_go w))%Z ->
  forall fuel o l ls sl doc d, fair o -> loader_fit l -> sl_ok sl -> sl_validate sl = true -> meta_intact (sl_pool sl) ->
  fst (LoadJSON w l) = Some doc -> ordinary (e_ratlim (w_go w)) doc ->
  (sl_auto sl = true -> well_declared (w_parse w) doc) -> meta_url w sl doc = meta_at d -> meta_enough d doc fuel -> d <> Hybrid ->
  exists sl1, meta_intact (sl_pool sl1) /\ sl_validate sl1 = true /\ (forall r e, assoc r (sl_pool sl) = Some e -> assoc r (sl_pool sl1) = Some e) /\
    (conforms (w_go w) d doc /\ AddSchemas w fuel o (l :: ls) sl = lbind (pool_parseReferences w (shift o 1) doc "" false sl1) (fun _ sl => AddSchemas w fuel (shift o 2) ls sl) \/
     ~ conforms (w_go w) d doc /\ exists es, meta_tells (w_go w) d doc es /\ AddSchemas w fuel o (l :: ls) sl = LErr (EMeta es) sl1).
Proof. exact AddSchemas_checked. Qed.
Print Assumptions C47_add_schemas.

(** A draft 7 schema that conforms, and one that Compile alone would take but
    the meta-schema does not ("examples" must be an array). *)
Definition enough : nat := 70 * 80.
Definition meta_good := "{""$schema"":""http://json-schema.org/draft-07/schema#"",""items"":[true,{""$ref"":""#/definitions/a""}],""definitions"":{""a"":{""minLength"":2}}}".
Definition meta_bad := "{""$schema"":""http://json-schema.org/draft-07/schema#"",""items"":{""examples"":7}}".
Notation here t := (known_documents (serving [] []) strict (the_doc t)).
Notation its_doc t := (resolve parse0 inherits0 "" (the_doc t)).
Definition bad_ce := view (serving [] []) strict (LString meta_bad).
Definition bad_met : list (draft * value) := Eval vm_compute in collect_met (flead bad_ce (here meta_bad) Draft7) 60 [(Draft7, its_doc meta_bad)] [].
Definition bad_all : list (draft * value) := Eval vm_compute in collect (flead bad_ce (here meta_bad) Draft7) 60 [(Draft7, its_doc meta_bad)] [].
Example C47_example :
  checking (serving [] []) enough in_order strict (LString meta_good) (here meta_good) (its_doc meta_good) Draft7 /\
  checking (serving [] []) enough in_order strict (LString meta_bad) (here meta_bad) (its_doc meta_bad) Draft7 /\
  conforms go0 Draft7 (its_doc meta_good) /\ ~ conforms go0 Draft7 (its_doc meta_bad) /\
  (exists es sl, Compile (serving [] []) enough in_order strict (LString meta_bad) = LErr (EMeta es) sl) /\
  (exists sch sl, Compile (serving [] []) enough in_order NewSchemaLoader (LString meta_bad) = LOk sch sl).
Proof.
  assert (C : forall t, decode_use_number t = Some (the_doc t) -> checking_b (serving [] []) Draft7 enough t = true ->
            checking (serving [] []) enough in_order strict (LString t) (here t) (its_doc t) Draft7).
  { intros t. apply (checking_checked (serving [] []) Draft7 enough t (serving_laws _ _) (serving_web _ _)). }
  assert (C1 := C meta_good). assert (C2 := C meta_bad). clear C.
  specialize (C1 ltac:(vm_compute; reflexivity) ltac:(vm_compute; reflexivity)). specialize (C2 ltac:(vm_compute; reflexivity) ltac:(vm_compute; reflexivity)).
  assert (R1 : exists sch sl, Compile (serving [] []) enough in_order strict (LString meta_good) = LOk sch sl) by (eexists; eexists; vm_compute; reflexivity).
  assert (R2 : exists es sl, Compile (serving [] []) enough in_order strict (LString meta_bad) = LErr (EMeta es) sl) by (eexists; eexists; vm_compute; reflexivity).
  split; [exact C1|]. split; [exact C2|]. split; [|split; [|split; [exact R2|eexists; eexists; vm_compute; reflexivity]]].
  - destruct R1 as (sch & sl & R1). destruct (C47_verdict _ (serving_laws _ _) (serving_web _ _) (serving_meta _ _) ltac:(discriminate) _ _ _ _ _ _ _ _ _ C1 R1) as [[N|H] _]; [discriminate N|exact H].
  - destruct R2 as (es & sl & R2).
    refine (rejected_not _ _ _ _ _ _ _ _ [] 4 Draft7 _ sl web_url bad_met bad_all (serving_laws _ _) (serving_web _ _) (serving_meta _ _) _ _ C2 _ _ _ _ _ _ R2); try (vm_compute; reflexivity); [discriminate|].
    unfold web_url. intros s. change (w_parse (serving [] []) s) with (parse0 s). destruct (parse0 s); discriminate.
Qed.
