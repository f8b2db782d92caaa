(** Documents held beforehand and documents fetched on the way (C70).

    [cached], [ahead], [distinct_names]: SpecCache.v.  [finds], [source],
    [heads_to], [charted]: as for C01, C66 (PropFetch.v, PropLost.v).
    [addable]: as for C25 (PropPool.v). *)
From Verif Require Import World2 CheckedFetch PropFetch CheckedPool CacheProps.
From Verif Require Import SpecCache.
Open Scope string_scope.
Open Scope list_scope.
Open Scope nat_scope.

(** ** C70 *)
(** Holding beforehand what can be found: every reference leads where it led. *)
Theorem C70_finds : forall ce, fetch_laws ce -> forall p p' r e, cached ce p p' -> u_parse ce r = Some r ->
  (finds ce p' r e <-> finds ce p r e).
Proof. exact cached_finds. Qed.
Print Assumptions C70_finds.
(** The schemas compiled with and without accept the same instances. *)
Theorem C70_verdict : forall w, url_laws w -> web_laws w -> forall fuel fuel' o1 o2 sl sl' l p doc sch sch' sl1 sl2,
  fair o1 -> fair o2 -> loader_fit l -> sl_ok sl -> sl_ok sl' -> sl_validate sl = false -> source w sl l p doc ->
  ahead w sl sl' l -> distinct_names w sl sl' l ->
  let d := root_draft w sl doc in
  all_found (view w sl l) p doc -> settled_in (found (view w sl l) p doc) d ->
  let T := heads_to (view w sl l) p doc d in
  guarded T d doc ->
  Compile w fuel o1 sl l = LOk sch sl1 -> Compile w fuel' o2 sl' l = LOk sch' sl2 ->
  forall v, usual (e_ratlim (w_go w)) v ->
  (forall d' m x, needed T d doc v d' (VMap m) x -> assoc "$ref" m = None -> fits (e_ratlim (w_go w)) m x) ->
  forall o o', fair o -> fair o' ->
  exists r r', returns (w_go w) (s_heap sch) (s_root sch) o v r /\ returns (w_go w) (s_heap sch') (s_root sch') o' v r' /\ Valid r = Valid r'.
Proof. exact ahead_verdict. Qed.
Print Assumptions C70_verdict.
(** The same schemas compile. *)
Theorem C70_accepted : forall w, url_laws w -> web_laws w -> forall fuel fuel' o1 o2 sl sl' l p doc lib,
  fair o1 -> fair o2 -> loader_fit l -> sl_ok sl -> sl_ok sl' -> sl_validate sl = false -> source w sl l p doc ->
  ahead w sl sl' l -> distinct_names w sl sl' l ->
  charted (view w sl l) p lib doc -> lib_fuel doc lib < fuel -> lib_fuel doc lib < fuel' ->
  let T := heads_to (view w sl l) p doc in let met := meets T (root_draft w sl doc) doc in
  (forall d v, met d v -> all_numbers (moderate (e_ratlim (w_go w))) v) -> settled_in (found (view w sl l) p doc) (root_draft w sl doc) ->
  (forall d m k, met d (VMap m) -> assoc "$ref" m = Some (VStr k) -> sealed (fun p => e_re_ok (w_go w) p = true) d m) ->
  (exists sch sl1, Compile w fuel o1 sl l = LOk sch sl1) <-> (exists sch sl2, Compile w fuel' o2 sl' l = LOk sch sl2).
Proof. exact ahead_accepts. Qed.
Print Assumptions C70_accepted.
(** A loader gets ahead by being given, with AddSchema, the document that is
    served at that URL, ... *)
Theorem C70_added : forall w, url_laws w -> web_laws w -> forall fuel o sl url la ref doc l, fair o -> sl_ok sl -> utf8_text url -> addable w sl url la ref doc ->
  w_strip w ref = ref -> w_canonical w ref = true -> loadReference w (LoaderFactory l) ref = Some doc ->
  well_declared (w_parse w) doc -> sl_auto sl = true \/ named_draft (w_parse w) doc = None ->
  (forall r x, In (r, x) (ids_of (w_parse w) (w_inherits w) ref doc) -> r = ref) ->
  exists sl1, AddSchema w fuel o url la sl = LOk tt sl1 /\ sl_ok sl1 /\ ahead w sl sl1 l.
Proof. exact added_ahead. Qed.
Print Assumptions C70_added.
(** ... and by compiling another schema by its URL before. *)
Theorem C70_compiled : forall w, url_laws w -> web_laws w -> forall fuel o sl l r e sch sl1,
  fair o -> loader_fit l -> sl_ok sl -> sl_validate sl = false ->
  JsonReference w l = Some r -> r <> "" -> finds (view w sl l) (sl_pool sl) r e -> all_numbers (moderate (e_ratlim (w_go w))) (sp_doc e) ->
  (sl_auto sl = true -> well_declared (w_parse w) (sp_doc e)) -> all_found (view w sl l) (sl_pool sl) (sp_doc e) ->
  Compile w fuel o sl l = LOk sch sl1 ->
  forall l', LoaderFactory l' = LoaderFactory l -> sl_ok sl1 /\ ahead w sl sl1 l'.
Proof. exact compiled_ahead. Qed.
Print Assumptions C70_compiled.

(** With Validate on ([checking], [meta_enough]: MetaLoad.v). *)
Theorem C70_checked_verdict : forall w, url_laws w -> web_laws w -> meta_urls w -> (0 <= e_ratlim (w_go w))%Z ->
  forall fuel fuel' o1 o2 sl sl' l p doc d' sch sch' sl1 sl2,
  checking w fuel o1 sl l p doc d' -> fair o2 -> sl_ok sl' -> meta_enough d' doc fuel' ->
  ahead w sl sl' l -> distinct_names w sl sl' l ->
  let d := root_draft w sl doc in
  all_found (view w sl l) p doc -> settled_in (found (view w sl l) p doc) d ->
  let T := heads_to (view w sl l) p doc d in
  guarded T d doc ->
  Compile w fuel o1 sl l = LOk sch sl1 -> Compile w fuel' o2 sl' l = LOk sch' sl2 ->
  forall v, usual (e_ratlim (w_go w)) v ->
  (forall d' m x, needed T d doc v d' (VMap m) x -> assoc "$ref" m = None -> fits (e_ratlim (w_go w)) m x) ->
  forall o o', fair o -> fair o' ->
  exists r r', returns (w_go w) (s_heap sch) (s_root sch) o v r /\ returns (w_go w) (s_heap sch') (s_root sch') o' v r' /\ Valid r = Valid r'.
Proof. exact ahead_checked_verdict. Qed.
Print Assumptions C70_checked_verdict.
Theorem C70_checked_accepted : forall w, url_laws w -> web_laws w -> meta_urls w -> (0 <= e_ratlim (w_go w))%Z ->
  forall fuel fuel' o1 o2 sl sl' l p doc d' lib,
  checking w fuel o1 sl l p doc d' -> fair o2 -> sl_ok sl' -> meta_enough d' doc fuel' ->
  ahead w sl sl' l -> distinct_names w sl sl' l ->
  charted (view w sl l) p lib doc -> lib_fuel doc lib < fuel -> lib_fuel doc lib < fuel' ->
  let T := heads_to (view w sl l) p doc in let met := meets T (root_draft w sl doc) doc in
  (forall d v, met d v -> all_numbers (moderate (e_ratlim (w_go w))) v) -> settled_in (found (view w sl l) p doc) (root_draft w sl doc) ->
  (forall d m k, met d (VMap m) -> assoc "$ref" m = Some (VStr k) -> sealed (fun p => e_re_ok (w_go w) p = true) d m) ->
  (exists sch sl1, Compile w fuel o1 sl l = LOk sch sl1) <-> (exists sch sl2, Compile w fuel' o2 sl' l = LOk sch sl2).
Proof. exact ahead_checked_accepts. Qed.
Print Assumptions C70_checked_accepted.
Theorem C70_checked_compiled : forall w, url_laws w -> web_laws w -> meta_urls w -> (0 <= e_ratlim (w_go w))%Z ->
  forall fuel o sl l doc d sch sl1, checking w fuel o sl l (sl_pool sl) doc d -> all_found (view w sl l) (sl_pool sl) doc ->
  Compile w fuel o sl l = LOk sch sl1 -> forall l', LoaderFactory l' = LoaderFactory l -> sl_ok sl1 /\ ahead w sl sl1 l'.
Proof. exact checked_ahead. Qed.
Print Assumptions C70_checked_compiled.

(** The documents of C01_any_loader_example (PropFetch.v): the second one is
    given to the loader beforehand. *)
Definition C70_held : sloader := loader_after (AddSchema web FUEL in_order "http://x/types" (LString web_types) NewSchemaLoader).
Example C70_example :
  ahead web NewSchemaLoader C70_held web_load /\ distinct_names web NewSchemaLoader C70_held web_load /\ sl_ok C70_held /\
  map fst (sl_pool C70_held) = ["http://x/types"] /\
  match Compile web FUEL in_order C70_held web_load with
  | LOk sch _ => error_names (validateDocument go0 (s_heap sch) FUEL in_order (s_root sch) (the_doc "{""n"":20,""kids"":[{""n"":0},{""n"":21},{}]}")) =
      [("number_gt", "kids.0.n"); ("condition_then", "kids.1.n"); ("number_lte", "kids.1.n"); ("array_min_properties", "kids.2")]
  | _ => False
  end.
Proof.
  assert (A : addable web NewSchemaLoader "http://x/types" (LString web_types) "http://x/types" (the_doc web_types)) by (apply addable_checked; vm_compute; reflexivity).
  assert (B : exists sl1, AddSchema web FUEL in_order "http://x/types" (LString web_types) NewSchemaLoader = LOk tt sl1 /\ sl_ok sl1 /\ ahead web NewSchemaLoader sl1 web_load).
  { apply (C70_added web (serving_laws _ _) (serving_web _ _)) with (ref := "http://x/types") (doc := the_doc web_types).
    - exact in_order_fair.
    - exact sl_ok_new.
    - apply utf8_checked. vm_compute. reflexivity.
    - exact A.
    - vm_compute. reflexivity.
    - vm_compute. reflexivity.
    - vm_compute. reflexivity.
    - apply declared_checked. vm_compute. reflexivity.
    - left. reflexivity.
    - intros r x H. vm_compute in H. destruct H. }
  destruct B as (sl1 & E & H0 & H).
  assert (E1 : C70_held = sl1) by (unfold C70_held; rewrite E; reflexivity). rewrite <- E1 in H, H0.
  split; [exact H|]. split; [|split; [exact H0|split; [vm_compute; reflexivity|vm_compute; reflexivity]]].
  split; [intros r J _; vm_compute in J; injection J as <-; vm_compute; reflexivity|]. intros J. vm_compute in J. discriminate J.
Qed.

(** With Validate on: the tree is compiled by its URL first; the loader then
    holds the meta-schema as well, and compiles a text that refers to the tree. *)
Definition C70_strict_ce := view web CheckedFetch.strict web_load.
Definition C70_strict_lib : pool := Eval vm_compute in gather C70_strict_ce [] 20 (mentioned web_doc) [].
Definition C70_after : sloader := match Compile web PropFetch.enough in_order CheckedFetch.strict web_load with LOk _ sl => sl | _ => NewSchemaLoader end.
Definition C70_compiles : bool := match Compile web PropFetch.enough in_order CheckedFetch.strict web_load with LOk _ _ => true | _ => false end.
Definition C70_list := LString "{""items"":{""$ref"":""http://x/tree""}}".
Definition names_b (w : world) (sl' : sloader) (raw : value) : bool :=
  forallb (fun q => forallb (fun i => negb (String.eqb (fst q) i) && negb (String.eqb (w_strip w (fst q)) i))%bool
                      ("" :: map fst (ids_of (w_parse w) (w_inherits w) "" raw))) (sl_pool sl').
Lemma names_checked w sl sl' l raw : JsonReference w l = Some "" -> w_strip w "" = "" -> fst (LoadJSON w l) = Some raw -> names_b w sl' raw = true ->
  distinct_names w sl sl' l.
Proof.
  intros EJ ES EL B. split; [intros r E _; congruence|]. intros _ raw' EL' r e i E Hi. assert (raw' = raw) by congruence. subst raw'.
  apply assoc_In in E. unfold names_b in B. rewrite forallb_forall in B. specialize (B _ E). rewrite forallb_forall in B.
  assert (In i ("" :: map fst (ids_of (w_parse w) (w_inherits w) "" raw))) as J by (destruct Hi as [->|Hi]; [left|right]; auto).
  specialize (B _ J). cbn [fst] in B. apply andb_prop in B. destruct B as [B1 B2]. rewrite negb_true_iff in B1, B2. apply String.eqb_neq in B1, B2. auto.
Qed.
Example C70_checked_example :
  checking web PropFetch.enough in_order CheckedFetch.strict web_load (sl_pool CheckedFetch.strict) web_doc Draft7 /\ all_found C70_strict_ce (sl_pool CheckedFetch.strict) web_doc /\
  ahead web CheckedFetch.strict C70_after C70_list /\ distinct_names web CheckedFetch.strict C70_after C70_list /\
  map fst (sl_pool C70_after) = "http://x/tree" :: map (append "http://json-schema.org/draft-07/schema")
    [""; "#/definitions/nonNegativeInteger"; "#/definitions/nonNegativeIntegerDefault0"; "#/definitions/schemaArray"; "#/definitions/stringArray"; "#/definitions/simpleTypes"]
    ++ ["http://x/types"] /\
  match Compile web PropFetch.enough in_order C70_after C70_list with
  | LOk sch _ => error_names (validateDocument go0 (s_heap sch) FUEL in_order (s_root sch) (the_doc "[{""n"":20,""kids"":[{""n"":0}]},{}]")) =
      [("number_gt", "0.kids.0.n"); ("array_min_properties", "1")]
  | _ => False
  end.
Proof.
  assert (S : source web CheckedFetch.strict web_load (sl_pool CheckedFetch.strict) (sp_doc (Spd web_doc (Some Draft7)))).
  { apply source_ref with (r := "http://x/tree").
    - vm_compute. reflexivity.
    - discriminate.
    - apply finder_finds. vm_compute. reflexivity.
    - apply moderate_checked. vm_compute. reflexivity.
    - intros _. apply declared_checked. vm_compute. reflexivity. }
  cbn [sp_doc] in S.
  assert (C : checking web PropFetch.enough in_order CheckedFetch.strict web_load (sl_pool CheckedFetch.strict) web_doc Draft7).
  { split; [exact in_order_fair|]. split; [apply utf8_checked; vm_compute; reflexivity|]. split; [exact sl_ok_new|]. split; [reflexivity|]. split; [reflexivity|]. split; [reflexivity|]. split; [exact S|].
    split; [apply meta_free_intact; reflexivity|]. split; [|split; [vm_compute; reflexivity|split; [apply Nat.ltb_lt; vm_compute; reflexivity|apply Nat.leb_le; vm_compute; reflexivity]]].
    apply ordinary_checked; [|vm_compute; reflexivity]. apply (source_doc web (serving_laws _ _) (serving_web _ _) in_order CheckedFetch.strict web_load (sl_pool CheckedFetch.strict) web_doc in_order_fair); [apply utf8_checked; vm_compute; reflexivity|exact sl_ok_new|exact S]. }
  assert (A : all_found C70_strict_ce (sl_pool CheckedFetch.strict) web_doc).
  { apply (covered_all _ _ C70_strict_lib). apply covered_checked. vm_compute. reflexivity. }
  split; [exact C|]. split; [exact A|].
  assert (E : exists sch, Compile web PropFetch.enough in_order CheckedFetch.strict web_load = LOk sch C70_after).
  { assert (B : C70_compiles = true) by (vm_compute; reflexivity). unfold C70_compiles in B. unfold C70_after. destruct (Compile web PropFetch.enough in_order CheckedFetch.strict web_load) as [sch sl| | |]; try discriminate B. eauto. }
  destruct E as [sch E].
  split; [exact (proj2 (C70_checked_compiled web (serving_laws _ _) (serving_web _ _) (serving_meta _ _) ltac:(discriminate) PropFetch.enough in_order CheckedFetch.strict web_load web_doc Draft7 sch C70_after C A E C70_list eq_refl))|].
  split; [|split; [vm_compute; reflexivity|vm_compute; reflexivity]].
  apply names_checked with (raw := the_doc "{""items"":{""$ref"":""http://x/tree""}}"); vm_compute; reflexivity.
Qed.
