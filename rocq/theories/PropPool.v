(** Properties of the document pool of a SchemaLoader (C25 - C29).

    [position parse inherits base v p b x]: in the document v, loaded by the URL
    base, the place p holds x where a schema may stand, and b is the nearest
    enclosing identifier (SpecPaths.v).  [scope b m]: the identifier the object m
    declares, resolved against b, or b itself.  [absolute b s]: the URL text s
    resolved against b.  [top x]: x without what is below it.  [addable]: the
    document loads, its "$schema" is a URL, and neither its URL nor an identifier
    in it is known yet or occurs twice (PoolProps.v).  [history]: any calls on
    the loader, failed ones included, and assignments to its fields. *)
From Verif Require Import CheckedPool.

(** ** C25 *)
Theorem C25_references_resolved : forall w, url_laws w -> forall fuel o sl url l ref doc, fair o -> addable w sl url l ref doc ->
  exists sl' D, AddSchema w fuel o url l sl = LOk tt sl' /\ assoc ref (sl_pool sl') = Some (Spd D (added_draft w sl doc)) /\
    (forall p b m s, position (w_parse w) (w_inherits w) ref doc p b (VMap m) -> assoc "$ref" m = Some (VStr s) ->
       at_path (p ++ [Key "$ref"]) D = Some (VStr (absolute (w_parse w) (w_inherits w) (scope (w_parse w) (w_inherits w) b m) s))) /\
    (forall p, (forall q b m s, position (w_parse w) (w_inherits w) ref doc q b (VMap m) -> assoc "$ref" m = Some (VStr s) -> p <> q ++ [Key "$ref"]) ->
       option_map top (at_path p D) = option_map top (at_path p doc)).
Proof. exact AddSchema_references. Qed.
Print Assumptions C25_references_resolved.

(** A document with nested identifiers, references below them, a "$ref" that is
    no string, a property named "$ref", and references in literals. *)
Definition C25_text := "{""$id"":""http://x/d/"",""properties"":{""$ref"":{""$ref"":""a""},""p"":{""$id"":""e/f"",""items"":{""$ref"":""g""},""const"":{""$id"":""h"",""$ref"":""i""}}},""$ref"":1}".
Definition C25_add : lres unit := AddSchema world0 FUEL backwards "http://y/z" (LString C25_text) NewSchemaLoader.
Example C25_example :
  addable (serving [] []) NewSchemaLoader "http://y/z" (LString C25_text) "http://y/z" (the_doc C25_text) /\
  registered C25_add "http://y/z" =
    Some (the_doc "{""$id"":""http://x/d/"",""properties"":{""$ref"":{""$ref"":""http://x/d/a""},""p"":{""$id"":""e/f"",""items"":{""$ref"":""http://x/d/e/g""},""const"":{""$id"":""h"",""$ref"":""i""}}},""$ref"":1}").
Proof. split; [apply addable_checked; vm_compute; reflexivity|vm_compute; reflexivity]. Qed.

(** Not so when a subschema repeats an identifier already known: it is then
    left as it is, and nothing is reported. *)
Definition C25_sl : sloader := loader_after (AddSchema world0 FUEL in_order "http://x/a" (LString "{}") NewSchemaLoader).
Definition C25_twin := "{""not"":{""$id"":""http://x/a"",""items"":{""$ref"":""c""}}}".
Theorem C25_refuted : exists sl l doc sl' D p b m s,
  history world0 NewSchemaLoader sl /\ fst (LoadJSON world0 l) = Some doc /\ sl_validate sl = false /\
  AddSchema world0 FUEL in_order "http://y/b" l sl = LOk tt sl' /\ assoc "http://y/b" (sl_pool sl') = Some (Spd D None) /\
  position parse0 inherits0 "http://y/b" doc p b (VMap m) /\ assoc "$ref" m = Some (VStr s) /\
  at_path (p ++ [Key "$ref"]) D <> Some (VStr (absolute parse0 inherits0 (scope parse0 inherits0 b m) s)).
Proof.
  exists C25_sl, (LString C25_twin), (the_doc C25_twin), (loader_after (AddSchema world0 FUEL in_order "http://y/b" (LString C25_twin) C25_sl)), (the_doc C25_twin), [Key "not"; Key "items"], "http://x/a", [("$ref", VStr "c")], "c".
  split; [|split; [vm_compute; reflexivity|split; [reflexivity|split; [vm_compute; reflexivity|split; [vm_compute; reflexivity|split; [|split; [reflexivity|vm_compute; discriminate]]]]]]].
  - eapply history_call with (fuel := FUEL) (o := in_order) (c := DoAddSchema "http://x/a" (LString "{}")); [apply history_start|left; vm_compute; reflexivity].
  - assert (E : the_doc C25_twin = VMap [("not", VMap [("$id", VStr "http://x/a"); ("items", VMap [("$ref", VStr "c")])])]) by (vm_compute; reflexivity). rewrite E.
    eapply pos_member; [reflexivity|reflexivity|reflexivity|]. eapply pos_member; [reflexivity|reflexivity|reflexivity|]. apply pos_here.
Qed.
Print Assumptions C25_refuted.

(** ** C26 *)
Theorem C26_literals : forall w, url_laws w -> forall fuel o sl url l ref doc, fair o -> addable w sl url l ref doc ->
  exists sl' D, AddSchema w fuel o url l sl = LOk tt sl' /\ assoc ref (sl_pool sl') = Some (Spd D (added_draft w sl doc)) /\
    (forall p b m k x, position (w_parse w) (w_inherits w) ref doc p b (VMap m) -> k = "const" \/ k = "enum" -> assoc k m = Some x ->
       at_path (p ++ [Key k]) D = Some x /\
       forall q b' x', ~ position (w_parse w) (w_inherits w) ref doc (p ++ Key k :: q) b' x') /\
    (forall r e, r <> ref -> assoc r (sl_pool sl) = None -> assoc r (sl_pool sl') = Some e ->
       exists p b m, position (w_parse w) (w_inherits w) ref doc p b (VMap m) /\ new_scope (w_parse w) (w_inherits w) b m = Some r).
Proof. exact AddSchema_literal_keys. Qed.
Print Assumptions C26_literals.

(** Every identifier in a schema position is registered with its subschema, and no other. *)
Theorem C26_identifiers : forall w, url_laws w -> forall fuel o sl url l ref doc, fair o -> addable w sl url l ref doc ->
  exists sl' D, AddSchema w fuel o url l sl = LOk tt sl' /\ assoc ref (sl_pool sl') = Some (Spd D (added_draft w sl doc)) /\
    forall r e, r <> ref -> (assoc r (sl_pool sl') = Some e <-> assoc r (sl_pool sl) = Some e \/
      exists p b m x, position (w_parse w) (w_inherits w) ref doc p b (VMap m) /\ new_scope (w_parse w) (w_inherits w) b m = Some r /\
                      at_path p D = Some x /\ e = Spd x (added_draft w sl doc)).
Proof. exact AddSchema_identifiers. Qed.
Print Assumptions C26_identifiers.

Definition C26_text := "{""$id"":""http://x/a"",""enum"":[{""$id"":""http://x/no"",""$ref"":""q""}],""not"":{""$id"":""http://x/b"",""const"":[{""$id"":""http://x/no2"",""$ref"":""r""}],""items"":{""$ref"":""s""}}}".
Definition C26_add : lres unit := AddSchema world0 FUEL in_order "http://y/z" (LString C26_text) NewSchemaLoader.
Example C26_example :
  addable (serving [] []) NewSchemaLoader "http://y/z" (LString C26_text) "http://y/z" (the_doc C26_text) /\
  map fst (sl_pool (loader_after C26_add)) = ["http://x/a"; "http://x/b"; "http://y/z"] /\
  registered C26_add "http://x/b" = Some (the_doc "{""$id"":""http://x/b"",""const"":[{""$id"":""http://x/no2"",""$ref"":""r""}],""items"":{""$ref"":""http://x/s""}}").
Proof. split; [apply addable_checked; vm_compute; reflexivity|vm_compute; auto]. Qed.

(** ** C27 *)
Theorem C27_registered_stays : forall w sl sl' r e, history w sl sl' -> assoc r (sl_pool sl) = Some e ->
  assoc r (sl_pool sl') = Some e /\
  forall o h src refs, GetDocument (cenv_of w sl') o r (CState h src (sl_pool sl') refs) = COk e (CState h src (sl_pool sl') refs).
Proof. exact registered_stays. Qed.
Print Assumptions C27_registered_stays.
Theorem C27_existing_url_rejected : forall w fuel o url l sl ref e, w_parse w url = Some ref -> assoc ref (sl_pool sl) = Some e ->
  match AddSchema w fuel o url l sl with LOk _ _ => False | _ => True end.
Proof. exact AddSchema_exists. Qed.
Print Assumptions C27_existing_url_rejected.
Theorem C27_existing_url_error : forall w fuel o url l sl ref e, w_parse w url = Some ref -> assoc ref (sl_pool sl) = Some e ->
  fst (LoadJSON w l) <> None -> sl_validate sl = false -> AddSchema w fuel o url l sl = LErr (EExists ref) sl.
Proof. exact AddSchema_exists_error. Qed.
Print Assumptions C27_existing_url_error.
Theorem C27_existing_id_rejected : forall w, url_laws w -> forall fuel o sl url l ref m r,
  w_parse w url = Some ref -> loader_fit l -> fst (LoadJSON w l) = Some (VMap m) -> all_numbers (moderate (e_ratlim (w_go w))) (VMap m) ->
  new_scope (w_parse w) (w_inherits w) ref m = Some r -> assoc r (sl_pool sl) <> None ->
  match AddSchema w fuel o url l sl with LOk _ _ => False | _ => True end.
Proof. exact AddSchema_id_exists. Qed.
Print Assumptions C27_existing_id_rejected.
Theorem C27_existing_id_rejected_all : forall w, url_laws w -> forall fuel ls o sl l m r,
  In l ls -> loader_fit l -> fst (LoadJSON w l) = Some (VMap m) -> all_numbers (moderate (e_ratlim (w_go w))) (VMap m) ->
  new_scope (w_parse w) (w_inherits w) "" m = Some r -> assoc r (sl_pool sl) <> None ->
  match AddSchemas w fuel o ls sl with LOk _ _ => False | _ => True end.
Proof. exact AddSchemas_id_exists. Qed.
Print Assumptions C27_existing_id_rejected_all.

(** Adding twice, then compiling, then adding the same identifier from elsewhere. *)
Definition C27_first := "{""$id"":""http://x/a"",""minimum"":1}".
Definition C27_other := "{""definitions"":{""p"":{""$id"":""http://x/a"",""minimum"":2}}}".
Definition C27_sl : sloader := loader_after (AddSchemas world0 FUEL in_order [LString C27_first] NewSchemaLoader).
Definition C27_sl' : sloader := loader_after (AddSchemas world0 FUEL in_order [LString C27_other] (loader_after (AddSchema world0 FUEL in_order "http://x/a" (LString "true") C27_sl))).
Example C27_example : history world0 C27_sl C27_sl' /\
  option_map sp_doc (assoc "http://x/a" (sl_pool C27_sl)) = Some (the_doc C27_first) /\
  option_map sp_doc (assoc "http://x/a" (sl_pool C27_sl')) = Some (the_doc C27_first) /\
  AddSchema world0 FUEL in_order "http://x/a" (LString "true") C27_sl = LErr (EExists "http://x/a") C27_sl.
Proof.
  split; [|vm_compute; auto].
  eapply history_call with (fuel := FUEL) (o := in_order) (c := DoAddSchemas [LString C27_other]);
    [eapply history_call with (fuel := FUEL) (o := in_order) (c := DoAddSchema "http://x/a" (LString "true")); [apply history_start|right; exists (EExists "http://x/a"); vm_compute; reflexivity]|left; vm_compute; reflexivity].
Qed.

(** A known identifier declared again, inside another document, is no error. *)
Theorem C27_refuted : exists sl ls sl' doc x p b m r, history world0 NewSchemaLoader sl /\ sl_validate sl = false /\
  assoc r (sl_pool sl) <> None /\ ls = [LString x] /\ decode_use_number x = Some doc /\
  position parse0 inherits0 "" doc p b (VMap m) /\ new_scope parse0 inherits0 b m = Some r /\
  AddSchemas world0 FUEL in_order ls sl = LOk tt sl'.
Proof.
  exists C27_sl, [LString C27_other], (loader_after (AddSchemas world0 FUEL in_order [LString C27_other] C27_sl)), (the_doc C27_other), C27_other,
    [Key "definitions"; Key "p"], "", [("$id", VStr "http://x/a"); ("minimum", VNum "2")], "http://x/a".
  split; [|split; [reflexivity|split; [vm_compute; discriminate|split; [reflexivity|split; [vm_compute; reflexivity|split; [|split; [vm_compute; reflexivity|vm_compute; reflexivity]]]]]]].
  - eapply history_call with (fuel := FUEL) (o := in_order) (c := DoAddSchemas [LString C27_first]); [apply history_start|left; vm_compute; reflexivity].
  - assert (E : the_doc C27_other = VMap [("definitions", VMap [("p", VMap [("$id", VStr "http://x/a"); ("minimum", VNum "2")])])]) by (vm_compute; reflexivity). rewrite E.
    eapply pos_member; [reflexivity|reflexivity|reflexivity|]. eapply pos_member; [reflexivity|reflexivity|reflexivity|]. apply pos_here.
Qed.
Print Assumptions C27_refuted.

(** ** C28 *)
Theorem C28_resolve_stable : forall ce o r s e s', pool_knows ce (st_pool s) r -> GetDocument ce o r s = COk e s' ->
  forall o' r' h src refs, pool_knows ce (st_pool s) r' ->
  outcome (GetDocument ce o' r' (CState h src (st_pool s') refs)) = outcome (GetDocument ce o' r' s).
Proof. exact resolve_stable. Qed.
Print Assumptions C28_resolve_stable.
Theorem C28_resolve_again : forall ce o r s e s', (forall t, u_fragment ce (u_strip ce t) = "") -> fair o ->
  (forall v, c_fetch ce r = Some v -> doc_ok v) ->
  ~ pool_knows ce (st_pool s) r -> GetDocument ce o r s = COk e s' -> r = u_strip ce r \/ assoc r (st_pool s') = None ->
  forall o' h src refs, fair o' -> exists e' s2, GetDocument ce o' r (CState h src (st_pool s') refs) = COk e' s2 /\
    sp_doc e' = sp_doc e /\ (c_autodetect ce = true -> sp_draft e' = sp_draft e).
Proof. exact resolve_again. Qed.
Print Assumptions C28_resolve_again.

(** A page with a schema under a plain name. *)
Definition C28_page := "{""$schema"":""http://json-schema.org/draft-07/schema"",""definitions"":{""p"":{""$id"":""#foo"",""minimum"":1},""q"":{""maxLength"":2}}}".
Definition C28_world : world := serving [] [("http://x/a", C28_page)].
Definition C28_ce : cenv := cenv_of C28_world NewSchemaLoader.
Definition C28_start : cstate := CState [] [] [] [].
Definition doc_of (x : cres spd) : option value := match x with COk e _ => Some (sp_doc e) | _ => None end.
Definition state_of (x : cres spd) : cstate := match x with COk _ s | CErr _ s => s | _ => C28_start end.
Example C28_example :
  let r := "http://x/a#/definitions/q" in
  ~ pool_knows C28_ce (st_pool C28_start) r /\ assoc r (st_pool (state_of (GetDocument C28_ce in_order r C28_start))) = None /\
  doc_of (GetDocument C28_ce in_order r C28_start) = Some (VMap [("maxLength", VNum "2")]) /\
  doc_of (GetDocument C28_ce backwards r (state_of (GetDocument C28_ce in_order r C28_start))) = Some (VMap [("maxLength", VNum "2")]) /\
  pool_knows C28_ce (st_pool (state_of (GetDocument C28_ce in_order r C28_start))) r /\
  (forall t, u_fragment C28_ce (u_strip C28_ce t) = "").
Proof.
  split; [intros [H|H]; apply H; reflexivity|]. split; [vm_compute; reflexivity|]. split; [vm_compute; reflexivity|]. split; [vm_compute; reflexivity|].
  split; [right; vm_compute; discriminate|exact fragment_stripped].
Qed.
(** The plain name is the whole page the first time, and the subschema of that
    name the second time. *)
Theorem C28_refuted : exists w r s e s' e' s2, url_laws w /\ s = CState [] [] [] [] /\
  let ce := cenv_of w NewSchemaLoader in
  GetDocument ce in_order r s = COk e s' /\ GetDocument ce in_order r s' = COk e' s2 /\ sp_doc e <> sp_doc e'.
Proof.
  destruct (GetDocument C28_ce in_order "http://x/a#foo" C28_start) as [e s'| | |] eqn:E1; [|vm_compute in E1; discriminate ..].
  destruct (GetDocument C28_ce in_order "http://x/a#foo" s') as [e' s2| | |] eqn:E2.
  - exists C28_world, "http://x/a#foo", C28_start, e, s', e', s2. split; [apply serving_laws|]. split; [reflexivity|]. cbv zeta. split; [exact E1|]. split; [exact E2|].
    assert (S : s' = state_of (GetDocument C28_ce in_order "http://x/a#foo" C28_start)) by (rewrite E1; reflexivity).
    assert (D1 : doc_of (GetDocument C28_ce in_order "http://x/a#foo" C28_start) = Some (sp_doc e)) by (rewrite E1; reflexivity).
    assert (D2 : doc_of (GetDocument C28_ce in_order "http://x/a#foo" (state_of (GetDocument C28_ce in_order "http://x/a#foo" C28_start))) = Some (sp_doc e')) by (rewrite <- S, E2; reflexivity).
    intros D. rewrite D, <- D2 in D1. vm_compute in D1. discriminate D1.
  - exfalso; vm_compute in E1; injection E1 as <- <-; vm_compute in E2; discriminate.
  - exfalso; vm_compute in E1; injection E1 as <- <-; vm_compute in E2; discriminate.
  - exfalso; vm_compute in E1; injection E1 as <- <-; vm_compute in E2; discriminate.
Qed.
Print Assumptions C28_refuted.
Definition C28_text := "{""$id"":""http://x/a"",""not"":true}".
Definition C28_claim := "{""$id"":""http://x/a#/not""}".
Definition C28_one : sloader := loader_after (AddSchemas world0 FUEL in_order [LString C28_text] NewSchemaLoader).
Definition C28_two : sloader := loader_after (AddSchemas world0 FUEL in_order [LString C28_claim] C28_one).
(** A reference into a known document resolves elsewhere once another document
    declares the reference as its identifier. *)
Theorem C28_added_refuted : exists sl sl' r v v', history world0 NewSchemaLoader sl /\ history world0 sl sl' /\
  doc_of (GetDocument (cenv_of world0 sl) in_order r (CState [] [] (sl_pool sl) [])) = Some v /\
  doc_of (GetDocument (cenv_of world0 sl') in_order r (CState [] [] (sl_pool sl') [])) = Some v' /\ v <> v'.
Proof.
  exists C28_one, C28_two, "http://x/a#/not", (VBool true), (VMap [("$id", VStr "http://x/a#/not")]).
  split; [|split; [|split; [vm_compute; reflexivity|split; [vm_compute; reflexivity|discriminate]]]].
  - eapply history_call with (fuel := FUEL) (o := in_order) (c := DoAddSchemas [LString C28_text]); [apply history_start|left; vm_compute; reflexivity].
  - eapply history_call with (fuel := FUEL) (o := in_order) (c := DoAddSchemas [LString C28_claim]); [apply history_start|left; vm_compute; reflexivity].
Qed.
Print Assumptions C28_added_refuted.

(** ** C29 *)
(** After a successful Compile of a document not given by reference, whatever
    happens to the loader, no other such document can be compiled. *)
Theorem C29_never_again : forall w, url_laws w -> forall fuel o sl l sch sl1,
  (forall fs s, l <> LRef fs s) -> Compile w fuel o sl l = LOk sch sl1 ->
  forall sl2, history w sl1 sl2 -> forall fuel2 o2 l2, (forall fs s, l2 <> LRef fs s) -> fst (LoadJSON w l2) <> None ->
  Compile w fuel2 o2 sl2 l2 = LErr (EExists "") (with_factory 0 sl2).
Proof. exact Compile_once. Qed.
Print Assumptions C29_never_again.
Theorem C29_refuted : exists t1 t2 sch sl1, Compile world0 FUEL in_order NewSchemaLoader (LString t1) = LOk sch sl1 /\
  (exists sch2 sl2, Compile world0 FUEL in_order NewSchemaLoader (LString t2) = LOk sch2 sl2) /\
  Compile world0 FUEL in_order sl1 (LString t2) = LErr (EExists "") sl1.
Proof. exists "{}", "{""type"":""object""}". eexists. eexists. split; [vm_compute; reflexivity|]. split; [eexists; eexists; vm_compute; reflexivity|vm_compute; reflexivity]. Qed.
Print Assumptions C29_refuted.
