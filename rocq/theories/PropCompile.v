(** Properties of schemas compiled from documents (C01, C02, C07, C18, C21, C41,
    C45).

    [url_laws w]: what is assumed of the URL functions of package
    gojsonreference (LoadFacts.v).  [known_documents]: the document itself and
    its subschemas with an id, by URL.  [resolve]: the document with its
    references made absolute.  [leads_to]: what a reference leads to
    (SpecLocate.v).  [meaning]: what a schema means (SpecSchema.v, Meaning.v).
    [guarded]: no schema hands its instance back to itself.  [usual]: a
    decoded JSON value whose numbers are within big.Rat's exponent limit;
    [ordinary]: within float64 range as well.  [fits]: none of the few keyword
    values on which the library deviates from the drafts, and float64 range
    where const, enum or uniqueItems compare values.  [compiled_from w sl doc sch]: Compile on
    the loader state sl, in some iteration order, made sch of doc (LoadAlike.v).
    [alike], [heard]: SpecAlike.v.  [mentioned_in]: a reference text occurring in
    the documents at hand.  [same_result]: same score, and the same errors up to
    order. *)
From Verif Require Import World0 World0Facts Checked Checked0 CheckedAlike CompileRoot.

(** ** C01 *)
Theorem C01_verdict : forall w, url_laws w -> forall fuel o l doc sch sl',
  fair o -> (forall fs s, l <> LRef fs s) -> loader_fit l -> fst (LoadJSON w l) = Some doc ->
  all_numbers (moderate (e_ratlim (w_go w))) doc -> NoDup (map fst (ids_of (w_parse w) (w_inherits w) "" doc)) ->
  let ce := cenv_of w NewSchemaLoader in
  let p := known_documents w NewSchemaLoader doc in
  let d := root_draft w NewSchemaLoader doc in
  let s := resolve (w_parse w) (w_inherits w) "" doc in
  let T := leads_to ce p d in
  closed_refs ce p s -> NewSchema w fuel o l = LOk sch sl' ->
  forall v, usual (e_ratlim (w_go w)) v ->
  (forall d' m x, needed T d s v d' (VMap m) x -> assoc "$ref" m = None -> fits (e_ratlim (w_go w)) m x) ->
  (forall V, meaning_at (pat (w_go w)) (fmt (w_go w)) same T d s v V ->
     forall o' r, fair o' -> returns (w_go w) (s_heap sch) (s_root sch) o' v r -> (Valid r = true <-> V d s v)) /\
  (guarded T d s -> forall o', fair o' ->
     exists r, returns (w_go w) (s_heap sch) (s_root sch) o' v r /\
       (Valid r = true <-> meaning (pat (w_go w)) (fmt (w_go w)) same T d s v)).
Proof. exact new_total. Qed.
Print Assumptions C01_verdict.

Definition C01_schema := "{""$id"":""http://x/tree"",""$schema"":""http://json-schema.org/draft-07/schema#"",
  ""definitions"":{""positive"":{""minimum"":1}},""required"":[""n""],
  ""properties"":{""n"":{""$ref"":""#/definitions/positive"",""maximum"":0},""kids"":{""items"":{""$ref"":""#""}}}}".
Definition C01_good := "{""n"":2,""kids"":[{""n"":1},{""n"":5,""kids"":[]}]}".
Definition C01_bad := "{""n"":2,""kids"":[{""n"":1},{""n"":5,""kids"":[{""n"":0}]}]}".
(** A recursive schema: the hypotheses hold, and the verdicts are as they should be. *)
Example C01_example :
  text_checked world0 20 C01_schema = true /\
  text_means C01_schema C01_good /\ ~ text_means C01_schema C01_bad.
Proof.
  split; [vm_compute; reflexivity|]. split; [apply text_accepts|apply text_rejects]; vm_compute; reflexivity.
Qed.

(** ** C02 *)
(** Two documents that differ only in what stands beside "$ref", or in that
    references of the first are replaced in the second by what they lead to (and
    in keywords their draft does not know), give the same results. *)
Theorem C02_ref_transparent : forall w, url_laws w -> forall sl1 doc1 sch1 sl2 doc2 sch2,
  compiled_from w sl1 doc1 sch1 -> compiled_from w sl2 doc2 sch2 ->
  let T1 := leads_to (cenv_of w sl1) (known_documents w sl1 doc1) (root_draft w sl1 doc1) in
  let T2 := leads_to (cenv_of w sl2) (known_documents w sl2 doc2) (root_draft w sl2 doc2) in
  alike T1 (root_draft w sl1 doc1) (resolve (w_parse w) (w_inherits w) "" doc1) (root_draft w sl2 doc2) (resolve (w_parse w) (w_inherits w) "" doc2) ->
  (forall k d x d' y, mentioned_in w sl1 doc1 k -> mentioned_in w sl2 doc2 k -> T1 k d x -> T2 k d' y -> alike T1 d x d' y) ->
  forall o o' v r, fair o -> fair o' -> wf_value v -> returns (w_go w) (s_heap sch1) (s_root sch1) o v r ->
  exists r', returns (w_go w) (s_heap sch2) (s_root sch2) o' v r' /\ same_result r r'.
Proof. exact compiled_alike. Qed.
Print Assumptions C02_ref_transparent.

(** Examples: both texts compile and the theorem applies to them. *)
Definition both_compile (s t : string) : bool :=
  (compiles_b world0 s && compiles_b world0 t && texts_alike world0 20 s t &&
   match NewSchema world0 FUEL in_order (LString s), NewSchema world0 FUEL in_order (LString t) with LOk a _, LOk b _ => Nat.eqb (s_root a) 0 && Nat.eqb (s_root b) 0 | _, _ => false end)%bool.
Definition same_results (s t : string) : Prop :=
  forall o o' v r, fair o -> fair o' -> wf_value v -> returns go0 (graph s) 0 o v r -> exists r', returns go0 (graph t) 0 o' v r' /\ same_result r r'.
Lemma both_compile_same s t : both_compile s t = true -> same_results s t.
Proof.
  unfold both_compile. rewrite !andb_true_iff. intros (((H1 & H2) & H3) & H4) o o' v r F F' W R. unfold graph in *.
  destruct (NewSchema world0 FUEL in_order (LString s)) as [a sa| | |] eqn:Ea; try discriminate. destruct (NewSchema world0 FUEL in_order (LString t)) as [b sb| | |] eqn:Eb; try discriminate.
  apply andb_prop in H4. destruct H4 as [H4 H5]. apply Nat.eqb_eq in H4, H5. rewrite <- H4 in R. rewrite <- H5.
  destruct (texts_alike_ok world0 20 s t H3) as [A B].
  exact (C02_ref_transparent world0 world0_laws NewSchemaLoader (the_doc s) a NewSchemaLoader (the_doc t) b
    (compiles_checked world0 FUEL in_order s a sa in_order_fair H1 Ea) (compiles_checked world0 FUEL in_order t b sb in_order_fair H2 Eb) A B o o' v r F F' W R).
Qed.
Definition C02_siblings := "{""definitions"":{""pos"":{""minimum"":1}},""required"":[""n""],
  ""properties"":{""n"":{""$ref"":""#/definitions/pos"",""maximum"":0,""type"":""string"",""not"":{}},""kids"":{""items"":{""$ref"":""#"",""minItems"":7}}}}".
Definition C02_bare := "{""definitions"":{""pos"":{""minimum"":1}},""required"":[""n""],
  ""properties"":{""kids"":{""items"":{""$ref"":""#""}},""n"":{""$ref"":""#/definitions/pos""}}}".
Definition C02_inlined := "{""required"":[""n""],""properties"":{""n"":{""minimum"":1},""kids"":{""items"":
  {""required"":[""n""],""properties"":{""n"":{""minimum"":1},""kids"":{""items"":{""$ref"":""#""}}}}}}}".
Example C02_example :
  same_results C02_siblings C02_bare /\ same_results C02_bare C02_siblings /\ same_results C02_siblings C02_inlined /\
  error_names (validate_text C02_siblings C01_bad) = [("number_gte", "kids.1.kids.0.n")] /\
  error_names (validate_text C02_inlined C01_bad) = [("number_gte", "kids.1.kids.0.n")].
Proof.
  split; [apply both_compile_same; vm_compute; reflexivity|]. split; [apply both_compile_same; vm_compute; reflexivity|].
  split; [apply both_compile_same; vm_compute; reflexivity|]. vm_compute. auto.
Qed.
(** One place where a reference can be told from what it leads to: directly
    below additionalProperties, false is reported in its own way. *)
Example C02_additional_boundary :
  error_names (validate_text "{""additionalProperties"":false}" "{""a"":1}") = [("additional_property_not_allowed", "(root)")] /\
  error_names (validate_text "{""additionalProperties"":{""$ref"":""#/definitions/no""},""definitions"":{""no"":false}}" "{""a"":1}") = [("false", "a")].
Proof. vm_compute. auto. Qed.

(** ** C45 *)
(** The results are determined by the document: compiled twice, in whatever
    iteration orders, it reports the same. *)
Theorem C45_results_of_document : forall w, url_laws w -> forall sl doc sch1 sch2,
  compiled_from w sl doc sch1 -> compiled_from w sl doc sch2 ->
  forall o o' v r, fair o -> fair o' -> wf_value v -> returns (w_go w) (s_heap sch1) (s_root sch1) o v r ->
  exists r', returns (w_go w) (s_heap sch2) (s_root sch2) o' v r' /\ same_result r r'.
Proof. exact compiled_same. Qed.
Print Assumptions C45_results_of_document.

(** The two iteration orders give different graphs. *)
Example C45_example : exists sch1 sch2,
  compiled_from world0 NewSchemaLoader (the_doc C01_schema) sch1 /\ compiled_from world0 NewSchemaLoader (the_doc C01_schema) sch2 /\
  s_heap sch1 <> s_heap sch2.
Proof.
  destruct (NewSchema world0 FUEL in_order (LString C01_schema)) as [a sa| | |] eqn:Ea; [|exfalso; vm_compute in Ea; discriminate ..].
  destruct (NewSchema world0 FUEL backwards (LString C01_schema)) as [b sb| | |] eqn:Eb; [|exfalso; vm_compute in Eb; discriminate ..].
  exists a, b. split; [eapply compiles_checked; [apply in_order_fair| |exact Ea]; vm_compute; reflexivity|].
  split; [eapply compiles_checked; [apply backwards_fair| |exact Eb]; vm_compute; reflexivity|].
  intros E. assert (X : map n_property (s_heap a) = map n_property (s_heap b)) by (f_equal; exact E).
  vm_compute in Ea. vm_compute in Eb. injection Ea as <- _. injection Eb as <- _. vm_compute in X. discriminate.
Qed.

(** ** C07 *)
(** Whatever was loaded before, with or without meta-schema validation: a schema
    that Compile returns does not panic on an ordinary instance. *)
Theorem C07_no_panic : forall w, url_laws w -> forall fuel o sl l sch sl', fair o -> loader_fit l ->
  (forall r e, assoc r (sl_pool sl) = Some e -> doc_ok (sp_doc e)) -> Compile w fuel o sl l = LOk sch sl' ->
  forall v o', ordinary (e_ratlim (w_go w)) v -> fair o' -> ~ panics (w_go w) (s_heap sch) (s_root sch) o' v.
Proof. exact compile_no_panic. Qed.
Print Assumptions C07_no_panic.

Example C07_example : exists sch sl, NewSchema world0 FUEL in_order (LString C01_schema) = LOk sch sl /\ ordinary 1000000 (the_doc C01_bad) /\
  forall o', fair o' -> ~ panics go0 (s_heap sch) (s_root sch) o' (the_doc C01_bad).
Proof.
  destruct (NewSchema world0 FUEL in_order (LString C01_schema)) as [a sa| | |] eqn:Ea; [|exfalso; vm_compute in Ea; discriminate ..].
  assert (O : ordinary 1000000 (the_doc C01_bad)).
  { apply ordinary_checked; [|vm_compute; reflexivity]. unfold the_doc. destruct (decode_use_number C01_bad) as [x|] eqn:Ex; [eapply decode_doc_ok; eauto|vm_compute in Ex; discriminate]. }
  exists a, sa. split; auto. split; auto. intros o' F.
  rewrite NewSchema_Compile in Ea. pose proof (C07_no_panic world0 world0_laws FUEL in_order NewSchemaLoader (LString C01_schema) a sa in_order_fair I) as N.
  specialize (N (fun r e => ltac:(discriminate)) Ea (the_doc C01_bad) o' O F). exact N.
Qed.

(** For decoded instances in general the claim is false. *)
Definition panics_on (s t : string) : bool :=
  (match NewSchema world0 FUEL in_order (LString s) with LOk _ _ => true | _ => false end && match decode_use_number t with Some _ => true | _ => false end &&
   match validate_text s t with Panic => true | _ => false end)%bool.
Theorem C07_decoded_refuted : exists s t : string,
  (exists sch sl, NewSchema world0 FUEL in_order (LString s) = LOk sch sl /\ s_heap sch = graph s) /\
  (exists v, decode_use_number t = Some v /\ panics go0 (graph s) 0 in_order v).
Proof.
  exists "{""enum"":[1]}", "1e400". split.
  - unfold graph. destruct (NewSchema world0 FUEL in_order (LString "{""enum"":[1]}")) as [a sa| | |] eqn:Ea; [eauto|exfalso; vm_compute in Ea; discriminate ..].
  - exists (the_doc "1e400"). split; [vm_compute; reflexivity|]. exists FUEL. vm_compute. reflexivity.
Qed.
Print Assumptions C07_decoded_refuted.
Example C07_more_panics :
  panics_on "{""enum"":[1]}" "1e400" = true /\ panics_on "{""items"":{""const"":true}}" "[0,{""a"":1e400}]" = true /\
  panics_on "{""uniqueItems"":true}" "[1e400]" = true /\ panics_on "{""minimum"":0}" "1e2000000" = true /\
  panics_on "{""dependencies"":{""a"":[""b""]}}" "1e2000000" = true.
Proof. repeat split; vm_compute; reflexivity. Qed.

(** ** C18 *)
Theorem C18_boolean_document : forall w, url_laws w -> forall sl b sch, compiled_from w sl (VBool b) sch ->
  since6 (root_draft w sl (VBool b)) /\ forall o v, exists r, returns (w_go w) (s_heap sch) (s_root sch) o v r /\
    match b with
    | true => errors r = []
    | false => exists e, errors r = [e] /\ r_type e = FalseError /\ r_ctx e = [STRING_CONTEXT_ROOT] /\ r_value e = v
    end.
Proof. exact compiled_boolean. Qed.
Print Assumptions C18_boolean_document.
Example C18_document_example : (exists sch, compiled_from world0 NewSchemaLoader (VBool false) sch) /\
  error_names (validate_text "false" "[1]") = [("false", "(root)")] /\ error_names (validate_text "true" "[1]") = [].
Proof.
  split; [|vm_compute; auto]. destruct (NewSchema world0 FUEL in_order (LString "false")) as [a sa| | |] eqn:Ea; [|exfalso; vm_compute in Ea; discriminate ..].
  exists a. change (VBool false) with (the_doc "false"). eapply compiles_checked; [apply in_order_fair| |exact Ea]; vm_compute; reflexivity.
Qed.

(** ** C21 *)
(** Keywords the draft does not know leave no trace in the compiled schema (and
    by C02_ref_transparent they do not influence any result). *)
Theorem C21_gating : forall w, url_laws w -> forall sl doc sch, compiled_from w sl doc sch ->
  (forall r e d, assoc r (sl_pool sl) = Some e -> sp_draft e = Some d -> d = root_draft w sl doc) ->
  forall n, In n (s_heap sch) -> n_ref n = None ->
  (~ since6 (root_draft w sl doc) -> n_pass n = None /\ n_const n = None /\ n_contains n = None /\ n_propertyNames n = None) /\
  (~ since7 (root_draft w sl doc) -> n_if n = None /\ n_then n = None /\ n_else n = None \/ n_pass n <> None).
Proof. exact compiled_gated. Qed.
Print Assumptions C21_gating.

Definition C21_text (draft : string) := append "{""$schema"":""http://json-schema.org/draft-0" (append draft "/schema#"",""items"":{""const"":1,""contains"":{""type"":""null""},""propertyNames"":{""maxLength"":1}},
  ""if"":{""type"":""array""},""then"":{""minItems"":3}}").
Definition C21_empty := "{""$schema"":""http://json-schema.org/draft-04/schema#"",""items"":{}}".
(** In draft 4 the new keywords change no result; in draft 6 const, contains and
    propertyNames do, in draft 7 also if and then; exclusiveMinimum is a boolean
    in draft 4 and a number afterwards. *)
Example C21_example :
  same_results (C21_text "4") C21_empty /\
  error_names (validate_text (C21_text "4") "[[],{""abc"":2}]") = [] /\
  error_names (validate_text (C21_text "6") "[[],{""abc"":2}]") = [("contains", "0"); ("const", "0"); ("invalid_property_name", "1"); ("string_lte", "1"); ("const", "1")] /\
  error_names (validate_text (C21_text "7") "[1]") = [("condition_then", "(root)"); ("array_min_items", "(root)")] /\
  text_means "{""$schema"":""http://json-schema.org/draft-04/schema#"",""minimum"":3,""exclusiveMinimum"":false}" "3" /\
  ~ text_means "{""$schema"":""http://json-schema.org/draft-04/schema#"",""minimum"":3,""exclusiveMinimum"":true}" "3" /\
  ~ text_means "{""$schema"":""http://json-schema.org/draft-07/schema#"",""exclusiveMinimum"":3}" "3" /\
  ~ text_means "{""minimum"":2,""exclusiveMinimum"":3}" "3" /\ ~ text_means "{""minimum"":3,""exclusiveMinimum"":true}" "3".
Proof.
  split; [apply both_compile_same; vm_compute; reflexivity|]. do 3 (split; [vm_compute; reflexivity|]).
  split; [apply text_accepts; vm_compute; reflexivity|].
  repeat (split; [apply text_rejects; vm_compute; reflexivity|]). apply text_rejects; vm_compute; reflexivity.
Qed.

(** ** C41 *)
(** SetRootSchemaName changes nothing about any validation, under any iteration
    order; not even whether it returns. *)
Theorem C41_root_name : forall w fuel o sl l sch sl' name, Compile w fuel o sl l = LOk sch sl' ->
  forall k o' v, validateDocument (w_go w) (s_heap (SetRootSchemaName name sch)) k o' (s_root (SetRootSchemaName name sch)) v =
    validateDocument (w_go w) (s_heap sch) k o' (s_root sch) v.
Proof. exact root_name_unobservable. Qed.
Print Assumptions C41_root_name.
(** The name is stored, though; a property may have the same name. *)
Example C41_example : exists sch sl, NewSchema world0 FUEL in_order (LString "{""properties"":{""(root)"":{""$ref"":""#""},""a"":false}}") = LOk sch sl /\
  option_map n_property (nth_error (s_heap (SetRootSchemaName "(shop)" sch)) 0) = Some "(shop)" /\
  error_names (validateDocument go0 (s_heap (SetRootSchemaName "(shop)" sch)) FUEL in_order 0 (the_doc "{""(root)"":{""a"":1}}")) = [("false", "(root).a")].
Proof. do 2 eexists. split; [vm_compute; reflexivity|]. vm_compute. auto. Qed.
