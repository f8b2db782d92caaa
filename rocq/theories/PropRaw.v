(** Documents given by NewRawLoader: the caller's value (C54).

    [AddSchema_value], [Compile_value] (ModelRaw.v): what the caller's value is
    after the call.  [addable], [position], [absolute], [scope], [top]: see
    PropPool.v. *)
From Verif Require Import CheckedPool RawProps.

(** ** C54 *)
(** Adding the value replaces each reference in it by its resolution, and changes
    nothing else; the pool holds the value itself. *)
Theorem C54_AddSchema : forall w, url_laws w -> forall fuel o sl url v ref, fair o -> addable w sl url (LRaw v) ref v ->
  let v' := AddSchema_value w fuel o url v sl in
  (exists sl', AddSchema w fuel o url (LRaw v) sl = LOk tt sl' /\ assoc ref (sl_pool sl') = Some (Spd v' (added_draft w sl v))) /\
  (forall p b m s, position (w_parse w) (w_inherits w) ref v p b (VMap m) -> assoc "$ref" m = Some (VStr s) ->
     at_path (p ++ [Key "$ref"]) v' = Some (VStr (absolute (w_parse w) (w_inherits w) (scope (w_parse w) (w_inherits w) b m) s))) /\
  (forall p, (forall q b m s, position (w_parse w) (w_inherits w) ref v q b (VMap m) -> assoc "$ref" m = Some (VStr s) -> p <> q ++ [Key "$ref"]) ->
     option_map top (at_path p v') = option_map top (at_path p v)).
Proof. exact AddSchema_value_spec. Qed.
Print Assumptions C54_AddSchema.
(** So does compiling it. *)
Theorem C54_Compile : forall w, url_laws w -> forall o sl v, fair o -> addable w sl "#" (LRaw v) "" v ->
  let v' := Compile_value w o v sl in
  (forall p b m s, position (w_parse w) (w_inherits w) "" v p b (VMap m) -> assoc "$ref" m = Some (VStr s) ->
     at_path (p ++ [Key "$ref"]) v' = Some (VStr (absolute (w_parse w) (w_inherits w) (scope (w_parse w) (w_inherits w) b m) s))) /\
  (forall p, (forall q b m s, position (w_parse w) (w_inherits w) "" v q b (VMap m) -> assoc "$ref" m = Some (VStr s) -> p <> q ++ [Key "$ref"]) ->
     option_map top (at_path p v') = option_map top (at_path p v)) /\
  ((forall p b m s, position (w_parse w) (w_inherits w) "" v p b (VMap m) -> assoc "$ref" m = Some (VStr s) -> absolute (w_parse w) (w_inherits w) (scope (w_parse w) (w_inherits w) b m) s = s) -> v' = v).
Proof. exact Compile_value_spec. Qed.
Print Assumptions C54_Compile.
(** A value whose references are absolute already is left alone. *)
Theorem C54_unchanged : forall w, url_laws w -> forall fuel o sl url v ref, fair o -> addable w sl url (LRaw v) ref v ->
  (forall p b m s, position (w_parse w) (w_inherits w) ref v p b (VMap m) -> assoc "$ref" m = Some (VStr s) -> absolute (w_parse w) (w_inherits w) (scope (w_parse w) (w_inherits w) b m) s = s) ->
  AddSchema_value w fuel o url v sl = v.
Proof. exact AddSchema_value_same. Qed.
Print Assumptions C54_unchanged.
Definition C54_doc : value := the_doc "{""properties"":{""k"":{""$ref"":""#/definitions/n""}},""definitions"":{""n"":{""type"":""string""}}}".
Definition C54_text := "{""$id"":""http://x/d/"",""items"":{""$ref"":""e""},""const"":{""$ref"":""e""}}".
Lemma raw_addable sl url t ref : addable_b sl url t ref = true -> addable world0 sl url (LRaw (the_doc t)) ref (the_doc t).
Proof.
  intros H. pose proof (addable_checked sl url t ref H [] []) as (A1 & A2 & A3 & A4 & A5 & A6 & A7 & A8 & A9).
  assert (D : doc_ok (the_doc t)) by (eapply LoadJSON_doc_ok; [|exact A3]; exact I).
  unfold addable. exact (conj A1 (conj D (conj eq_refl (conj A4 (conj A5 (conj A6 (conj A7 (conj A8 A9)))))))).
Qed.
Example C54_example :
  addable world0 NewSchemaLoader "http://x/a" (LRaw C54_doc) "http://x/a" C54_doc /\
  addable world0 NewSchemaLoader "#" (LRaw (the_doc C54_text)) "" (the_doc C54_text) /\
  Compile_value world0 in_order (the_doc C54_text) NewSchemaLoader = the_doc "{""$id"":""http://x/d/"",""items"":{""$ref"":""http://x/d/e""},""const"":{""$ref"":""e""}}" /\
  Compile_value world0 backwards C54_doc NewSchemaLoader = C54_doc.
Proof. split; [apply raw_addable; vm_compute; reflexivity|]. split; [apply raw_addable; vm_compute; reflexivity|]. vm_compute. auto. Qed.
Definition C54_after : value := AddSchema_value world0 FUEL in_order "http://x/a" C54_doc NewSchemaLoader.
(** The caller's value does change, and can then not be added elsewhere: under
    another URL it refers to the first. *)
Theorem C54_refuted : C54_after <> C54_doc /\
  (exists sl1 sch sl2, AddSchema world0 FUEL in_order "http://x/b" (LRaw C54_doc) NewSchemaLoader = LOk tt sl1 /\
     Compile world0 FUEL in_order sl1 (LString "{""$ref"":""http://x/b""}") = LOk sch sl2) /\
  (exists sl1 e sl2, AddSchema world0 FUEL in_order "http://x/b" (LRaw C54_after) NewSchemaLoader = LOk tt sl1 /\
     Compile world0 FUEL in_order sl1 (LString "{""$ref"":""http://x/b""}") = LErr e sl2).
Proof.
  split; [vm_compute; discriminate|]. split; eexists; eexists; eexists; (split; [vm_compute; reflexivity|]); vm_compute; reflexivity.
Qed.
Print Assumptions C54_refuted.
