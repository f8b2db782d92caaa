(** Properties of numbers and string lengths (C10-C13).

    [schema_of w sl doc sch]: sch is what Compile, on a loader in state sl and in
    some iteration order, made of a loader holding doc; [verdict w sch v P]:
    validation of v returns, in every iteration order, and finds no error exactly
    if P (NumberProps.v).  [leaf] documents consist of keywords without
    subschemas (AnySchema.v).  [denotes] is the value of a JSON number,
    [moderate]: its exponent is one that big.Rat reads (SpecJson.v). *)
From Verif Require Import CheckedLeaf.

(** ** C10 *)
(** type: integer holds of a number exactly if its value is an integer, however
    it is written. *)
Theorem C10_integer : forall w, url_laws w -> forall sl m sch, schema_of w sl (VMap m) sch -> Forall leaf m ->
  (forall k, In k (map fst m) -> In k ["$schema"; "title"; "description"; "type"]) ->
  assoc "type" m = Some (VStr "integer") ->
  forall t q, denotes t q -> moderate (e_ratlim (w_go w)) t ->
  verdict w sch (VNum t) (exists n : Z, (q == inject_Z n)%Q).
Proof. exact integer_exact_type. Qed.
Print Assumptions C10_integer.

(** type: number holds of every number. *)
Theorem C10_number : forall w, url_laws w -> forall sl m sch, schema_of w sl (VMap m) sch -> Forall leaf m ->
  (forall k, In k (map fst m) -> In k ["$schema"; "title"; "description"; "type"]) ->
  assoc "type" m = Some (VStr "number") ->
  forall t q, denotes t q -> moderate (e_ratlim (w_go w)) t -> verdict w sch (VNum t) True.
Proof. exact number_exact_type. Qed.
Print Assumptions C10_number.

Example C10_integer_example : exists m sch,
  the_doc "{""type"":""integer""}" = VMap m /\ schema_of world0 NewSchemaLoader (VMap m) sch /\ Forall leaf m /\
  (forall k, In k (map fst m) -> In k ["$schema"; "title"; "description"; "type"]) /\ s_heap sch = graph "{""type"":""integer""}" /\
  (denotes "10e-1" (1 # 1) /\ moderate 1000000 "10e-1") /\
  map (valid "{""type"":""integer""}") ["1"; "1.0"; "10e-1"; "0.1e1"; "15e-1"; "-0.0"; "1e400"; "123456789012345678901234567890.5"] =
    [Some true; Some true; Some true; Some true; Some false; Some true; Some true; Some false].
Proof.
  destruct (leaf_text_ok "{""type"":""integer""}" ["$schema"; "title"; "description"; "type"]) as (m & sch & H1 & H2 & H3 & H4 & H5); [vm_compute; reflexivity|].
  exists m, sch. split; [exact H1|]. split; [exact H2|]. split; [exact H3|]. split; [exact H4|]. split; [exact H5|].
  split; [apply denotes_checked; vm_compute; reflexivity|]. vm_compute. reflexivity.
Qed.

(** Exponents big.Rat refuses: type: integer rejects an integer. *)
Theorem C10_refuted : exists schema t q, denotes t (inject_Z q) /\ the_doc schema = VMap [("type", VStr "integer")] /\ valid schema t = Some false.
Proof. exact huge_not_integer. Qed.
Print Assumptions C10_refuted.

(** Any schema whose references lead to documents at hand: numbers replaced by
    others of the same value and sign, and members in another order, the verdict
    is the same.  (Formats are given by the environment; those of the package
    look at strings only.) *)
Theorem C10_notation : forall w, url_laws w -> forall sl fuel o l doc sch sl',
  fair o -> (forall fs s, l <> LRef fs s) -> loader_fit l -> fst (LoadJSON w l) = Some doc -> all_numbers (moderate (e_ratlim (w_go w))) doc ->
  sl_validate sl = false -> self_contained w sl doc -> Compile w fuel o sl l = LOk sch sl' ->
  let d := root_draft w sl doc in
  let s := resolve (w_parse w) (w_inherits w) "" doc in
  let T := leads_to (cenv_of w sl) (known_documents w sl doc) d in
  guarded T d s ->
  (forall f v v', equal respelled v v' -> e_is_format (w_go w) f v = e_is_format (w_go w) f v') ->
  forall v v', usual (e_ratlim (w_go w)) v -> usual (e_ratlim (w_go w)) v' -> equal respelled v v' ->
  (forall d' m x, needed T d s v d' (VMap m) x \/ needed T d s v' d' (VMap m) x -> assoc "$ref" m = None -> fits (e_ratlim (w_go w)) m x) ->
  forall o1 o2, fair o1 -> fair o2 -> exists r r',
    returns (w_go w) (s_heap sch) (s_root sch) o1 v r /\ returns (w_go w) (s_heap sch) (s_root sch) o2 v' r' /\ Valid r = Valid r'.
Proof. exact respelled_total. Qed.
Print Assumptions C10_notation.

(** Without const, enum and uniqueItems, 0 and -0 are alike too. *)
Theorem C10_value : forall w, url_laws w -> forall sl fuel o l doc sch sl',
  fair o -> (forall fs s, l <> LRef fs s) -> loader_fit l -> fst (LoadJSON w l) = Some doc -> all_numbers (moderate (e_ratlim (w_go w))) doc ->
  sl_validate sl = false -> self_contained w sl doc -> Compile w fuel o sl l = LOk sch sl' ->
  let d := root_draft w sl doc in
  let s := resolve (w_parse w) (w_inherits w) "" doc in
  let T := leads_to (cenv_of w sl) (known_documents w sl doc) d in
  guarded T d s ->
  (forall f v v', equal same_value v v' -> e_is_format (w_go w) f v = e_is_format (w_go w) f v') ->
  forall v v', usual (e_ratlim (w_go w)) v -> usual (e_ratlim (w_go w)) v' -> equal same_value v v' ->
  (forall d' m x, needed T d s v d' (VMap m) x \/ needed T d s v' d' (VMap m) x -> assoc "$ref" m = None -> fits (e_ratlim (w_go w)) m x /\ ~ compares m) ->
  forall o1 o2, fair o1 -> fair o2 -> exists r r',
    returns (w_go w) (s_heap sch) (s_root sch) o1 v r /\ returns (w_go w) (s_heap sch) (s_root sch) o2 v' r' /\ Valid r = Valid r'.
Proof. exact revalued_total. Qed.
Print Assumptions C10_value.

Definition C10_schema := "{""properties"":{""n"":{""type"":""integer"",""enum"":[1,2]},""k"":{""items"":{""$ref"":""#""}}}}".
Definition C10_v := "{""n"":1.0,""k"":[{""n"":3},{""n"":2}]}".
Definition C10_v' := "{""k"":[{""n"":30e-1},{""n"":0.02E+2}],""n"":10e-1}".
Example C10_notation_example : exists sch sl', NewSchema world0 FUEL in_order (LString C10_schema) = LOk sch sl' /\
  (let doc := the_doc C10_schema in let d := root_draft world0 NewSchemaLoader doc in
   let s := resolve parse0 inherits0 "" doc in let T := leads_to (cenv_of world0 NewSchemaLoader) (known_documents world0 NewSchemaLoader doc) d in
   self_contained world0 NewSchemaLoader doc /\ guarded T d s /\
   forall d' m x, needed T d s (the_doc C10_v) d' (VMap m) x \/ needed T d s (the_doc C10_v') d' (VMap m) x -> assoc "$ref" m = None -> fits 1000000 m x) /\
  usual 1000000 (the_doc C10_v) /\ usual 1000000 (the_doc C10_v') /\ equal respelled (the_doc C10_v) (the_doc C10_v') /\
  (forall f v v', equal respelled v v' -> e_is_format go0 f v = e_is_format go0 f v') /\
  error_names (validate_text C10_schema C10_v) = [("enum", "k.0.n")] /\ error_names (validate_text C10_schema C10_v') = [("enum", "k.0.n")].
Proof.
  destruct (NewSchema world0 FUEL in_order (LString C10_schema)) as [a sa| | |] eqn:Ea; [|exfalso; vm_compute in Ea; discriminate ..].
  exists a, sa. split; [auto|]. assert (X : text_checked world0 20 C10_schema = true) by (vm_compute; reflexivity).
  apply text_checked_ok in X. destruct X as (E1 & E2 & E3 & E4 & E5 & E6).
  assert (O1 : ordinary 1000000 (the_doc C10_v)) by (apply text_ordinary; vm_compute; reflexivity).
  assert (O2 : ordinary 1000000 (the_doc C10_v')) by (apply text_ordinary; vm_compute; reflexivity).
  split; [split; [apply new_self_contained; auto|split; [exact E5|]]|].
  { intros d' m x [N|N] En; [refine (regular_fits _ 1000000 _ _ _ O1 E6 _ _ _ N En)|refine (regular_fits _ 1000000 _ _ _ O2 E6 _ _ _ N En)]. }
  split; [apply ordinary_usual; auto|]. split; [apply ordinary_usual; auto|]. split; [|split; [|vm_compute; auto]].
  - assert (R : forall s t q, json_number s = true -> json_number t = true -> NumNotation.signed s = NumNotation.signed t ->
      match rat_of 1000000 s with Some p => Qeq_bool p q | None => false end = true -> match rat_of 1000000 t with Some p => Qeq_bool p q | None => false end = true ->
      equal respelled (VNum s) (VNum t)).
    { intros s t q J1 J2 Hs H1 H2. apply equal_num. apply denotes_checked in H1; auto. apply denotes_checked in H2; auto. destruct H1 as [H1 _], H2 as [H2 _].
      exists s, t, q, q. split; [auto|]. split; [auto|]. split; [exact H1|]. split; [exact H2|]. split; [reflexivity|exact Hs]. }
    assert (V1 : the_doc C10_v = VMap [("n", VNum "1.0"); ("k", VArr [VMap [("n", VNum "3")]; VMap [("n", VNum "2")]])]) by (vm_compute; reflexivity).
    assert (V2 : the_doc C10_v' = VMap [("k", VArr [VMap [("n", VNum "30e-1")]; VMap [("n", VNum "0.02E+2")]]); ("n", VNum "10e-1")]) by (vm_compute; reflexivity).
    rewrite V1, V2. clear - R.
    assert (R1 : equal respelled (VNum "1.0") (VNum "10e-1")) by (apply (R _ _ (1 # 1)); vm_compute; reflexivity).
    assert (R2 : equal respelled (VNum "2") (VNum "0.02E+2")) by (apply (R _ _ (2 # 1)); vm_compute; reflexivity).
    assert (R3 : equal respelled (VNum "3") (VNum "30e-1")) by (apply (R _ _ (3 # 1)); vm_compute; reflexivity).
    repeat first [exact R1 | exact R2 | exact R3 | apply equal_arr | apply Forall2_nil | apply Forall2_cons
      | apply equal_obj; [intros k; cbn [assoc]; repeat destruct (String.eqb k _); split; congruence
                         |intros k x y; cbn [assoc]; destruct (String.eqb_spec k "n"); destruct (String.eqb_spec k "k"); subst; try discriminate; intros [= <-] [= <-]]].
  - intros f v v' H. inversion H as [| | |x y E| |]; subst; try reflexivity. destruct E as (s & t & p & q & -> & -> & _). reflexivity.
Qed.

(** ** C11 *)
(** The four bounds compare exact values: [within_bounds m d q] spells out the
    comparisons, with the boolean exclusive forms of draft 4 and the numeric ones
    of draft 6. *)
Theorem C11_bounds : forall w, url_laws w -> forall sl m sch, schema_of w sl (VMap m) sch -> Forall leaf m ->
  (forall k, In k (map fst m) -> In k ["$schema"; "title"; "description"; "minimum"; "maximum"; "exclusiveMinimum"; "exclusiveMaximum"]) ->
  forall t q, denotes t q -> moderate (e_ratlim (w_go w)) t ->
  let d := root_draft w sl (VMap m) in
  verdict w sch (VNum t)
   ((forall b p, assoc "minimum" m = Some (VNum b) -> denotes b p -> (p <= q)%Q) /\
    (forall b p, assoc "maximum" m = Some (VNum b) -> denotes b p -> (q <= p)%Q) /\
    (forall b p, assoc "minimum" m = Some (VNum b) -> denotes b p -> d = Draft4 \/ d = Hybrid -> assoc "exclusiveMinimum" m = Some (VBool true) -> (p < q)%Q) /\
    (forall b p, assoc "maximum" m = Some (VNum b) -> denotes b p -> d = Draft4 \/ d = Hybrid -> assoc "exclusiveMaximum" m = Some (VBool true) -> (q < p)%Q) /\
    (forall b p, assoc "exclusiveMinimum" m = Some (VNum b) -> denotes b p -> d <> Draft4 -> (p < q)%Q) /\
    (forall b p, assoc "exclusiveMaximum" m = Some (VNum b) -> denotes b p -> d <> Draft4 -> (q < p)%Q)).
Proof. exact bounds_exact. Qed.
Print Assumptions C11_bounds.

Example C11_example :
  let s := "{""minimum"":0.1,""exclusiveMinimum"":true,""maximum"":9007199254740993}" in
  exists m sch, the_doc s = VMap m /\ schema_of world0 NewSchemaLoader (VMap m) sch /\ Forall leaf m /\
  (forall k, In k (map fst m) -> In k bound_keys) /\ s_heap sch = graph s /\
  (denotes "9007199254740993.00000001" (900719925474099300000001 # 100000000) /\ moderate 1000000 "9007199254740993.00000001") /\
  map (valid s) ["9007199254740993"; "9007199254740993.00000001"; "1e-1"; "0.10000000000000000000000000001"; "1e400"] =
    [Some true; Some false; Some false; Some true; Some false].
Proof.
  cbv zeta. set (s := "{""minimum"":0.1,""exclusiveMinimum"":true,""maximum"":9007199254740993}").
  destruct (leaf_text_ok s bound_keys) as (m & sch & H1 & H2 & H3 & H4 & H5); [vm_compute; reflexivity|].
  exists m, sch. split; [exact H1|]. split; [exact H2|]. split; [exact H3|]. split; [exact H4|]. split; [exact H5|].
  split; [apply denotes_checked; vm_compute; reflexivity|]. vm_compute. reflexivity.
Qed.

(** A bound with an exponent big.Rat refuses is dropped without an error. *)
Theorem C11_refuted : exists schema t b p q, the_doc schema = VMap [("$schema", VStr "http://json-schema.org/draft-06/schema#"); ("exclusiveMinimum", VNum b)] /\
  denotes b p /\ denotes t q /\ (q <= p)%Q /\ valid schema t = Some true.
Proof. exact huge_bound_ignored. Qed.
Print Assumptions C11_refuted.

(** ** C12 *)
Theorem C12_multipleOf : forall w, url_laws w -> forall sl m sch, schema_of w sl (VMap m) sch -> Forall leaf m ->
  (forall k, In k (map fst m) -> In k ["$schema"; "title"; "description"; "multipleOf"]) ->
  forall t q, denotes t q -> moderate (e_ratlim (w_go w)) t ->
  verdict w sch (VNum t) (forall b p, assoc "multipleOf" m = Some (VNum b) -> denotes b p -> exists k : Z, (q == inject_Z k * p)%Q).
Proof. exact multipleOf_exact. Qed.
Print Assumptions C12_multipleOf.

Example C12_example :
  let s := "{""multipleOf"":0.1}" in
  exists m sch, the_doc s = VMap m /\ schema_of world0 NewSchemaLoader (VMap m) sch /\ Forall leaf m /\
  (forall k, In k (map fst m) -> In k ["$schema"; "title"; "description"; "multipleOf"]) /\ s_heap sch = graph s /\
  (denotes "0.3" (3 # 10) /\ moderate 1000000 "0.3") /\
  map (valid s) ["0.3"; "0.35"; "-1e3"; "0"; "1e-400"; "10000000000000000000000000000.1"] =
    [Some true; Some false; Some true; Some true; Some false; Some true].
Proof.
  cbv zeta. set (s := "{""multipleOf"":0.1}").
  destruct (leaf_text_ok s ["$schema"; "title"; "description"; "multipleOf"]) as (m & sch & H1 & H2 & H3 & H4 & H5); [vm_compute; reflexivity|].
  exists m, sch. split; [exact H1|]. split; [exact H2|]. split; [exact H3|]. split; [exact H4|]. split; [exact H5|].
  split; [apply denotes_checked; vm_compute; reflexivity|]. vm_compute. reflexivity.
Qed.

(** ** C13 *)
Theorem C13_length : forall w, url_laws w -> forall sl m sch, schema_of w sl (VMap m) sch -> Forall leaf m ->
  (forall k, In k (map fst m) -> In k ["$schema"; "title"; "description"; "minLength"; "maxLength"]) ->
  forall s cps, text cps s ->
  verdict w sch (VStr s)
    ((forall b n, assoc "minLength" m = Some (VNum b) -> denotes b (inject_Z n) -> (n <= Z.of_nat (length cps))%Z) /\
     (forall b n, assoc "maxLength" m = Some (VNum b) -> denotes b (inject_Z n) -> (Z.of_nat (length cps) <= n)%Z)).
Proof. exact length_exact. Qed.
Print Assumptions C13_length.

(** Two code points, seven bytes. *)
Example C13_example :
  let s := "{""minLength"":2,""maxLength"":2}" in
  exists m sch, the_doc s = VMap m /\ schema_of world0 NewSchemaLoader (VMap m) sch /\ Forall leaf m /\
  (forall k, In k (map fst m) -> In k ["$schema"; "title"; "description"; "minLength"; "maxLength"]) /\ s_heap sch = graph s /\
  text [8364; 128512]%N "€😀" /\
  map (valid s) ["""€😀"""; """€😀"""; """a"""; """abc"""; """ab"""] = [Some true; Some true; Some false; Some false; Some true].
Proof.
  cbv zeta. set (s := "{""minLength"":2,""maxLength"":2}").
  destruct (leaf_text_ok s ["$schema"; "title"; "description"; "minLength"; "maxLength"]) as (m & sch & H1 & H2 & H3 & H4 & H5); [vm_compute; reflexivity|].
  exists m, sch. split; [exact H1|]. split; [exact H2|]. split; [exact H3|]. split; [exact H4|]. split; [exact H5|]. split.
  - refine (text_cons 8364 [128512]%N "€" "😀" (utf8_3 2 2 44 _ _ _ _ _) _); try reflexivity; try (vm_compute; intuition congruence).
    refine (text_cons 128512 []%N "😀" "" (utf8_4 0 31 24 0 _ _ _ _ _) text_nil); try reflexivity; try (vm_compute; intuition congruence).
  - vm_compute. reflexivity.
Qed.
