(** Properties of equality of JSON values and of decoding (C14-C16, C44).

    [equal eqn v v'] (SpecEqual.v): the same JSON structure, objects as maps,
    numbers related by eqn; [same_float]: both are read as the same float64;
    [same_value]: both have the same mathematical value.  [ordinary lim v]: v is
    a value a JSON text can denote, with numbers in the range of float64 and with
    exponents big.Rat reads.  [schema_of], [verdict], [leaf]: see PropNumbers.v;
    the payloads of const and enum are arbitrary values. *)
From Verif Require Import JsonProps CheckedLeaf.

(** ** C14 *)
Theorem C14_const : forall w, url_laws w -> forall sl m sch, schema_of w sl (VMap m) sch -> Forall leaf m ->
  (forall k, In k (map fst m) -> In k ["$schema"; "title"; "description"; "const"]) ->
  forall v, ordinary (e_ratlim (w_go w)) v ->
  verdict w sch v (root_draft w sl (VMap m) <> Draft4 -> forall x, assoc "const" m = Some x -> equal same_float v x).
Proof. exact const_exact. Qed.
Print Assumptions C14_const.

Theorem C14_enum : forall w, url_laws w -> forall sl m sch, schema_of w sl (VMap m) sch -> Forall leaf m ->
  (forall k, In k (map fst m) -> In k ["$schema"; "title"; "description"; "enum"]) -> assoc "enum" m <> Some (VArr []) ->
  forall v, ordinary (e_ratlim (w_go w)) v ->
  verdict w sch v (forall xs, assoc "enum" m = Some (VArr xs) -> exists x, In x xs /\ equal same_float v x).
Proof. exact enum_exact. Qed.
Print Assumptions C14_enum.

Theorem C14_unique : forall w, url_laws w -> forall sl m sch, schema_of w sl (VMap m) sch -> Forall leaf m ->
  (forall k, In k (map fst m) -> In k ["$schema"; "title"; "description"; "uniqueItems"]) ->
  forall l, ordinary (e_ratlim (w_go w)) (VArr l) ->
  verdict w sch (VArr l) (assoc "uniqueItems" m = Some (VBool true) ->
    forall i j a b, i < j -> nth_error l i = Some a -> nth_error l j = Some b -> ~ equal same_float a b).
Proof. exact unique_exact. Qed.
Print Assumptions C14_unique.

Definition C14_s := "{""const"":{""a"":[1,{""$ref"":""#/x""}],""b"":0.1}}".
Definition C14_v := "{""b"":0.10000000000000000555,""a"":[10e-1,{""$ref"":""#/x""}]}".
Example C14_const_example : exists m sch,
  the_doc C14_s = VMap m /\ schema_of world0 NewSchemaLoader (VMap m) sch /\ Forall leaf m /\
  (forall k, In k (map fst m) -> In k ["$schema"; "title"; "description"; "const"]) /\ s_heap sch = graph C14_s /\
  root_draft world0 NewSchemaLoader (VMap m) <> Draft4 /\ ordinary 1000000 (the_doc C14_v) /\
  map (valid C14_s) [C14_v; "{""a"":[1,{""$ref"":""#/x""}],""b"":0.1,""c"":null}"; "{""a"":[{""$ref"":""#/x""},1],""b"":0.1}"; "{""a"":[true,{""$ref"":""#/x""}],""b"":0.1}"] =
    [Some true; Some false; Some false; Some false].
Proof.
  destruct (leaf_text_ok C14_s ["$schema"; "title"; "description"; "const"]) as (m & sch & H1 & H2 & H3 & H4 & H5); [vm_compute; reflexivity|].
  exists m, sch. split; [exact H1|]. split; [exact H2|]. split; [exact H3|]. split; [exact H4|]. split; [exact H5|].
  split; [rewrite <- H1; vm_compute; discriminate|]. split; [apply text_ordinary; vm_compute; reflexivity|]. vm_compute. reflexivity.
Qed.

Definition C14_e := "{""enum"":[""A"",1.50,[],{},null]}".
Example C14_enum_example : exists m sch,
  the_doc C14_e = VMap m /\ schema_of world0 NewSchemaLoader (VMap m) sch /\ Forall leaf m /\
  (forall k, In k (map fst m) -> In k ["$schema"; "title"; "description"; "enum"]) /\ assoc "enum" m <> Some (VArr []) /\ s_heap sch = graph C14_e /\
  ordinary 1000000 (the_doc "15e-1") /\
  map (valid C14_e) ["""A"""; "15e-1"; "[]"; "{}"; "null"; "[null]"; "1"; "false"; """null"""] =
    [Some true; Some true; Some true; Some true; Some true; Some false; Some false; Some false; Some false].
Proof.
  destruct (leaf_text_ok C14_e ["$schema"; "title"; "description"; "enum"]) as (m & sch & H1 & H2 & H3 & H4 & H5); [vm_compute; reflexivity|].
  exists m, sch. split; [exact H1|]. split; [exact H2|]. split; [exact H3|]. split; [exact H4|].
  split. { assert (E : the_doc C14_e = VMap [("enum", VArr [VStr "A"; VNum "1.50"; VArr []; VMap []; VNil])]) by (vm_compute; reflexivity). rewrite E in H1. injection H1 as <-. vm_compute. discriminate. }
  split; [exact H5|]. split; [apply text_ordinary; vm_compute; reflexivity|]. vm_compute. reflexivity.
Qed.

(** ** C15 *)
(** On numbers that are float64 values, zero not being written -0, the
    comparison is equality of values. *)
Theorem C15_const : forall w, url_laws w -> forall sl m sch, schema_of w sl (VMap m) sch -> Forall leaf m -> all_numbers exact_number (VMap m) ->
  (forall k, In k (map fst m) -> In k ["$schema"; "title"; "description"; "const"]) ->
  forall v, ordinary (e_ratlim (w_go w)) v -> all_numbers exact_number v ->
  verdict w sch v (root_draft w sl (VMap m) <> Draft4 -> forall x, assoc "const" m = Some x -> equal same_value v x).
Proof. exact const_value. Qed.
Print Assumptions C15_const.

Theorem C15_enum : forall w, url_laws w -> forall sl m sch, schema_of w sl (VMap m) sch -> Forall leaf m -> all_numbers exact_number (VMap m) ->
  (forall k, In k (map fst m) -> In k ["$schema"; "title"; "description"; "enum"]) -> assoc "enum" m <> Some (VArr []) ->
  forall v, ordinary (e_ratlim (w_go w)) v -> all_numbers exact_number v ->
  verdict w sch v (forall xs, assoc "enum" m = Some (VArr xs) -> exists x, In x xs /\ equal same_value v x).
Proof. exact enum_value. Qed.
Print Assumptions C15_enum.

Theorem C15_unique : forall w, url_laws w -> forall sl m sch, schema_of w sl (VMap m) sch -> Forall leaf m ->
  (forall k, In k (map fst m) -> In k ["$schema"; "title"; "description"; "uniqueItems"]) ->
  forall l, ordinary (e_ratlim (w_go w)) (VArr l) -> all_numbers exact_number (VArr l) ->
  verdict w sch (VArr l) (assoc "uniqueItems" m = Some (VBool true) ->
    forall i j a b, i < j -> nth_error l i = Some a -> nth_error l j = Some b -> ~ equal same_value a b).
Proof. exact unique_value. Qed.
Print Assumptions C15_unique.

(** All integers up to 2^53 are such numbers, however they are written. *)
Theorem C15_integers : forall s n, denotes s (inject_Z n) -> (Z.abs n <= 2 ^ 53)%Z -> (n = 0%Z -> NumNotation.signed s = false) -> exact_number s.
Proof. exact integer_exact. Qed.
Print Assumptions C15_integers.

Example C15_example :
  let s := "{""enum"":[9007199254740991,[12e2]]}" in
  exists m sch, the_doc s = VMap m /\ schema_of world0 NewSchemaLoader (VMap m) sch /\ Forall leaf m /\ all_numbers exact_number (VMap m) /\
  (forall k, In k (map fst m) -> In k ["$schema"; "title"; "description"; "enum"]) /\ assoc "enum" m <> Some (VArr []) /\ s_heap sch = graph s /\
  ordinary 1000000 (the_doc "[1200.0]") /\ all_numbers exact_number (the_doc "[1200.0]") /\
  map (valid s) ["[1200.0]"; "9007199254740991"; "9007199254740992"; "[1201]"] = [Some true; Some true; Some false; Some false].
Proof.
  cbv zeta. set (s := "{""enum"":[9007199254740991,[12e2]]}").
  assert (X : forall t n, json_number t = true -> match rat_of 1000000 t with Some p => Qeq_bool p (inject_Z n) | None => false end = true -> (Z.abs n <=? 2 ^ 53)%Z = true -> n <> 0%Z -> exact_number t).
  { intros t n J D L Nz. apply (integer_exact t n); [apply denotes_checked; auto|apply Z.leb_le; auto|tauto]. }
  assert (X1 : exact_number "9007199254740991") by (apply (X _ 9007199254740991%Z); [vm_compute; reflexivity .. |discriminate]).
  assert (X2 : exact_number "12e2") by (apply (X _ 1200%Z); [vm_compute; reflexivity .. |discriminate]).
  assert (X3 : exact_number "1200.0") by (apply (X _ 1200%Z); [vm_compute; reflexivity .. |discriminate]).
  assert (E : the_doc s = VMap [("enum", VArr [VNum "9007199254740991"; VArr [VNum "12e2"]])]) by (vm_compute; reflexivity).
  assert (Ev : the_doc "[1200.0]" = VArr [VNum "1200.0"]) by (vm_compute; reflexivity).
  destruct (leaf_text_ok s ["$schema"; "title"; "description"; "enum"]) as (m & sch & H1 & H2 & H3 & H4 & H5); [vm_compute; reflexivity|].
  exists m, sch. rewrite E in H1. injection H1 as <-. split; [exact E|]. split; [exact H2|]. split; [exact H3|].
  split; [apply an_map, Forall_cons; [|constructor]; cbn [snd]; apply an_arr, Forall_cons; [apply an_num; assumption|]; apply Forall_cons; [|constructor]; apply an_arr, Forall_cons; [apply an_num; assumption|constructor]|]. split; [exact H4|]. split; [vm_compute; discriminate|]. split; [exact H5|].
  split; [apply text_ordinary; vm_compute; reflexivity|]. split; [rewrite Ev; apply an_arr, Forall_cons; [apply an_num; assumption|constructor]|]. vm_compute. reflexivity.
Qed.

(** Beyond them it is not: 2^53 and 2^53+1 are taken for the same number, and 0
    and -0 for different ones. *)
Theorem C15_refuted :
  (exists s t, denotes s (inject_Z 9007199254740993) /\ denotes t (inject_Z 9007199254740992) /\ valid (append "{""enum"":[" (append s "]}")) t = Some true) /\
  (exists s t, denotes s 0 /\ denotes t 0 /\ valid (append "{""const"":" (append s "}")) t = Some false) /\
  (exists s t, denotes s (inject_Z 9007199254740993) /\ denotes t (inject_Z 9007199254740992) /\
     valid "{""uniqueItems"":true}" (append "[" (append s (append "," (append t "]")))) = Some false).
Proof.
  repeat split.
  - exists "9007199254740993", "9007199254740992". repeat split; try (apply denotes_checked; vm_compute; reflexivity); vm_compute; reflexivity.
  - exists "0", "-0". repeat split; try (apply denotes_checked; vm_compute; reflexivity); vm_compute; reflexivity.
  - exists "9007199254740993", "9007199254740992". repeat split; try (apply denotes_checked; vm_compute; reflexivity); vm_compute; reflexivity.
Qed.
Print Assumptions C15_refuted.

(** ** C16 *)
(** [repeat l (i, j)]: element j equals element i < j and none in between. *)
Theorem C16_unique : forall w, url_laws w -> forall sl m sch, schema_of w sl (VMap m) sch -> Forall leaf m ->
  assoc "uniqueItems" m = Some (VBool true) -> assoc "type" m = None -> assoc "enum" m <> Some (VArr []) ->
  forall l, ordinary (e_ratlim (w_go w)) (VArr l) -> forall o, fair o ->
  exists r ps, returns (w_go w) (s_heap sch) (s_root sch) o (VArr l) r /\
    filter is_unique_error (errors r) =
      map (fun p => newError ItemsMustBeUniqueError [STRING_CONTEXT_ROOT] (VArr l)
                      [("type", DStr TYPE_ARRAY); ("i", DInt (Z.of_nat (fst p))); ("j", DInt (Z.of_nat (snd p)))]) ps /\
    (forall p, In p ps <->
       fst p < snd p /\ exists a b, nth_error l (fst p) = Some a /\ nth_error l (snd p) = Some b /\ equal same_float a b /\
         forall k x, fst p < k -> k < snd p -> nth_error l k = Some x -> ~ equal same_float x b) /\
    NoDup (map snd ps).
Proof. exact unique_errors. Qed.
Print Assumptions C16_unique.

Theorem C16_passes : forall w, url_laws w -> forall sl m sch, schema_of w sl (VMap m) sch -> Forall leaf m ->
  (forall k, In k (map fst m) -> In k ["$schema"; "title"; "description"; "uniqueItems"]) ->
  forall l, ordinary (e_ratlim (w_go w)) (VArr l) ->
  verdict w sch (VArr l) (assoc "uniqueItems" m = Some (VBool true) ->
    forall i j a b, i < j -> nth_error l i = Some a -> nth_error l j = Some b -> ~ equal same_float a b).
Proof. exact unique_exact. Qed.

Definition C16_v := "[1,{""a"":1,""b"":2},1.0,{""b"":2,""a"":1},""1"",10e-1]".
Example C16_example :
  let s := "{""uniqueItems"":true,""maxItems"":3}" in
  exists m sch, the_doc s = VMap m /\ schema_of world0 NewSchemaLoader (VMap m) sch /\ Forall leaf m /\
  assoc "uniqueItems" m = Some (VBool true) /\ assoc "type" m = None /\ assoc "enum" m <> Some (VArr []) /\ s_heap sch = graph s /\
  ordinary 1000000 (the_doc C16_v) /\
  match validate_text s C16_v with
  | Ok r => map (fun e => (r_type e, assoc "i" (r_details e), assoc "j" (r_details e))) (filter is_unique_error (errors r))
  | _ => []
  end = [(ItemsMustBeUniqueError, Some (DInt 0), Some (DInt 2)); (ItemsMustBeUniqueError, Some (DInt 1), Some (DInt 3)); (ItemsMustBeUniqueError, Some (DInt 2), Some (DInt 5))].
Proof.
  cbv zeta. set (s := "{""uniqueItems"":true,""maxItems"":3}").
  destruct (leaf_text_ok s ["uniqueItems"; "maxItems"]) as (m & sch & H1 & H2 & H3 & H4 & H5); [vm_compute; reflexivity|].
  assert (E : the_doc s = VMap [("uniqueItems", VBool true); ("maxItems", VNum "3")]) by (vm_compute; reflexivity).
  exists m, sch. rewrite E in H1. injection H1 as <-. split; [exact E|]. split; [exact H2|]. split; [exact H3|].
  split; [reflexivity|]. split; [reflexivity|]. split; [discriminate|]. split; [exact H5|].
  split; [apply text_ordinary; vm_compute; reflexivity|]. vm_compute. reflexivity.
Qed.

(** ** C44 *)
(** [json verbatim s v] (SpecJson.v): the RFC 8259 grammar, numbers standing for
    themselves; [members ms]: the object with members ms. *)
Theorem C44_complete : forall s v rest, json verbatim s v ->
  (match v with VNum _ => stops rest | _ => True end) -> decode_use_number (append s rest) = Some v.
Proof. intros s v rest H He. apply decode_complete; auto. destruct v; try exact I; [exact He|]. exfalso. revert H. apply json_no_float. Qed.
Print Assumptions C44_complete.

Theorem C44_sound : forall x v, utf8_text x -> decode_use_number x = Some v -> exists s rest, x = append s rest /\ json verbatim s v.
Proof. exact decode_sound. Qed.
Print Assumptions C44_sound.

(** Of several members with one name the last counts. *)
Theorem C44_members : forall w s ms rest, ws w -> mems verbatim s ms ->
  exists m, decode_use_number (append (append w (String "{" (append s "}"))) rest) = Some (VMap m) /\ forall k v, assoc k m = Some v <-> last_member k ms v.
Proof.
  intros w s ms rest Hw Hm. exists (members ms). split; [|exact (members_last ms)].
  exact (C44_complete _ (VMap (members ms)) rest (json_obj verbatim w s ms Hw Hm) I).
Qed.
Print Assumptions C44_members.

Example C44_example :
  decode_use_number " {""a"":1.50E+2,""b"":[-0],""a"":007}" = None /\
  decode_use_number " {""a"":1.50E+2,""b"":[-0],""a"":[1.0,100000000000000000001]} trailing" =
    Some (VMap [("a", VArr [VNum "1.0"; VNum "100000000000000000001"]); ("b", VArr [VNum "-0"])]) /\
  last_member "a" [("a", VNum "1.50E+2"); ("b", VArr []); ("a", VNil)] VNil /\ stops " x".
Proof.
  split; [vm_compute; reflexivity|]. split; [vm_compute; reflexivity|]. split.
  - exists [("a", VNum "1.50E+2"); ("b", VArr [])], []. split; auto.
  - repeat split; discriminate.
Qed.
