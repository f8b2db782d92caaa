(** What each keyword reports (C19, C42, C46), for every cell of every compiled
    graph, every instance and every order of the ranges over maps. *)
From Verif Require Import World0 ValidateKeywords.

(** ** C46 *)
(** [cell_errors]: the type error alone, or the errors of each keyword, in the
    fixed order of SpecKeywords.keywords. *)
Theorem C46_errors_by_keyword : forall env h id n v c k o r,
  nth_error h id = Some n -> n_pass n = None -> n_ref n = None -> fair o -> plain_value v ->
  validateRecursive env h k o id v c = Ok r -> cell_errors env h n v c (errors r).
Proof. exact errors_by_keyword. Qed.
Print Assumptions C46_errors_by_keyword.
Theorem C46_boolean : forall env h id n b v c k o r,
  nth_error h id = Some n -> n_pass n = Some b ->
  validateRecursive env h k o id v c = Ok r -> errors r = if b then [] else [newError FalseError c v []].
Proof. exact boolean_errors. Qed.
Print Assumptions C46_boolean.
Theorem C46_reference : forall env h id n t v c k o r,
  nth_error h id = Some n -> n_pass n = None -> n_ref n = Some t -> fair o ->
  validateRecursive env h k o id v c = Ok r -> sub env h v c t r.
Proof. exact reference_errors. Qed.
Print Assumptions C46_reference.
Example C46_example :
  error_names (validate_text
    "{""not"":{},""minProperties"":3,""required"":[""x"",""y""],""additionalProperties"":false,""propertyNames"":{""maxLength"":1},""enum"":[1],""properties"":{""a"":{""type"":""string""}},""dependencies"":{""a"":[""z""]}}"
    "{""a"":1,""bb"":2}") =
  [("number_not", "(root)"); ("missing_dependency", "(root)"); ("array_min_properties", "(root)");
   ("required", "(root)"); ("required", "(root)"); ("additional_property_not_allowed", "(root)");
   ("invalid_property_name", "(root)"); ("string_lte", "(root)"); ("enum", "(root)"); ("invalid_type", "a")].
Proof. vm_compute. reflexivity. Qed.

(** ** C19 *)
(** [part_of k es own]: [own] is a contiguous part of the errors [es], and the
    rest is exactly what the other keywords report.  [sub env h v c id r]: a
    check of [v] by cell [id] can end with [r]; [closest rs b]: b is the first of
    the results rs with the greatest score. *)
Theorem C19_anyOf : forall env h id n v c k o r,
  nth_error h id = Some n -> n_pass n = None -> n_ref n = None -> fair o -> plain_value v ->
  validateRecursive env h k o id v c = Ok r -> type_allowed env n v ->
  exists own, part_of env h n v c K_anyOf (errors r) own /\
    ((own = [] /\ (n_anyOf n = [] \/ exists i ri, In i (n_anyOf n) /\ sub env h v c i ri /\ Valid ri = true)) \/
     (exists rs b, Forall2 (sub env h v c) (n_anyOf n) rs /\ Forall (fun x => Valid x = false) rs /\
        closest rs b /\ own = newError NumberAnyOfError c v [] :: errors b)).
Proof. exact (keyword_part K_anyOf). Qed.
Print Assumptions C19_anyOf.
Theorem C19_oneOf : forall env h id n v c k o r,
  nth_error h id = Some n -> n_pass n = None -> n_ref n = None -> fair o -> plain_value v ->
  validateRecursive env h k o id v c = Ok r -> type_allowed env n v ->
  exists own, part_of env h n v c K_oneOf (errors r) own /\
    ((own = [] /\ n_oneOf n = []) \/
     (exists rs, Forall2 (sub env h v c) (n_oneOf n) rs /\
        ((valid_count rs = 1 /\ own = []) \/
         (2 <= valid_count rs /\ own = [newError NumberOneOfError c v []]) \/
         (valid_count rs = 0 /\ exists b, closest rs b /\ own = newError NumberOneOfError c v [] :: errors b)))).
Proof. exact (keyword_part K_oneOf). Qed.
Print Assumptions C19_oneOf.
Theorem C19_not : forall env h id n v c k o r,
  nth_error h id = Some n -> n_pass n = None -> n_ref n = None -> fair o -> plain_value v ->
  validateRecursive env h k o id v c = Ok r -> type_allowed env n v ->
  forall id', n_not n = Some id' ->
  exists own, part_of env h n v c K_not (errors r) own /\
    exists ri, sub env h v c id' ri /\ own = if Valid ri then [newError NumberNotError c v []] else [].
Proof. exact not_part. Qed.
Print Assumptions C19_not.
Theorem C19_if : forall env h id n v c k o r,
  nth_error h id = Some n -> n_pass n = None -> n_ref n = None -> fair o -> plain_value v ->
  validateRecursive env h k o id v c = Ok r -> type_allowed env n v ->
  forall id', n_if n = Some id' ->
  exists own, part_of env h n v c K_if (errors r) own /\
    exists ri, sub env h v c id' ri /\
    match (if Valid ri then n_then n else n_else n) with
    | None => own = []
    | Some t => exists rt, sub env h v c t rt /\
        own = if Valid rt then []
              else newError (if Valid ri then ConditionThenError else ConditionElseError) c v [] :: errors rt
    end.
Proof. exact if_part. Qed.
Print Assumptions C19_if.

(** The second branch gets further: its errors are the ones reported. *)
Example C19_example :
  error_names (validate_text
    "{""anyOf"":[{""type"":""array""},{""required"":[""a"",""b""],""properties"":{""a"":{""type"":""string""}}},{""type"":""null""}]}"
    "{""a"":1,""b"":2}") = [("number_any_of", "(root)"); ("invalid_type", "a")] /\
  error_names (validate_text "{""oneOf"":[{""type"":""array""},{""minimum"":3}]}" "2") =
    [("number_one_of", "(root)"); ("number_gte", "(root)")] /\
  error_names (validate_text "{""oneOf"":[{""type"":""array""},{""minimum"":3},{""minimum"":4}]}" "5") =
    [("number_one_of", "(root)")].
Proof. vm_compute. auto. Qed.

(** ** C42 *)
(** [checker]: element i is the business of the i-th item schema, the rest of
    additionalItems. *)
Theorem C42_positional_items : forall env h id n l c k o r,
  nth_error h id = Some n -> n_pass n = None -> n_ref n = None -> fair o ->
  validateRecursive env h k o id (VArr l) c = Ok r -> type_allowed env n (VArr l) ->
  n_items n <> [] ->
  exists es last, part_of env h n (VArr l) c K_items (errors r) (concat es ++ last) /\
    length es = length l /\
    (forall i x, nth_error l i = Some x ->
      match checker (n_items_single n) (n_items n) (n_additionalItems n) i with
      | Some id' => exists ri, sub env h x (itoa (Z.of_nat i) :: c) id' ri /\ nth_error es i = Some (errors ri)
      | None => nth_error es i = Some []
      end) /\
    ((last = [newError ArrayNoAdditionalItemsError c (VArr l) []] /\ n_items_single n = false /\
        n_additionalItems n = Some (AddlBool false) /\ length (n_items n) < length l) \/
     (last = [] /\ ~ (n_items_single n = false /\
        n_additionalItems n = Some (AddlBool false) /\ length (n_items n) < length l))).
Proof. exact items_part. Qed.
Print Assumptions C42_positional_items.
Example C42_example :
  error_names (validate_text "{""items"":[{""type"":""string""},{""minimum"":3}],""additionalItems"":{""type"":""null""}}" "[1,2,3,null]") =
    [("invalid_type", "0"); ("number_gte", "1"); ("invalid_type", "2")] /\
  error_names (validate_text "{""items"":[{}],""additionalItems"":false}" "[1,2]") = [("array_no_additional_items", "(root)")] /\
  (* the empty list of positional schemas: additionalItems has no effect *)
  error_names (validate_text "{""items"":[],""additionalItems"":false}" "[1,2]") = [].
Proof. vm_compute. auto. Qed.

(** The draft's rule for [items: []] is not followed. *)
Theorem C42_empty_items_refuted : exists h n l r,
  h = graph "{""items"":[],""additionalItems"":false}" /\ nth_error h 0 = Some n /\
  n_additionalItems n = Some (AddlBool false) /\ n_items n = [] /\ l <> [] /\
  returns go0 h 0 in_order (VArr l) r /\ errors r = [].
Proof.
  exists (graph "{""items"":[],""additionalItems"":false}"). vm_compute graph.
  eexists. exists [VNil]. eexists. split; [reflexivity|]. split; [reflexivity|].
  split; [reflexivity|]. split; [reflexivity|]. split; [discriminate|].
  split; [exists 5; vm_compute; reflexivity|reflexivity].
Qed.
Print Assumptions C42_empty_items_refuted.

