(** Properties of Validate (C03-C06, C08, C09, C17, C18, C37, C39, C43),
    for every compiled graph [h], root cell and instance.  [returns],
    [diverges] and [panics] are the possible ends of Validate (Run.v); an
    [oracle] decides the order of every range over a map. *)
From Verif Require Import World0 ValidateApi.

(** ** C03 *)
Theorem C03_order_independent : forall env h root v o1 o2 r1,
  fair o1 -> fair o2 -> wf_value v -> returns env h root o1 v r1 ->
  exists r2, returns env h root o2 v r2 /\ Valid r1 = Valid r2 /\ Permutation (errors r1) (errors r2).
Proof. exact order_independent. Qed.
Print Assumptions C03_order_independent.

Definition C03_schema := "{""properties"":{""a"":{""type"":""string""},""b"":{""minimum"":3}},""additionalProperties"":false}".
Definition C03_instance := "{""c"":1,""a"":2,""b"":1,""d"":3}".
(** Two orders, the same four errors in a different order. *)
Example C03_example :
  error_names (validateDocument go0 (graph C03_schema) FUEL in_order 0 (loaded C03_instance)) =
    [("additional_property_not_allowed", "(root)"); ("additional_property_not_allowed", "(root)");
     ("invalid_type", "a"); ("number_gte", "b")] /\
  match validateDocument go0 (graph C03_schema) FUEL in_order 0 (loaded C03_instance),
        validateDocument go0 (graph C03_schema) FUEL backwards 0 (loaded C03_instance) with
  | Ok a, Ok b => errors a <> errors b /\ Permutation (errors a) (errors b)
  | _, _ => False
  end /\ fair backwards /\ wf_value (loaded C03_instance).
Proof.
  split; [vm_compute; reflexivity|]. split; [vm_compute; split; [discriminate|apply perm_swap]|].
  split; [apply backwards_fair|]. repeat (constructor; simpl; try (intuition discriminate)).
Qed.

(** ** C04 *)
Theorem C04_member_order : forall env h root v v' o1 o2 r1,
  (forall f a b, veq a b -> e_is_format env f a = e_is_format env f b) ->
  fair o1 -> fair o2 -> wf_value v -> veq v v' ->
  returns env h root o1 v r1 ->
  exists r2, returns env h root o2 v' r2 /\ Valid r1 = Valid r2 /\
    exists l, Permutation (errors r1) l /\ Forall2 (same_error veq) l (errors r2).
Proof. exact member_order_irrelevant. Qed.
Print Assumptions C04_member_order.

Example C04_example :
  error_names (validate_text "{""enum"":[{""a"":1,""b"":[{""x"":1,""y"":2}]}]}" "{""b"":[{""y"":2,""x"":1}],""a"":1}") = [] /\
  error_names (validate_text C03_schema "{""d"":3,""b"":1,""a"":2,""c"":1}") =
    [("additional_property_not_allowed", "(root)"); ("additional_property_not_allowed", "(root)");
     ("invalid_type", "a"); ("number_gte", "b")] /\
  (forall f a b, veq a b -> e_is_format go0 f a = e_is_format go0 f b).
Proof.
  split; [vm_compute; reflexivity|]. split; [vm_compute; reflexivity|].
  intros f a b H. destruct H; reflexivity.
Qed.

(** ** C05 *)
(** [reach]: cells reachable from the root; [chain a b]: a nonempty chain of
    checks of one and the same value leads from cell a to cell b. *)
Theorem C05_terminates : forall env h root v o, fair o ->
  (forall a, reach h root a -> ~ chain h a a) ->
  (exists r, returns env h root o v r) \/ panics env h root o v.
Proof. exact terminates. Qed.
Print Assumptions C05_terminates.

(** A recursive schema: the reference goes through a member. *)
Definition C05_schema := "{""required"":[""v""],""properties"":{""left"":{""$ref"":""#""},""right"":{""$ref"":""#""}}}".
Example C05_example :
  (forall a, reach (graph C05_schema) 0 a -> ~ chain (graph C05_schema) a a) /\
  length (graph C05_schema) = 6 /\
  error_names (validate_text C05_schema "{""v"":0,""left"":{""v"":1,""right"":{}}}") = [("required", "left.right")].
Proof.
  split; [|split; vm_compute; reflexivity].
  intros a _. apply (heights_acyclic (graph C05_schema) 10). vm_compute. reflexivity.
Qed.

(** ** C06 *)
Theorem C06_validate_returns_refuted : exists s x sl,
  NewSchema world0 FUEL in_order (LString s) = LOk x sl /\
  forall o v, diverges go0 (s_heap x) (s_root x) o v.
Proof.
  exists "{""$ref"":""#""}".
  remember (NewSchema world0 FUEL in_order (LString "{""$ref"":""#""}")) as e eqn:E. vm_compute in E.
  rewrite E. eexists. eexists. split; [reflexivity|]. intros o v k. unfold validateDocument.
  cbn [s_heap s_root].
  match goal with |- validateRecursive _ ?h _ _ _ _ _ = _ =>
    apply (ref_cycle_diverges go0 h (fun id => id < 2)) end.
  - intros [|[|id]] Hid; [| |lia]; (eexists; split; [eexists; split; [reflexivity|]; split; reflexivity|]; lia).
  - lia.
Qed.
Print Assumptions C06_validate_returns_refuted.

(** ** C08 *)
Theorem C08_errors_point_into_instance : forall env h root o v r,
  fair o -> decoded v -> returns env h root o v r -> Forall (points_into v) (errors r).
Proof. exact errors_point_into. Qed.
Print Assumptions C08_errors_point_into_instance.

(** Every value the library's decoder produces qualifies. *)
Theorem C08_decoder_output : forall s v, decode_use_number s = Some v -> decoded v.
Proof. exact decode_decoded. Qed.
Print Assumptions C08_decoder_output.

Definition C08_schema := "{""properties"":{""a"":{""items"":{""type"":""string""}}},""propertyNames"":{""maxLength"":1},""additionalProperties"":false}".
Definition C08_instance := "{""a"":[""x"",5],""bb"":7}".
Example C08_example :
  match validate_text C08_schema C08_instance with
  | Ok r => map (fun e => (type_name (r_type e), ctx_string [] (r_ctx e), r_value e)) (errors r) =
      [("additional_property_not_allowed", "(root)", VNum "7");
       ("invalid_property_name", "(root)", loaded C08_instance);
       ("string_lte", "(root)", VStr "bb");
       ("invalid_type", "(root).a.1", VNum "5")]
  | _ => False
  end /\ at_path (loaded C08_instance) ["a"; "1"] (VNum "5").
Proof.
  split; [vm_compute; reflexivity|].
  apply (at_index _ ["a"] [VStr "x"; VNum "5"] 1); [|reflexivity].
  apply (at_member _ [] [("a", VArr [VStr "x"; VNum "5"]); ("bb", VNum "7")] "a"); [apply at_root|reflexivity].
Qed.

(** ** C09 *)
Theorem C09_errors_documented : forall env h root o v r,
  fair o -> returns env h root o v r -> Forall documented_error (errors r).
Proof. exact errors_documented. Qed.
Print Assumptions C09_errors_documented.
Theorem C09_types_distinguished : forall t t', type_name t = type_name t' -> t = t'.
Proof. exact type_name_injective. Qed.
Print Assumptions C09_types_distinguished.
(** Validate never reports an internal error. *)
Theorem C09_never_internal : forall env h root o v r,
  fair o -> returns env h root o v r -> Forall (fun e => r_type e <> InternalError) (errors r).
Proof. exact errors_not_internal. Qed.
Print Assumptions C09_never_internal.

Example C09_example :
  match validate_text "{""uniqueItems"":true,""items"":{""pattern"":""b""}}" "[""a"",""a""]" with
  | Ok r => map (fun e => (type_name (r_type e), description (fun d => match d with DStr s => s | DInt z => itoa z | DRegexp p => p | _ => "?" end) e)) (errors r)
  | _ => []
  end = [("pattern", "Does not match pattern 'b'"); ("pattern", "Does not match pattern 'b'");
         ("unique", "array items[0,1] must be unique")].
Proof. vm_compute. reflexivity. Qed.

(** ** C17 *)
(** A node with keywords of one type only accepts every value of another. *)
Theorem C17_numeric_keywords : forall env h root o v p mo mx xmx mn xmn, fair o -> ~ is_num v -> plain_value v ->
  nth_error h root = Some (with_numeric (empty_node p) mo mx xmx mn xmn) ->
  exists r, returns env h root o v r /\ errors r = [].
Proof. exact only_numeric_accepts. Qed.
Print Assumptions C17_numeric_keywords.
Theorem C17_string_keywords : forall env h root o v p mn mx pt, fair o -> ~ is_str v -> plain_value v ->
  nth_error h root = Some (with_string (empty_node p) mn mx pt) ->
  exists r, returns env h root o v r /\ errors r = [].
Proof. exact only_string_accepts. Qed.
Print Assumptions C17_string_keywords.
Theorem C17_array_keywords : forall env h root o v p it si mn mx u ct ai, fair o -> ~ is_arr v -> plain_value v ->
  nth_error h root = Some (with_array (empty_node p) it si mn mx u ct ai) ->
  exists r, returns env h root o v r /\ errors r = [].
Proof. exact only_array_accepts. Qed.
Print Assumptions C17_array_keywords.
Theorem C17_object_keywords : forall env h root o v p pr mn mx rq dp ap pp pn, fair o -> ~ is_obj v -> plain_value v ->
  (forall s, v = VNum s -> rat_of (e_ratlim env) s <> None) ->
  nth_error h root = Some (with_object (empty_node p) pr mn mx rq dp ap pp pn) ->
  exists r, returns env h root o v r /\ errors r = [].
Proof. exact only_object_accepts. Qed.
Print Assumptions C17_object_keywords.
(** Next to other keywords they change nothing for such values. *)
Theorem C17_numeric_isolated : forall env h rec o n mo mx xmx mn xmn v c, ~ is_num v ->
  validateNode env h rec o (with_numeric n mo mx xmx mn xmn) v c = validateNode env h rec o n v c.
Proof. exact numeric_isolated. Qed.
Print Assumptions C17_numeric_isolated.
Theorem C17_string_isolated : forall env h rec o n mn mx pt v c, ~ is_str v ->
  validateNode env h rec o (with_string n mn mx pt) v c = validateNode env h rec o n v c.
Proof. exact string_isolated. Qed.
Print Assumptions C17_string_isolated.
Theorem C17_array_isolated : forall env h rec o n it si mn mx u ct ai v c, ~ is_arr v ->
  validateNode env h rec o (with_array n it si mn mx u ct ai) v c = validateNode env h rec o n v c.
Proof. exact array_isolated. Qed.
Print Assumptions C17_array_isolated.
Theorem C17_object_isolated : forall env h rec o n pr mn mx rq dp ap pp pn v c, ~ is_obj v ->
  (forall s, v = VNum s -> rat_of (e_ratlim env) s <> None) ->
  validateNode env h rec o (with_object n pr mn mx rq dp ap pp pn) v c = validateNode env h rec o n v c.
Proof. exact object_isolated. Qed.
Print Assumptions C17_object_isolated.

Example C17_example :
  nth_error (graph "{""minimum"":3,""multipleOf"":2,""exclusiveMaximum"":7}") 0 =
    Some (with_numeric (empty_node "(root)") (Some 2%Q) None (Some 7%Q) (Some 3%Q) None) /\
  error_names (validate_text "{""minimum"":3,""multipleOf"":2,""exclusiveMaximum"":7}" """a""") = [] /\
  error_names (validate_text "{""minLength"":3,""pattern"":""x""}" "1") = [] /\
  error_names (validate_text "{""minItems"":3,""uniqueItems"":true,""items"":false}" "{}") = [] /\
  error_names (validate_text "{""required"":[""a""],""additionalProperties"":false,""minProperties"":2,""dependencies"":{""a"":[""b""]}}" "[1]") = [].
Proof. vm_compute. auto. Qed.

(** ** C18, for a compiled boolean schema (compilation: PropCompile.v) *)
Theorem C18_true_accepts : forall env h root n o v, nth_error h root = Some n -> n_pass n = Some true ->
  returns env h root o v new_result.
Proof. exact true_schema. Qed.
Print Assumptions C18_true_accepts.
Theorem C18_false_rejects : forall env h root n o v, nth_error h root = Some n -> n_pass n = Some false ->
  returns env h root o v (emit FalseError [STRING_CONTEXT_ROOT] v []).
Proof. exact false_schema. Qed.
Print Assumptions C18_false_rejects.
Example C18_example :
  option_map n_pass (nth_error (graph "false") 0) = Some (Some false) /\
  error_names (validate_text "false" "{}") = [("false", "(root)")] /\
  error_names (validate_text "true" "{}") = [].
Proof. vm_compute. auto. Qed.

(** ** C37 *)
Theorem C37_context_string : forall del c, ctx_string [del] c = String.concat del (rev c).
Proof. exact ctx_write_concat. Qed.
Print Assumptions C37_context_string.
Theorem C37_context_string_default : forall c, ctx_string [] c = String.concat "." (rev c).
Proof. exact (ctx_write_concat "."). Qed.
Print Assumptions C37_context_string_default.
Theorem C37_field : forall p path,
  field_of (rev ("(root)" :: p :: path)) = String.concat "." (p :: path).
Proof. exact field_of_path. Qed.
Print Assumptions C37_field.
Example C37_example :
  ctx_string ["/"] (NewJsonContext "0" (NewJsonContext "a" ["(root)"])) = "(root)/a/0" /\
  field_of (NewJsonContext "0" (NewJsonContext "a" ["(root)"])) = "a.0" /\ field_of ["(root)"] = "(root)".
Proof. vm_compute. auto. Qed.

(** ** C39 *)
(** [yaml v v']: v' is v with map[string]interface{} objects in place of some
    map[interface{}]interface{} ones (see ValidateEq.v for which). *)
Theorem C39_yaml_maps : forall env h root v v' o1 o2 r1,
  (forall f a b, yaml a b -> e_is_format env f a = e_is_format env f b) ->
  fair o1 -> fair o2 -> wf_value v -> yaml v v' ->
  returns env h root o1 v r1 ->
  exists r2, returns env h root o2 v' r2 /\ Valid r1 = Valid r2 /\
    exists l, Permutation (errors r1) l /\ Forall2 (same_error yaml) l (errors r2).
Proof. exact yaml_like_json. Qed.
Print Assumptions C39_yaml_maps.
Definition C39_instance := VIMap [(Some "a", VNum "2"); (Some "b", VIMap [(Some "x", VNil)])].
Example C39_example :
  yaml C39_instance (loaded "{""a"":2,""b"":{""x"":null}}") /\ wf_value C39_instance /\
  error_names (validateDocument go0 (graph C03_schema) FUEL in_order 0 C39_instance) =
    [("invalid_type", "a")] /\
  error_names (validate_text C03_schema "{""a"":2,""b"":{""x"":null}}") = [("invalid_type", "a")].
Proof.
  split; [vm_compute; repeat constructor|]. split; [|vm_compute; auto].
  repeat (constructor; simpl; try (intuition discriminate)).
Qed.
(** The converse fails: a map[interface{}]interface{} below an array is not
    converted before uniqueItems, which then panics on it. *)
Theorem C39_converse_refuted : exists h v v' r', yaml v v' /\ wf_value v /\
  returns go0 h 0 in_order v' r' /\ panics go0 h 0 in_order v.
Proof.
  exists (graph "{""uniqueItems"":true}"), (VArr [VIMap []]), (VArr [VMap []]).
  eexists. split; [repeat constructor|]. split; [repeat constructor|].
  split; exists 5; vm_compute; reflexivity.
Qed.
Print Assumptions C39_converse_refuted.

(** ** C43 *)
Theorem C43_AddError_appends : forall show es e m,
  exists d', AddError show es e (Some m) = Ok (es ++ [Described e (render show (ue_format e) d')]) /\
    (forall k, k <> "context" -> assoc k d' = assoc k m) /\
    assoc "context" d' = match assoc "context" m, ue_ctx e with
                         | None, Some c => Some (DStr (ctx_string [] c))
                         | x, _ => x
                         end.
Proof. exact AddError_appends. Qed.
Print Assumptions C43_AddError_appends.
(** With nil details and a context it panics (assignment to a nil map). *)
Theorem C43_nil_details_refuted : exists show es e, AddError show es e None = Panic.
Proof. exists (fun _ => ""), [], (UserError (Some ["(root)"]) "" VNil). reflexivity. Qed.
Print Assumptions C43_nil_details_refuted.
Example C43_example :
  AddError (fun d => match d with DStr s => s | _ => "?" end) []
    (UserError (Some ["a"; "(root)"]) "{{.context}}: {{.why}}" VNil) (Some [("why", DStr "bad")]) =
  Ok [Described (UserError (Some ["a"; "(root)"]) "{{.context}}: {{.why}}" VNil) "(root).a: bad"].
Proof. vm_compute. reflexivity. Qed.
