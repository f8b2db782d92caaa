(** Specification: the reason of an error, in terms of the schema document and
    the instance: which schema object applies to which part of the instance, and
    which of its keywords that part breaks. *)
From Verif Require Export SpecSchema ModelResult.
Open Scope string_scope.
Open Scope list_scope.
Open Scope nat_scope.

Section Reason.
  (** As in SpecSchema.v. *)
  Variable pat : string -> string -> Prop.
  Variable fmt : string -> value -> Prop.
  Variable same : value -> value -> Prop.
  Variable V : draft -> value -> value -> Prop.
  Variable T : string -> draft -> value -> Prop.

  (** [sure d m c v x w c']: by a keyword of the schema object m, the value v at
      place c satisfies m only if its part w at place c' satisfies x. *)
  Inductive sure (d : draft) (m : list (string * value)) (c : ctx) : value -> value -> value -> ctx -> Prop :=
  | p_allOf l x v : assoc "allOf" m = Some (VArr l) -> In x l -> sure d m c v x v c
  | p_then i x v : since7 d -> assoc "if" m = Some i -> V d i v -> assoc "then" m = Some x -> sure d m c v x v c
  | p_else i x v : since7 d -> assoc "if" m = Some i -> ~ V d i v -> assoc "else" m = Some x -> sure d m c v x v c
  | p_dependency ds o k x : assoc "dependencies" m = Some (VMap ds) -> In (k, x) ds -> (forall ks, x <> VArr ks) -> In k (map fst o) ->
      sure d m c (VMap o) x (VMap o) c
  | p_items x l i e : assoc "items" m = Some x -> (forall ss, x <> VArr ss) -> nth_error l i = Some e ->
      sure d m c (VArr l) x e (itoa (Z.of_nat i) :: c)
  | p_item ss x l i e : assoc "items" m = Some (VArr ss) -> nth_error ss i = Some x -> nth_error l i = Some e ->
      sure d m c (VArr l) x e (itoa (Z.of_nat i) :: c)
  | p_additional_item ss x l i e : assoc "items" m = Some (VArr ss) -> assoc "additionalItems" m = Some x -> (forall b, x <> VBool b) ->
      length ss <= i -> nth_error l i = Some e -> sure d m c (VArr l) x e (itoa (Z.of_nat i) :: c)
  | p_property ps o k x e : assoc "properties" m = Some (VMap ps) -> In (k, x) ps -> In (k, e) o -> sure d m c (VMap o) x e (k :: c)
  | p_pattern ps o p x k e : assoc "patternProperties" m = Some (VMap ps) -> In (p, x) ps -> pat p k -> In (k, e) o ->
      sure d m c (VMap o) x e (k :: c)
  | p_additional o x k e : assoc "additionalProperties" m = Some x -> (forall b, x <> VBool b) -> additional pat m k -> In (k, e) o ->
      sure d m c (VMap o) x e (k :: c)
  | p_name o x k : since6 d -> assoc "propertyNames" m = Some x -> In k (map fst o) -> sure d m c (VMap o) x (VStr k) c.
  (** [puts d m c v x w c']: that, or it is one of several schemas or parts of
      which one has to fit. *)
  Inductive puts (d : draft) (m : list (string * value)) (c : ctx) : value -> value -> value -> ctx -> Prop :=
  | p_sure v x w c' : sure d m c v x w c' -> puts d m c v x w c'
  | p_branch k l x v : In k ["anyOf"; "oneOf"] -> assoc k m = Some (VArr l) -> In x l -> puts d m c v x v c
  | p_contains x l i e : since6 d -> assoc "contains" m = Some x -> nth_error l i = Some e -> puts d m c (VArr l) x e (itoa (Z.of_nat i) :: c).
  (** [musts d m c v x w c']: it is sure, and the type of v is right. *)
  Definition musts (d : draft) (m : list (string * value)) (c : ctx) (v x w : value) (c' : ctx) : Prop :=
    s_type m v /\ sure d m c v x w c'.

  (** From checking v0 against s0, read under d0, by steps and by references to
      checking the part v of v0 at place c against s, read under d. *)
  Inductive path (step : draft -> list (string * value) -> ctx -> value -> value -> value -> ctx -> Prop)
      (d0 : draft) (s0 v0 : value) : draft -> value -> value -> ctx -> Prop :=
  | path_root : path step d0 s0 v0 d0 s0 v0 ["(root)"]
  | path_ref d m v c r d' x : path step d0 s0 v0 d (VMap m) v c -> assoc "$ref" m = Some (VStr r) -> T r d' x -> path step d0 s0 v0 d' x v c
  | path_part d m v c x w c' : path step d0 s0 v0 d (VMap m) v c -> (forall r, assoc "$ref" m <> Some (VStr r)) -> step d m c v x w c' ->
      path step d0 s0 v0 d x w c'.
  (** [put]: v may have to satisfy s; [must]: it has to, for v0 to satisfy s0. *)
  Definition put : draft -> value -> value -> draft -> value -> value -> ctx -> Prop := path puts.
  Definition must : draft -> value -> value -> draft -> value -> value -> ctx -> Prop := path musts.

  Section Breaks.
    Variables (d : draft) (m : list (string * value)) (v : value) (e : rerror).
    Definition told (k : string) (x : dval) : Prop := assoc k (r_details e) = Some x.
    Definition size (key detail : string) (P : Z -> Prop) : Prop :=
      exists x n, assoc key m = Some x /\ is_int x n /\ P n /\ told detail (DInt n).
    Definition bound (key detail : string) (P : Q -> Q -> Prop) : Prop :=
      exists x b q, assoc key m = Some x /\ is_num x b /\ is_num v q /\ P q b /\ told detail (DRat b).
    (** The keyword of m that v breaks, and what the details of the error say. *)
    Definition breaks : Prop :=
      match r_type e with
      | FalseError | InternalError | InvalidPropertyPatternError => False
      | InvalidTypeError => ~ s_type m v
      | ConstError => ~ s_const same d m v
      | EnumError => ~ s_enum same m v
      | DoesNotMatchFormatError => exists f, assoc "format" m = Some (VStr f) /\ ~ fmt f v /\ told "format" (DStr f)
      | NumberAnyOfError => exists l, assoc "anyOf" m = Some (VArr l) /\ forall x, In x l -> ~ V d x v
      | NumberOneOfError => ~ s_oneOf V d m v
      | NumberAllOfError => exists l x, assoc "allOf" m = Some (VArr l) /\ In x l /\ ~ V d x v
      | NumberNotError => exists x, assoc "not" m = Some x /\ V d x v
      | ConditionThenError => since7 d /\ exists i x, assoc "if" m = Some i /\ V d i v /\ assoc "then" m = Some x /\ ~ V d x v
      | ConditionElseError => since7 d /\ exists i x, assoc "if" m = Some i /\ ~ V d i v /\ assoc "else" m = Some x /\ ~ V d x v
      | MissingDependencyError => exists ds o k ks k', assoc "dependencies" m = Some (VMap ds) /\ v = VMap o /\ In (k, VArr ks) ds /\
          In k (map fst o) /\ In (VStr k') ks /\ ~ In k' (map fst o) /\ told "dependency" (DStr k')
      | MultipleOfError => bound "multipleOf" "multiple" (fun q b => ~ exists z, (q == inject_Z z * b)%Q)
      | NumberLTEError => ~ strict d m "exclusiveMaximum" /\ bound "maximum" "max" (fun q b => (b < q)%Q)
      | NumberGTEError => ~ strict d m "exclusiveMinimum" /\ bound "minimum" "min" (fun q b => (q < b)%Q)
      | NumberLTError => since6 d /\ bound "exclusiveMaximum" "max" (fun q b => (b <= q)%Q) \/
                         strict d m "exclusiveMaximum" /\ bound "maximum" "max" (fun q b => (b <= q)%Q)
      | NumberGTError => since6 d /\ bound "exclusiveMinimum" "min" (fun q b => (q <= b)%Q) \/
                         strict d m "exclusiveMinimum" /\ bound "minimum" "min" (fun q b => (q <= b)%Q)
      | StringLengthGTEError => exists s cps, v = VStr s /\ text cps s /\ size "minLength" "min" (fun n => (Z.of_nat (length cps) < n)%Z)
      | StringLengthLTEError => exists s cps, v = VStr s /\ text cps s /\ size "maxLength" "max" (fun n => (n < Z.of_nat (length cps))%Z)
      | DoesNotMatchPatternError => exists s p, v = VStr s /\ assoc "pattern" m = Some (VStr p) /\ ~ pat p s /\ told "pattern" (DRegexp p)
      | ArrayNoAdditionalItemsError => exists l ss, v = VArr l /\ assoc "items" m = Some (VArr ss) /\
          assoc "additionalItems" m = Some (VBool false) /\ length ss < length l
      | ArrayMinItemsError => exists l, v = VArr l /\ size "minItems" "min" (fun n => (Z.of_nat (length l) < n)%Z)
      | ArrayMaxItemsError => exists l, v = VArr l /\ size "maxItems" "max" (fun n => (n < Z.of_nat (length l))%Z)
      | ItemsMustBeUniqueError => exists l i j x y, v = VArr l /\ assoc "uniqueItems" m = Some (VBool true) /\ i < j /\
          nth_error l i = Some x /\ nth_error l j = Some y /\ same x y /\
          told "i" (DInt (Z.of_nat i)) /\ told "j" (DInt (Z.of_nat j))
      | ArrayContainsError => since6 d /\ exists l x, v = VArr l /\ assoc "contains" m = Some x /\ forall y, In y l -> ~ V d x y
      | ArrayMinPropertiesError => exists o, v = VMap o /\ size "minProperties" "min" (fun n => (Z.of_nat (length o) < n)%Z)
      | ArrayMaxPropertiesError => exists o, v = VMap o /\ size "maxProperties" "max" (fun n => (n < Z.of_nat (length o))%Z)
      | RequiredError => exists o ks k, v = VMap o /\ assoc "required" m = Some (VArr ks) /\ In (VStr k) ks /\ ~ In k (map fst o) /\
          told "property" (DStr k)
      | InvalidPropertyNameError => since6 d /\ exists o x k, v = VMap o /\ assoc "propertyNames" m = Some x /\ In k (map fst o) /\
          ~ V d x (VStr k) /\ told "property" (DStr k)
      | AdditionalPropertyNotAllowedError => exists o k, v = VMap o /\ assoc "additionalProperties" m = Some (VBool false) /\
          In (k, r_value e) o /\ additional pat m k /\ told "property" (DStr k)
      end.
  End Breaks.

  (** The error e is about the value v at place c, which the schema s rejects:
      s is false, or has a keyword v breaks.  The error carries v, or the member
      that is not allowed there. *)
  Definition reason (d : draft) (s v : value) (c : ctx) (e : rerror) : Prop :=
    r_ctx e = c /\ (r_type e <> AdditionalPropertyNotAllowedError -> r_value e = v) /\
    ((s = VBool false /\ r_type e = FalseError) \/
     exists m, s = VMap m /\ assoc "$ref" m = None /\ breaks d m v e).
  Definition justified (d0 : draft) (s0 v0 : value) (e : rerror) : Prop :=
    exists d s v c, put d0 s0 v0 d s v c /\ reason d s v c e.

  (** What tells errors of one type at one place apart. *)
  Definition which (t : etype) : list string :=
    match t with
    | RequiredError | InvalidPropertyNameError | AdditionalPropertyNotAllowedError => ["property"]
    | MissingDependencyError => ["dependency"]
    | DoesNotMatchFormatError => ["format"]
    | DoesNotMatchPatternError => ["pattern"]
    | MultipleOfError => ["multiple"]
    | NumberLTEError | NumberLTError | StringLengthLTEError | ArrayMaxItemsError | ArrayMaxPropertiesError => ["max"]
    | NumberGTEError | NumberGTError | StringLengthGTEError | ArrayMinItemsError | ArrayMinPropertiesError => ["min"]
    | _ => []
    end.
  Definition same_told (a b : option dval) : Prop :=
    a = b \/ exists p q, a = Some (DRat p) /\ b = Some (DRat q) /\ (p == q)%Q.
  (** Two errors about the same thing. *)
  Definition alike (e e' : rerror) : Prop :=
    r_ctx e = r_ctx e' /\ r_type e = r_type e' /\ r_value e = r_value e' /\
    forall k, In k (which (r_type e)) -> same_told (assoc k (r_details e)) (assoc k (r_details e')).
  (** What is wrong has to be reported: with a value of a wrong type, that;
      otherwise every keyword broken. *)
  Definition due (d0 : draft) (s0 v0 : value) (e : rerror) : Prop :=
    exists d s v c, must d0 s0 v0 d s v c /\ reason d s v c e /\
      forall m, s = VMap m -> r_type e <> InvalidTypeError -> s_type m v.
End Reason.

(** Of each error with P there is one about the same thing in es. *)
Definition reports_due (P : rerror -> Prop) (es : list rerror) : Prop := forall e, P e -> exists e', In e' es /\ alike e e'.
(** The list es says what is wrong with v0, which does not satisfy s0. *)
Definition tells pat fmt same V T (d0 : draft) (s0 v0 : value) (es : list rerror) : Prop :=
  es <> [] /\ Forall (justified pat fmt same V T d0 s0 v0) es /\ reports_due (due pat fmt same V T d0 s0 v0) es.
