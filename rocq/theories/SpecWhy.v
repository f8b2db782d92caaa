(** Specification: why there is an error.  Which schema objects apply to which
    parts of the instance, and which keyword of such an object each type of
    error says is broken. *)
From Coq Require Import Relations.
From Verif Require Export SpecKeywords.

Section Why.
  Variables (env : goenv) (h : heap).
  Definition accepts (id : nat) (v : value) (c : ctx) : Prop := exists r, sub env h v c id r /\ Valid r = true.
  Definition rejects (id : nat) (v : value) (c : ctx) : Prop := exists r, sub env h v c id r /\ Valid r = false.

  (** A check: a cell, the value it is to check and the place of that value. *)
  Definition check : Type := (nat * value * ctx)%type.

  (** [hands n v c id x d]: to decide about v at c, the schema object n has the
      value x at d checked by cell id, and reports what is wrong with it. *)
  Inductive hands (n : node) (v : value) (c : ctx) : nat -> value -> ctx -> Prop :=
  | h_anyOf id : In id (n_anyOf n) -> hands n v c id v c
  | h_oneOf id : In id (n_oneOf n) -> hands n v c id v c
  | h_allOf id : In id (n_allOf n) -> hands n v c id v c
  | h_then i id : n_if n = Some i -> n_then n = Some id -> accepts i v c -> hands n v c id v c
  | h_else i id : n_if n = Some i -> n_else n = Some id -> rejects i v c -> hands n v c id v c
  | h_dependency m k id : v = VMap m -> In k (map fst m) -> assoc k (n_dependencies n) = Some (DepSchema id) -> hands n v c id v c
  | h_items l i x id : v = VArr l -> n_items n <> [] -> nth_error l i = Some x ->
      checker (n_items_single n) (n_items n) (n_additionalItems n) i = Some id -> hands n v c id x (itoa (Z.of_nat i) :: c)
  | h_contains l i x id : v = VArr l -> nth_error l i = Some x -> n_contains n = Some id -> hands n v c id x (itoa (Z.of_nat i) :: c)
  | h_property m id p x : v = VMap m -> In id (n_props n) -> nth_error h id = Some p -> assoc (n_property p) m = Some x ->
      hands n v c id x (n_property p :: c)
  | h_pattern m k x p id : v = VMap m -> In (k, x) m -> In (p, id) (n_patternProperties n) ->
      e_re_ok env p = true -> e_re_match env p k = true -> hands n v c id x (k :: c)
  | h_additional m k x id : v = VMap m -> In (k, x) m -> ~ has_property h n k -> matching env n k = [] ->
      n_additionalProperties n = Some (AddlSchema id) -> hands n v c id x (k :: c)
  | h_name m k x id : v = VMap m -> In (k, x) m -> n_propertyNames n = Some id -> hands n v c id (VStr k) c.

  (** One step from a check to the next. *)
  Inductive leads : check -> check -> Prop :=
  | l_ref id n v c t : nth_error h id = Some n -> n_pass n = None -> n_ref n = Some t -> leads (id, v, c) (t, v, c)
  | l_hands id n v c id' x d : nth_error h id = Some n -> n_pass n = None -> n_ref n = None -> hands n v c id' x d ->
      leads (id, v, c) (id', x, d)
  | l_convert id n m c w : nth_error h id = Some n -> n_pass n = None -> n_ref n = None ->
      convertDocumentNode (VIMap m) = Ok w -> leads (id, VIMap m, c) (id, w, c).
  Definition applies : check -> check -> Prop := clos_refl_trans check leads.

  Section Broken.
    Variables (n : node) (v : value) (c : ctx) (d : details).
    Definition detail (k : string) (x : dval) : Prop := assoc k d = Some x.
    Definition number (P : Q -> Prop) : Prop := exists s q, v = VNum s /\ rat_of (e_ratlim env) s = Some q /\ P q.
    (** The keyword a type of error is about, why v breaks it, and the details. *)
    Definition broken (t : etype) : Prop :=
      match t with
      | FalseError | InternalError | InvalidPropertyPatternError | AdditionalPropertyNotAllowedError => False
      | InvalidTypeError => ~ type_allowed env n v /\ detail "expected" (DStr (types_string (n_types n))) /\
          detail "given" (DStr (hd "" (value_types env v)))
      | NumberAnyOfError => n_anyOf n <> [] /\ forall id, In id (n_anyOf n) -> rejects id v c
      | NumberOneOfError => n_oneOf n <> [] /\ exists rs, Forall2 (sub env h v c) (n_oneOf n) rs /\ valid_count rs <> 1
      | NumberAllOfError => exists id, In id (n_allOf n) /\ rejects id v c
      | NumberNotError => exists id, n_not n = Some id /\ accepts id v c
      | ConditionThenError => exists i id, n_if n = Some i /\ n_then n = Some id /\ accepts i v c /\ rejects id v c
      | ConditionElseError => exists i id, n_if n = Some i /\ n_else n = Some id /\ rejects i v c /\ rejects id v c
      | MissingDependencyError => exists m k ks k', v = VMap m /\ In k (map fst m) /\ assoc k (n_dependencies n) = Some (DepKeys ks) /\
          In k' ks /\ assoc k' m = None /\ detail "dependency" (DStr k')
      | ConstError => exists k t, n_const n = Some k /\ marshalWithoutNumber v = Some t /\ t <> k /\ detail "allowed" (DStr k)
      | EnumError => exists t, n_enum n <> [] /\ marshalWithoutNumber v = Some t /\ ~ In t (n_enum n) /\ detail "allowed" (DStr (join ", " (n_enum n)))
      | DoesNotMatchFormatError => n_format n <> "" /\ e_is_format env (n_format n) v = false /\ detail "format" (DStr (n_format n))
      | ArrayNoAdditionalItemsError => exists l, v = VArr l /\ n_items n <> [] /\ n_items_single n = false /\
          n_additionalItems n = Some (AddlBool false) /\ length (n_items n) < length l
      | ArrayMinItemsError => exists l k, v = VArr l /\ n_minItems n = Some k /\ (Z.of_nat (length l) < k)%Z /\ detail "min" (DInt k)
      | ArrayMaxItemsError => exists l k, v = VArr l /\ n_maxItems n = Some k /\ (k < Z.of_nat (length l))%Z /\ detail "max" (DInt k)
      | ItemsMustBeUniqueError => exists l i j x y t, v = VArr l /\ n_uniqueItems n = true /\ i < j /\
          nth_error l i = Some x /\ nth_error l j = Some y /\ marshalWithoutNumber x = Some t /\ marshalWithoutNumber y = Some t /\
          detail "type" (DStr TYPE_ARRAY) /\ detail "i" (DInt (Z.of_nat i)) /\ detail "j" (DInt (Z.of_nat j))
      | ArrayContainsError => exists l id, v = VArr l /\ n_contains n = Some id /\
          forall i x, nth_error l i = Some x -> rejects id x (itoa (Z.of_nat i) :: c)
      | ArrayMinPropertiesError => exists m k, v = VMap m /\ n_minProperties n = Some k /\ (Z.of_nat (length m) < k)%Z /\ detail "min" (DInt k)
      | ArrayMaxPropertiesError => exists m k, v = VMap m /\ n_maxProperties n = Some k /\ (k < Z.of_nat (length m))%Z /\ detail "max" (DInt k)
      | RequiredError => exists m k, v = VMap m /\ In k (n_required n) /\ assoc k m = None /\ detail "property" (DStr k)
      | InvalidPropertyNameError => exists m k id, v = VMap m /\ In k (map fst m) /\ n_propertyNames n = Some id /\ rejects id (VStr k) c /\
          detail "property" (DStr k)
      | StringLengthGTEError => exists s k, v = VStr s /\ n_minLength n = Some k /\ (rune_count s < k)%Z /\ detail "min" (DInt k)
      | StringLengthLTEError => exists s k, v = VStr s /\ n_maxLength n = Some k /\ (k < rune_count s)%Z /\ detail "max" (DInt k)
      | DoesNotMatchPatternError => exists s p, v = VStr s /\ n_pattern n = Some p /\ e_re_match env p s = false /\ detail "pattern" (DRegexp p)
      | MultipleOfError => exists b, n_multipleOf n = Some b /\ detail "multiple" (DRat b) /\
          number (fun q => ~ (b == 0)%Q /\ ~ exists z, (q == inject_Z z * b)%Q)
      | NumberLTEError => exists b, n_maximum n = Some b /\ detail "max" (DRat b) /\ number (fun q => (b < q)%Q)
      | NumberLTError => exists b, n_exclusiveMaximum n = Some b /\ detail "max" (DRat b) /\ number (fun q => (b <= q)%Q)
      | NumberGTEError => exists b, n_minimum n = Some b /\ detail "min" (DRat b) /\ number (fun q => (q < b)%Q)
      | NumberGTError => exists b, n_exclusiveMinimum n = Some b /\ detail "min" (DRat b) /\ number (fun q => (q <= b)%Q)
      end.
  End Broken.

  (** The error e is the cell's own, about the value v at c: it is at that
      place and, unless it is about one member not allowed there, carries v. *)
  Definition own (id : nat) (v : value) (c : ctx) (e : rerror) : Prop :=
    exists n, nth_error h id = Some n /\ r_ctx e = c /\
      ((n_pass n = Some false /\ r_type e = FalseError /\ r_value e = v) \/
       (n_pass n = None /\ n_ref n = None /\ r_value e = v /\ broken n v c (r_details e) (r_type e)) \/
       (n_pass n = None /\ n_ref n = None /\ r_type e = AdditionalPropertyNotAllowedError /\
        exists m k, v = VMap m /\ In (k, r_value e) m /\ n_additionalProperties n = Some (AddlBool false) /\
          ~ has_property h n k /\ matching env n k = [] /\ detail (r_details e) "property" (DStr k))).
  (** ... or that of a check the first one leads to. *)
  Definition why (from : check) (e : rerror) : Prop :=
    exists id v c, applies from (id, v, c) /\ own id v c e.
End Why.
