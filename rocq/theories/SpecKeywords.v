(** What each keyword of a compiled schema object reports about a value, one
    keyword at a time: the vocabulary of C46. *)
From Verif Require Export ValidateApi.

(** Keywords, and groups of keywords that are defined together, in the order in
    which the code reports them. *)
Inductive keyword :=
| K_anyOf | K_oneOf | K_allOf | K_not | K_dependencies | K_if
| K_multipleOf | K_maximum | K_exclusiveMaximum | K_minimum | K_exclusiveMinimum
| K_items | K_minItems | K_maxItems | K_uniqueItems | K_contains
| K_minProperties | K_maxProperties | K_required | K_other_members | K_propertyNames
| K_const | K_enum | K_format
| K_minLength | K_maxLength | K_pattern
| K_properties.
Definition keywords : list keyword :=
  [K_anyOf; K_oneOf; K_allOf; K_not; K_dependencies; K_if;
   K_multipleOf; K_maximum; K_exclusiveMaximum; K_minimum; K_exclusiveMinimum;
   K_items; K_minItems; K_maxItems; K_uniqueItems; K_contains;
   K_minProperties; K_maxProperties; K_required; K_other_members; K_propertyNames;
   K_const; K_enum; K_format; K_minLength; K_maxLength; K_pattern; K_properties].

Definition keyword_eq_dec (a b : keyword) : {a = b} + {a <> b}.
Proof. decide equality. Defined.
(** The keywords other than [k]. *)
Definition others (k : keyword) : list keyword := remove keyword_eq_dec k keywords.

Section Reports.
  Variables (env : goenv) (h : heap) (n : node) (v : value) (c : ctx).
  (** [sub id r]: checking v by cell id can end with r; below, [inside]: the
      same for a part of v. *)
  Notation sub_v := (sub env h v c).
  Definition inside (x : value) (step : string) (id : nat) (es : list rerror) : Prop :=
    exists r, sub env h x (step :: c) id r /\ es = errors r.

  Definition none (es : list rerror) : Prop := es = [].
  Definition one (t : etype) (d : details) (es : list rerror) : Prop := es = [newError t c v d].
  Definition one_if (P : Prop) (t : etype) (d : details) (es : list rerror) : Prop :=
    (P /\ one t d es) \/ (~ P /\ none es).
  Definition present {A} (x : option A) (f : A -> list rerror -> Prop) (es : list rerror) : Prop :=
    match x with Some a => f a es | None => none es end.
  Definition on_number (f : Q -> list rerror -> Prop) (es : list rerror) : Prop :=
    match v with VNum s => exists q, rat_of (e_ratlim env) s = Some q /\ f q es | _ => none es end.
  Definition on_string (f : string -> list rerror -> Prop) (es : list rerror) : Prop :=
    match v with VStr s => f s es | _ => none es end.
  Definition on_array (f : list value -> list rerror -> Prop) (es : list rerror) : Prop :=
    match v with VArr l => f l es | _ => none es end.
  Definition on_object (f : list (string * value) -> list rerror -> Prop) (es : list rerror) : Prop :=
    match v with VMap m => f m es | _ => none es end.
  Definition text_of (f : string -> list rerror -> Prop) (es : list rerror) : Prop :=
    exists t, marshalWithoutNumber v = Some t /\ f t es.
  (** Each element of [l] reports by [f]; order of [l] kept, or any order. *)
  Definition each {A} (f : A -> list rerror -> Prop) (l : list A) (es : list rerror) : Prop :=
    exists ess, Forall2 f l ess /\ es = concat ess.
  Definition each_in_some_order {A} (f : A -> list rerror -> Prop) (l : list A) (es : list rerror) : Prop :=
    exists l', Permutation l l' /\ each f l' es.
  Definition indexed {A} (l : list A) : list (nat * A) := combine (seq 0 (length l)) l.

  Definition anyOf_own (es : list rerror) : Prop :=
    (none es /\ (n_anyOf n = [] \/ exists i ri, In i (n_anyOf n) /\ sub_v i ri /\ Valid ri = true)) \/
    (exists rs b, Forall2 sub_v (n_anyOf n) rs /\ Forall (fun x => Valid x = false) rs /\
       closest rs b /\ es = newError NumberAnyOfError c v [] :: errors b).
  Definition oneOf_own (es : list rerror) : Prop :=
    (none es /\ n_oneOf n = []) \/
    (exists rs, Forall2 sub_v (n_oneOf n) rs /\
       ((valid_count rs = 1 /\ none es) \/
        (2 <= valid_count rs /\ one NumberOneOfError [] es) \/
        (valid_count rs = 0 /\ exists b, closest rs b /\ es = newError NumberOneOfError c v [] :: errors b))).
  Definition allOf_own (es : list rerror) : Prop :=
    exists rs, Forall2 sub_v (n_allOf n) rs /\
      es = concat (map errors rs) ++
           (if forallb Valid rs then [] else [newError NumberAllOfError c v []]).
  Definition not_own (id : nat) (es : list rerror) : Prop :=
    exists r, sub_v id r /\ one_if (Valid r = true) NumberNotError [] es.
  Definition if_own (id : nat) (es : list rerror) : Prop :=
    exists r, sub_v id r /\
      present (if Valid r then n_then n else n_else n)
        (fun t es => exists rt, sub_v t rt /\
           es = if Valid rt then []
                else newError (if Valid r then ConditionThenError else ConditionElseError) c v [] :: errors rt) es.
  Definition dependency_own (m : list (string * value)) (e : string * value) (es : list rerror) : Prop :=
    present (assoc (fst e) (n_dependencies n))
      (fun d es => match d with
         | DepKeys ks => each (fun k es => one_if (assoc k m = None) MissingDependencyError [("dependency", DStr k)] es) ks es
         | DepSchema id => exists r, sub_v id r /\ es = errors r
         end) es.
  Definition items_own (l : list value) (es : list rerror) : Prop :=
    (n_items n = [] /\ none es) \/
    (n_items n <> [] /\ exists es1 es2, es = es1 ++ es2 /\
       each (fun e es => present (checker (n_items_single n) (n_items n) (n_additionalItems n) (fst e))
                           (inside (snd e) (itoa (Z.of_nat (fst e)))) es) (indexed l) es1 /\
       one_if (n_items_single n = false /\ n_additionalItems n = Some (AddlBool false) /\ length (n_items n) < length l)
              ArrayNoAdditionalItemsError [] es2).
  (** Positions i < j of equal elements with none equal to them in between. *)
  Definition unique_own (l : list value) (es : list rerror) : Prop :=
    (n_uniqueItems n = false /\ none es) \/
    (n_uniqueItems n = true /\ exists ts ps, map marshalWithoutNumber l = map Some ts /\
       NoDup ps /\ (forall p, In p ps <-> repeats ts p) /\ es = map (unique_error c v) ps).
  Definition contains_own (l : list value) (id : nat) (es : list rerror) : Prop :=
    (none es /\ exists i x r, nth_error l i = Some x /\ sub env h x (itoa (Z.of_nat i) :: c) id r /\ Valid r = true) \/
    (exists rs, Forall2 (fun e r => sub env h (snd e) (itoa (Z.of_nat (fst e)) :: c) id r) (indexed l) rs /\
       Forall (fun r => Valid r = false) rs /\
       ((l = [] /\ one ArrayContainsError [] es) \/
        (exists b, closest rs b /\ es = newError ArrayContainsError c v [] :: errors b))).
  (** Members matching patternProperties, else additional ones. *)
  Definition has_property (k : string) : Prop :=
    exists id p, In id (n_props n) /\ nth_error h id = Some p /\ n_property p = k.
  Definition matching (k : string) : list (string * nat) :=
    filter (fun e => (e_re_ok env (fst e) && e_re_match env (fst e) k)%bool) (n_patternProperties n).
  Definition other_member_own (e : string * value) (es : list rerror) : Prop :=
    (matching (fst e) <> [] /\
       each_in_some_order (fun q es => inside (snd e) (fst e) (snd q) es) (matching (fst e)) es) \/
    (matching (fst e) = [] /\ has_property (fst e) /\ none es) \/
    (matching (fst e) = [] /\ ~ has_property (fst e) /\
       present (n_additionalProperties n)
         (fun a es => match a with
            | AddlBool false => es = [newError AdditionalPropertyNotAllowedError c (snd e) [("property", DStr (fst e))]]
            | AddlBool true => none es
            | AddlSchema id => inside (snd e) (fst e) id es
            end) es).
  Definition name_own (id : nat) (e : string * value) (es : list rerror) : Prop :=
    exists r, sub env h (VStr (fst e)) c id r /\
      es = if Valid r then [] else newError InvalidPropertyNameError c v [("property", DStr (fst e))] :: errors r.
  Definition property_own (m : list (string * value)) (id : nat) (es : list rerror) : Prop :=
    exists p, nth_error h id = Some p /\
      present (assoc (n_property p) m) (fun x => inside x (n_property p) id) es.

  (** [reports k es]: [es] is what keyword [k] of the schema object [n] has to
      say about [v] at context [c]. *)
  Definition reports (k : keyword) (es : list rerror) : Prop :=
    match k with
    | K_anyOf => anyOf_own es
    | K_oneOf => oneOf_own es
    | K_allOf => allOf_own es
    | K_not => present (n_not n) not_own es
    | K_dependencies => on_object (fun m => each_in_some_order (dependency_own m) m) es
    | K_if => present (n_if n) if_own es
    | K_multipleOf => present (n_multipleOf n) (fun m => on_number (fun q es =>
        ~ (m == 0)%Q /\ one_if (~ exists z, (q == inject_Z z * m)%Q) MultipleOfError [("multiple", DRat m)] es)) es
    | K_maximum => present (n_maximum n) (fun b => on_number (fun q => one_if (q > b)%Q NumberLTEError [("max", DRat b)])) es
    | K_exclusiveMaximum => present (n_exclusiveMaximum n) (fun b => on_number (fun q => one_if (q >= b)%Q NumberLTError [("max", DRat b)])) es
    | K_minimum => present (n_minimum n) (fun b => on_number (fun q => one_if (q < b)%Q NumberGTEError [("min", DRat b)])) es
    | K_exclusiveMinimum => present (n_exclusiveMinimum n) (fun b => on_number (fun q => one_if (q <= b)%Q NumberGTError [("min", DRat b)])) es
    | K_items => on_array items_own es
    | K_minItems => present (n_minItems n) (fun k => on_array (fun l => one_if (Z.of_nat (length l) < k)%Z ArrayMinItemsError [("min", DInt k)])) es
    | K_maxItems => present (n_maxItems n) (fun k => on_array (fun l => one_if (Z.of_nat (length l) > k)%Z ArrayMaxItemsError [("max", DInt k)])) es
    | K_uniqueItems => on_array unique_own es
    | K_contains => present (n_contains n) (fun id => on_array (fun l => contains_own l id)) es
    | K_minProperties => present (n_minProperties n) (fun k => on_object (fun m => one_if (Z.of_nat (length m) < k)%Z ArrayMinPropertiesError [("min", DInt k)])) es
    | K_maxProperties => present (n_maxProperties n) (fun k => on_object (fun m => one_if (Z.of_nat (length m) > k)%Z ArrayMaxPropertiesError [("max", DInt k)])) es
    | K_required => on_object (fun m => each (fun k => one_if (assoc k m = None) RequiredError [("property", DStr k)]) (n_required n)) es
    | K_other_members => on_object (fun m => each_in_some_order other_member_own m) es
    | K_propertyNames => present (n_propertyNames n) (fun id => on_object (fun m => each_in_some_order (name_own id) m)) es
    | K_const => present (n_const n) (fun k => text_of (fun t => one_if (t <> k) ConstError [("allowed", DStr k)])) es
    | K_enum => (n_enum n = [] /\ none es) \/
        (n_enum n <> [] /\ text_of (fun t => one_if (~ In t (n_enum n)) EnumError [("allowed", DStr (join ", " (n_enum n)))]) es)
    | K_format => one_if (n_format n <> "" /\ e_is_format env (n_format n) v = false)
                         DoesNotMatchFormatError [("format", DStr (n_format n))] es
    | K_minLength => present (n_minLength n) (fun k => on_string (fun s => one_if (rune_count s < k)%Z StringLengthGTEError [("min", DInt k)])) es
    | K_maxLength => present (n_maxLength n) (fun k => on_string (fun s => one_if (rune_count s > k)%Z StringLengthLTEError [("max", DInt k)])) es
    | K_pattern => present (n_pattern n) (fun p => on_string (fun s => one_if (e_re_match env p s = false) DoesNotMatchPatternError [("pattern", DRegexp p)])) es
    | K_properties => on_object (fun m => each (property_own m) (n_props n)) es
    end.

  (** The types of a value, and the single error when none is allowed. *)
  Definition value_types : list string :=
    match v with
    | VNil => [TYPE_NULL] | VBool _ => [TYPE_BOOLEAN] | VStr _ => [TYPE_STRING]
    | VArr _ => [TYPE_ARRAY] | VMap _ | VIMap _ => [TYPE_OBJECT]
    | VNum s => if checkJSONInteger (e_ratlim env) s then [TYPE_INTEGER; TYPE_NUMBER] else [TYPE_NUMBER]
    | VFloat _ => []
    end.
  Definition type_allowed : Prop := n_types n = [] \/ exists t, In t value_types /\ In t (n_types n).
  Definition type_wrong (es : list rerror) : Prop :=
    es = [newError InvalidTypeError c v
            [("expected", DStr (types_string (n_types n))); ("given", DStr (hd "" value_types))]].
End Reports.

(** The errors of a schema object against a value: none of its keywords when
    the type is wrong, otherwise what its keywords report, in order. *)
Definition cell_errors env h n v c (es : list rerror) : Prop :=
  (~ type_allowed env n v /\ type_wrong env n v c es) \/
  (type_allowed env n v /\ exists ess, Forall2 (reports env h n v c) keywords ess /\ es = concat ess).

(** [own] is one keyword's contiguous part of the errors [es]; what is left is
    exactly what the other keywords report. *)
Definition part_of env h n v c (k : keyword) (es own : list rerror) : Prop :=
  exists pre post, es = pre ++ own ++ post /\
    exists ess, Forall2 (reports env h n v c) (others k) ess /\ concat ess = pre ++ post.
