(** validation.go: checking a document against a compiled schema. *)
From Verif Require Export ModelResult.
Open Scope string_scope.
Open Scope list_scope.
Open Scope nat_scope.

(** Behaviour of the libraries the code calls, as parameters of the model:
    - [e_ratlim] exponent bound of big.Rat.SetString (see Num.rat_of);
    - [e_re_ok p] regexp.Compile(p) succeeds;
    - [e_re_match p s] the compiled p matches s;
    - [e_is_format f v] FormatCheckers.IsFormat(f, v), format_checkers.go:177-188. *)
Record goenv := GoEnv {
  e_ratlim : Z;
  e_re_ok : string -> bool;
  e_re_match : string -> string -> bool;
  e_is_format : string -> value -> bool
}.

(** Types, types.go:29-37. *)
Definition TYPE_ARRAY := "array".
Definition TYPE_BOOLEAN := "boolean".
Definition TYPE_INTEGER := "integer".
Definition TYPE_NUMBER := "number".
Definition TYPE_NULL := "null".
Definition TYPE_OBJECT := "object".
Definition TYPE_STRING := "string".

(** jsonSchemaType, schemaType.go:34-83. *)
Definition IsTyped (t : list string) : bool := match t with [] => false | _ => true end.
Definition Contains (t : list string) (e : string) : bool := isStringInSlice t e.
Definition types_string (t : list string) : string :=
  match t with
  | [] => "undefined"
  | [x] => x
  | _ => append "[" (append (join "," t) "]")
  end.

(** A value of dependencies: []string or *subSchema (schema.go:1033-1087). *)
Inductive dep := DepKeys (l : list string) | DepSchema (id : nat).
(** additionalProperties / additionalItems: bool or *subSchema. *)
Inductive addl := AddlBool (b : bool) | AddlSchema (id : nat).

(** subSchema, subSchema.go:79-149.  Pointers to other subSchemas are indices
    into a heap.  Not kept: draft, id, title, description, ref and parent,
    which validation.go never reads. *)
Record node := Node {
  n_property : string;
  n_pass : option bool;
  n_types : list string;
  n_ref : option nat;
  n_items : list nat;
  n_items_single : bool;
  n_props : list nat;
  n_multipleOf : option Q;
  n_maximum : option Q;
  n_exclusiveMaximum : option Q;
  n_minimum : option Q;
  n_exclusiveMinimum : option Q;
  n_minLength : option Z;
  n_maxLength : option Z;
  n_pattern : option string;
  n_format : string;
  n_minProperties : option Z;
  n_maxProperties : option Z;
  n_required : list string;
  n_dependencies : list (string * dep);
  n_additionalProperties : option addl;
  n_patternProperties : list (string * nat);
  n_propertyNames : option nat;
  n_minItems : option Z;
  n_maxItems : option Z;
  n_uniqueItems : bool;
  n_contains : option nat;
  n_additionalItems : option addl;
  n_const : option string;
  n_enum : list string;
  n_oneOf : list nat;
  n_anyOf : list nat;
  n_allOf : list nat;
  n_not : option nat;
  n_if : option nat;
  n_then : option nat;
  n_else : option nat
}.

Definition heap := list node.

(** convertDocumentNode, utils.go:171-197.  A key that is not a string makes
    the assertion k.(string) panic.  Maps with string keys are returned as they
    are, so nothing below them is converted. *)
Fixpoint convertDocumentNode (v : value) : out value :=
  match v with
  | VArr l =>
      do l' <- (fix go (l : list value) : out (list value) :=
                  match l with
                  | [] => Ok []
                  | x :: l' => do y <- convertDocumentNode x; do r <- go l'; Ok (y :: r)
                  end) l;
      Ok (VArr l')
  | VIMap m =>
      do m' <- (fix go (m : list (option string * value)) : out (list (string * value)) :=
                  match m with
                  | [] => Ok []
                  | (Some k, x) :: m' =>
                      do y <- convertDocumentNode x; do r <- go m'; Ok ((k, y) :: r)
                  | (None, _) :: _ => Panic
                  end) m;
      Ok (VMap m')
  | _ => Ok v
  end.

(** Loop of "anyOf" (validation.go:279-291) and of "contains"
    (validation.go:552-567): stop at the first valid result, remember the
    first of the best-scoring invalid ones. *)
Fixpoint first_valid (best : option result) (l : list (out result)) : out (bool * option result) :=
  match l with
  | [] => Ok (false, best)
  | x :: l' =>
      do r <- x;
      if Valid r then Ok (true, best)
      else first_valid (match best with
                        | None => Some r
                        | Some b => if (score b <? score r)%Z then Some r else best
                        end) l'
  end.

(** Loop of "oneOf" (validation.go:306-316). *)
Fixpoint count_valid (n : nat) (best : option result) (l : list (out result))
  : out (nat * option result) :=
  match l with
  | [] => Ok (n, best)
  | x :: l' =>
      do r <- x;
      if Valid r then count_valid (S n) best l'
      else count_valid n
             (if Nat.eqb n 0 then
                match best with
                | None => Some r
                | Some b => if (score b <? score r)%Z then Some r else best
                end
              else best) l'
  end.

(** Loop of "allOf" (validation.go:334-340): number valid, merged result. *)
Fixpoint merge_all (l : list (out result)) : out (nat * result) :=
  match l with
  | [] => Ok (0, new_result)
  | x :: l' =>
      do r <- x;
      do p <- merge_all l';
      Ok ((if Valid r then 1 else 0) + fst p, radd r (snd p))
  end.

(** result.mergeErrors(best) on a possibly nil *Result: dereferencing nil
    panics (validation.go:325); anyOf and contains test for nil first. *)
Definition merge_best (best : option result) : out result :=
  match best with Some b => Ok b | None => Panic end.
Definition merge_best_opt (best : option result) : out result :=
  match best with Some b => Ok b | None => Ok new_result end.

(** The uniqueItems loop, validation.go:531-546: [seen] maps the canonical text
    of each item to the last index it was seen at.  On a marshalling error the
    nil string is dereferenced: panic. *)
Fixpoint unique_loop (c : ctx) (whole : value) (seen : list (string * nat)) (j : nat)
                     (l : list value) : out result :=
  match l with
  | [] => Ok new_result
  | x :: l' =>
      match marshalWithoutNumber x with
      | None => Panic
      | Some t =>
          let e := match assoc t seen with
                   | Some i =>
                       emit ItemsMustBeUniqueError c whole
                            [("type", DStr TYPE_ARRAY); ("i", DInt (Z.of_nat i)); ("j", DInt (Z.of_nat j))]
                   | None => new_result
                   end in
          do r <- unique_loop c whole (aset t j seen) (S j) l';
          Ok (radd e r)
      end
  end.

Section Validate.
  Variable env : goenv.
  Variable h : heap.
  (** [rec o id v c]: what validateRecursive appends to the result when run on
      heap cell [id]; also subValidateWithContext (validation.go:64-68). *)
  Variable rec : oracle -> nat -> value -> ctx -> out result.

  (** isKind(v, reflect.Map) (utils.go:34-47): on a json.Number it first
      dereferences mustBeNumber(v), which is nil when SetString fails. *)
  Definition isKind_map (v : value) : out bool :=
    match v with
    | VNum s => match rat_of (e_ratlim env) s with Some _ => Ok false | None => Panic end
    | VMap _ | VIMap _ => Ok true
    | _ => Ok false
    end.

  (** isKind(v, reflect.String). *)
  Definition isKind_string (v : value) : out bool :=
    match v with
    | VNum s => match rat_of (e_ratlim env) s with Some _ => Ok false | None => Panic end
    | VStr _ => Ok true
    | _ => Ok false
    end.

  (** validateSchema, validation.go:270-399, block by block. *)
  Definition v_anyOf (o : oracle) (n : node) (v : value) (c : ctx) : out result :=
    match n_anyOf n with
    | [] => Ok new_result
    | l =>
        do p <- first_valid None (mapi (fun i id => rec (shift o i) id v c) 0 l);
        if fst p then Ok new_result
        else run_all [Ok (emit NumberAnyOfError c v []); merge_best_opt (snd p)]
    end.

  Definition v_oneOf (o : oracle) (n : node) (v : value) (c : ctx) : out result :=
    match n_oneOf n with
    | [] => Ok new_result
    | l =>
        do p <- count_valid 0 None (mapi (fun i id => rec (shift o i) id v c) 0 l);
        if Nat.eqb (fst p) 1 then Ok new_result
        else run_all [Ok (emit NumberOneOfError c v []);
                      when (Nat.eqb (fst p) 0) (merge_best (snd p))]
    end.

  Definition v_allOf (o : oracle) (n : node) (v : value) (c : ctx) : out result :=
    match n_allOf n with
    | [] => Ok new_result
    | l =>
        do p <- merge_all (mapi (fun i id => rec (shift o i) id v c) 0 l);
        run_all [Ok (snd p);
                 when (negb (Nat.eqb (fst p) (length l))) (Ok (emit NumberAllOfError c v []))]
    end.

  Definition v_not (o : oracle) (n : node) (v : value) (c : ctx) : out result :=
    match n_not n with
    | None => Ok new_result
    | Some id =>
        do r <- rec o id v c;
        when (Valid r) (Ok (emit NumberNotError c v []))
    end.

  (** One present member whose name is in dependencies, validation.go:357-375. *)
  Definition v_dependency (o : oracle) (n : node) (m : list (string * value)) (v : value) (c : ctx)
                          (key : string) : out result :=
    match assoc key (n_dependencies n) with
    | None => Ok new_result
    | Some (DepKeys ks) =>
        run_all (map (fun k => match assoc k m with
                               | Some _ => Ok new_result
                               | None => Ok (emit MissingDependencyError c v [("dependency", DStr k)])
                               end) ks)
    | Some (DepSchema id) => rec o id v c
    end.

  Definition v_dependencies (o : oracle) (n : node) (v : value) (c : ctx) : out result :=
    match n_dependencies n with
    | [] => Ok new_result
    | _ =>
        do b <- isKind_map v;
        if b then
          match v with
          | VMap m =>
              run_all (mapi (fun i e => v_dependency (shift o (S i)) n m v c (fst e)) 0
                            (pick (shift o 0) m))
          | _ => Panic   (* currentNode.(map[string]interface{}) *)
          end
        else Ok new_result
    end.

  Definition v_if (o : oracle) (n : node) (v : value) (c : ctx) : out result :=
    match n_if n with
    | None => Ok new_result
    | Some i =>
        do r <- rec (shift o 0) i v c;
        run_all
          [match n_then n with
           | Some t =>
               when (Valid r)
                 (do rt <- rec (shift o 1) t v c;
                  when (negb (Valid rt))
                    (run_all [Ok (emit ConditionThenError c v []); Ok rt]))
           | None => Ok new_result
           end;
           match n_else n with
           | Some t =>
               when (negb (Valid r))
                 (do re <- rec (shift o 2) t v c;
                  when (negb (Valid re))
                    (run_all [Ok (emit ConditionElseError c v []); Ok re]))
           | None => Ok new_result
           end]
    end.

  Definition validateSchema (o : oracle) (n : node) (v : value) (c : ctx) : out result :=
    run_all [v_anyOf (shift o 0) n v c;
             v_oneOf (shift o 1) n v c;
             v_allOf (shift o 2) n v c;
             v_not (shift o 3) n v c;
             v_dependencies (shift o 4) n v c;
             v_if (shift o 5) n v c;
             Ok inc].

  (** validateCommon, validation.go:401-456.  When marshalWithoutNumber fails,
      [*vString] dereferences nil and panics. *)
  Definition v_const (n : node) (v : value) (c : ctx) : out result :=
    match n_const n with
    | None => Ok new_result
    | Some k =>
        match marshalWithoutNumber v with
        | None => Panic
        | Some t =>
            when (negb (String.eqb t k)) (Ok (emit ConstError c v [("allowed", DStr k)]))
        end
    end.

  Definition v_enum (n : node) (v : value) (c : ctx) : out result :=
    match n_enum n with
    | [] => Ok new_result
    | l =>
        match marshalWithoutNumber v with
        | None => Panic
        | Some t =>
            when (negb (isStringInSlice l t))
              (Ok (emit EnumError c v [("allowed", DStr (join ", " l))]))
        end
    end.

  Definition v_format (n : node) (v : value) (c : ctx) : out result :=
    if String.eqb (n_format n) "" then Ok new_result
    else when (negb (e_is_format env (n_format n) v))
           (Ok (emit DoesNotMatchFormatError c v [("format", DStr (n_format n))])).

  Definition validateCommon (n : node) (v : value) (c : ctx) : out result :=
    run_all [v_const n v c; v_enum n v c; v_format n v c; Ok inc].

  (** validateArray, validation.go:458-582. *)
  Definition v_item (o : oracle) (c : ctx) (id : nat) (i : nat) (x : value) : out result :=
    rec (shift o i) id x (NewJsonContext (itoa (Z.of_nat i)) c).

  (** Positional schemas against the values at the same index (480-484). *)
  Fixpoint v_items_zip (o : oracle) (c : ctx) (i : nat) (ids : list nat) (l : list value)
    : list (out result) :=
    match ids, l with
    | id :: ids', x :: l' => v_item o c id i x :: v_items_zip o c (S i) ids' l'
    | _, _ => []
    end.

  Definition v_items (o : oracle) (n : node) (l : list value) (c : ctx) : out result :=
    if n_items_single n then
      match n_items n with
      | id :: _ => run_all (mapi (v_item o c id) 0 l)
      | [] => match l with [] => Ok new_result | _ => Panic end (* itemsChildren[0] *)
      end
    else
      match n_items n with
      | [] => Ok new_result
      | ids =>
          run_all
            [run_all (v_items_zip o c 0 ids l);
             when (Nat.ltb (length ids) (length l))
               match n_additionalItems n with
               | Some (AddlBool false) => Ok (emit ArrayNoAdditionalItemsError c (VArr l) [])
               | Some (AddlSchema id) =>
                   run_all (mapi (v_item o c id) (length ids) (skipn (length ids) l))
               | _ => Ok new_result
               end]
      end.

  Definition v_minItems (n : node) (l : list value) (c : ctx) : out result :=
    match n_minItems n with
    | Some k => when (Z.of_nat (length l) <? k)%Z
                  (Ok (emit ArrayMinItemsError c (VArr l) [("min", DInt k)]))
    | None => Ok new_result
    end.

  Definition v_maxItems (n : node) (l : list value) (c : ctx) : out result :=
    match n_maxItems n with
    | Some k => when (k <? Z.of_nat (length l))%Z
                  (Ok (emit ArrayMaxItemsError c (VArr l) [("max", DInt k)]))
    | None => Ok new_result
    end.

  Definition v_uniqueItems (n : node) (l : list value) (c : ctx) : out result :=
    when (n_uniqueItems n) (unique_loop c (VArr l) [] 0 l).

  Definition v_contains (o : oracle) (n : node) (l : list value) (c : ctx) : out result :=
    match n_contains n with
    | None => Ok new_result
    | Some id =>
        do p <- first_valid None (mapi (v_item o c id) 0 l);
        if fst p then Ok new_result
        else run_all [Ok (emit ArrayContainsError c (VArr l) []); merge_best_opt (snd p)]
    end.

  Definition validateArray (o : oracle) (n : node) (l : list value) (c : ctx) : out result :=
    run_all [v_items (shift o 0) n l c;
             v_minItems n l c;
             v_maxItems n l c;
             v_uniqueItems n l c;
             v_contains (shift o 1) n l c;
             Ok inc].

  (** validateObject, validation.go:584-679. *)
  Definition v_minProperties (n : node) (m : list (string * value)) (c : ctx) : out result :=
    match n_minProperties n with
    | Some k => when (Z.of_nat (length m) <? k)%Z
                  (Ok (emit ArrayMinPropertiesError c (VMap m) [("min", DInt k)]))
    | None => Ok new_result
    end.

  Definition v_maxProperties (n : node) (m : list (string * value)) (c : ctx) : out result :=
    match n_maxProperties n with
    | Some k => when (k <? Z.of_nat (length m))%Z
                  (Ok (emit ArrayMaxPropertiesError c (VMap m) [("max", DInt k)]))
    | None => Ok new_result
    end.

  Definition v_required (n : node) (m : list (string * value)) (c : ctx) : out result :=
    run_all (map (fun k => match assoc k m with
                           | Some _ => Ok inc
                           | None => Ok (emit RequiredError c (VMap m) [("property", DStr k)])
                           end) (n_required n)).

  (** spValue.property for each element of propertiesChildren (633-637). *)
  Definition prop_name (id : nat) : out string :=
    match nth_error h id with Some n => Ok (n_property n) | None => Panic end.

  Fixpoint described (pk : string) (ids : list nat) : out bool :=
    match ids with
    | [] => Ok false
    | id :: ids' =>
        do p <- prop_name id;
        do b <- described pk ids';
        Ok (String.eqb pk p || b)%bool
    end.

  (** regexp.MatchString(pattern, s), whose error is ignored. *)
  Definition re_matches (p s : string) : bool := (e_re_ok env p && e_re_match env p s)%bool.

  (** validatePatternProperty, validation.go:681-705. *)
  Definition validatePatternProperty (o : oracle) (n : node) (key : string) (v : value) (c : ctx)
    : out (bool * result) :=
    let hits := filter (fun e => re_matches (fst e) key) (pick (shift o 0) (n_patternProperties n)) in
    do r <- run_all (mapi (fun i e => rec (shift o (S i)) (snd e) v (NewJsonContext key c)) 0 hits);
    match hits with
    | [] => Ok (false, r)
    | _ => Ok (true, radd r inc)
    end.

  (** One member, validation.go:629-661.  [value[pk]] is the member's value. *)
  Definition v_member (o : oracle) (n : node) (c : ctx) (e : string * value) : out result :=
    let '(pk, x) := e in
    do found <- described pk (n_props n);
    do pp <- validatePatternProperty (shift o 0) n pk x c;
    do r <- (if (negb found && negb (fst pp))%bool then
               match n_additionalProperties n with
               | Some (AddlBool false) =>
                   Ok (emit AdditionalPropertyNotAllowedError c x [("property", DStr pk)])
               | Some (AddlSchema id) => rec (shift o 1) id x (NewJsonContext pk c)
               | _ => Ok new_result
               end
             else Ok new_result);
    Ok (radd (snd pp) r).

  Definition v_members (o : oracle) (n : node) (m : list (string * value)) (c : ctx) : out result :=
    run_all (mapi (fun i e => v_member (shift o (S i)) n c e) 0 (pick (shift o 0) m)).

  Definition v_propertyNames (o : oracle) (n : node) (m : list (string * value)) (c : ctx) : out result :=
    match n_propertyNames n with
    | None => Ok new_result
    | Some id =>
        run_all (mapi (fun i e =>
                         do r <- rec (shift o (S i)) id (VStr (fst e)) c;
                         when (negb (Valid r))
                           (run_all [Ok (emit InvalidPropertyNameError c (VMap m)
                                              [("property", DStr (fst e))]); Ok r]))
                      0 (pick (shift o 0) m))
    end.

  Definition validateObject (o : oracle) (n : node) (m : list (string * value)) (c : ctx) : out result :=
    run_all [v_minProperties n m c;
             v_maxProperties n m c;
             v_required n m c;
             v_members (shift o 0) n m c;
             v_propertyNames (shift o 1) n m c;
             Ok inc].

  (** validateString, validation.go:707-762. *)
  Definition v_string_checks (n : node) (s : string) (c : ctx) : out result :=
    run_all
      [match n_minLength n with
       | Some k => when (rune_count s <? k)%Z
                     (Ok (emit StringLengthGTEError c (VStr s) [("min", DInt k)]))
       | None => Ok new_result
       end;
       match n_maxLength n with
       | Some k => when (k <? rune_count s)%Z
                     (Ok (emit StringLengthLTEError c (VStr s) [("max", DInt k)]))
       | None => Ok new_result
       end;
       match n_pattern n with
       | Some p => when (negb (e_re_match env p s))
                     (Ok (emit DoesNotMatchPatternError c (VStr s) [("pattern", DRegexp p)]))
       | None => Ok new_result
       end;
       Ok inc].

  Definition validateString (n : node) (v : value) (c : ctx) : out result :=
    match v with
    | VNum _ => Ok new_result
    | _ =>
        do b <- isKind_string v;
        if b then
          match v with
          | VStr s => v_string_checks n s c
          | _ => Panic
          end
        else Ok new_result
    end.

  (** validateNumber, validation.go:764-846.  [fv] is the *big.Rat, nil when
      SetString failed; every use of it then dereferences nil. *)
  Definition v_multipleOf (n : node) (v : value) (fv : option Q) (c : ctx) : out result :=
    match n_multipleOf n with
    | None => Ok new_result
    | Some m =>
        match fv with
        | None => Panic
        | Some q =>
            if Qeq_bool m 0 then Panic  (* big.Rat.Quo: division by zero *)
            else when (negb (rat_is_int (Qdiv q m)))
                   (Ok (emit MultipleOfError c v [("multiple", DRat m)]))
        end
    end.

  Definition v_bound (bound : option Q) (bad : comparison -> bool) (t : etype) (key : string)
                     (v : value) (fv : option Q) (c : ctx) : out result :=
    match bound with
    | None => Ok new_result
    | Some b =>
        match fv with
        | None => Panic
        | Some q => when (bad (Qcompare q b)) (Ok (emit t c v [(key, DRat b)]))
        end
    end.

  Definition validateNumber (n : node) (v : value) (c : ctx) : out result :=
    match v with
    | VNum s =>
        let fv := rat_of (e_ratlim env) s in
        run_all
          [v_multipleOf n v fv c;
           v_bound (n_maximum n) (fun x => match x with Gt => true | _ => false end)
                   NumberLTEError "max" v fv c;
           v_bound (n_exclusiveMaximum n) (fun x => match x with Lt => false | _ => true end)
                   NumberLTError "max" v fv c;
           v_bound (n_minimum n) (fun x => match x with Lt => true | _ => false end)
                   NumberGTEError "min" v fv c;
           v_bound (n_exclusiveMinimum n) (fun x => match x with Gt => false | _ => true end)
                   NumberGTError "min" v fv c;
           Ok inc]
    | _ => Ok new_result
    end.

  (** The type errors of validateRecursive: a single error, and return. *)
  Definition type_error (n : node) (v : value) (c : ctx) (given : string) : out result :=
    Ok (emit InvalidTypeError c v
             [("expected", DStr (types_string (n_types n))); ("given", DStr given)]).

  (** propertiesChildren loop of validateRecursive, validation.go:206-212. *)
  Definition v_property (o : oracle) (m : list (string * value)) (c : ctx) (i : nat) (id : nat)
    : out result :=
    do p <- prop_name id;
    match assoc p m with
    | Some x => rec (shift o i) id x (NewJsonContext p c)
    | None => Ok new_result
    end.

  Definition scalar_checks (o : oracle) (n : node) (v : value) (c : ctx) : out result :=
    run_all [validateSchema o n v c; validateNumber n v c; validateCommon n v c;
             validateString n v c; Ok inc].

  Definition object_checks (o : oracle) (n : node) (m : list (string * value)) (c : ctx) : out result :=
    run_all [validateSchema (shift o 0) n (VMap m) c;
             validateObject (shift o 1) n m c;
             validateCommon n (VMap m) c;
             run_all (mapi (v_property (shift o 2) m c) 0 (n_props n));
             Ok inc].

  (** Body of validateRecursive, validation.go:71-267, on a dereferenced node. *)
  Definition validateNode (o : oracle) (n : node) (v : value) (c : ctx) : out result :=
    match n_pass n with
    | Some true => Ok new_result
    | Some false => Ok (emit FalseError c v [])
    | None =>
        match n_ref n with
        | Some id => rec o id v c
        | None =>
            let t := n_types n in
            match v with
            | VNil =>
                if IsTyped t && negb (Contains t TYPE_NULL) then type_error n v c TYPE_NULL
                else run_all [validateSchema o n v c; validateCommon n v c; Ok inc]
            | VNum s =>
                let isInt := checkJSONInteger (e_ratlim env) s in
                let validType := Contains t TYPE_NUMBER || (isInt && Contains t TYPE_INTEGER) in
                if IsTyped t && negb validType
                then type_error n v c (if isInt then TYPE_INTEGER else TYPE_NUMBER)
                else scalar_checks o n v c
            | VArr l =>
                if IsTyped t && negb (Contains t TYPE_ARRAY) then type_error n v c TYPE_ARRAY
                else run_all [validateSchema (shift o 0) n v c;
                              validateArray (shift o 1) n l c;
                              validateCommon n v c;
                              Ok inc]
            | VMap m =>
                if IsTyped t && negb (Contains t TYPE_OBJECT) then type_error n v c TYPE_OBJECT
                else object_checks o n m c
            | VIMap _ =>
                if IsTyped t && negb (Contains t TYPE_OBJECT) then type_error n v c TYPE_OBJECT
                else
                  do w <- convertDocumentNode v;
                  match w with
                  | VMap m => object_checks o n m c
                  | _ => Panic
                  end
            | VBool _ =>
                if IsTyped t && negb (Contains t TYPE_BOOLEAN) then type_error n v c TYPE_BOOLEAN
                else scalar_checks o n v c
            | VStr _ =>
                if IsTyped t && negb (Contains t TYPE_STRING) then type_error n v c TYPE_STRING
                else scalar_checks o n v c
            | VFloat _ => Ok inc  (* no case for reflect.Float64 *)
            end
        end
    end.
End Validate.

(** validateRecursive, validation.go:71-267; also subValidateWithContext
    (64-68).  The fuel bounds the depth of the Go call stack. *)
Fixpoint validateRecursive (env : goenv) (h : heap) (fuel : nat) (o : oracle) (id : nat)
                           (v : value) (c : ctx) : out result :=
  match fuel with
  | O => NoFuel
  | S k =>
      match nth_error h id with
      | None => Panic
      | Some n => validateNode env h (validateRecursive env h k) o n v c
      end
  end.

(** validateDocument, validation.go:57-62. *)
Definition validateDocument (env : goenv) (h : heap) (fuel : nat) (o : oracle) (root : nat)
                            (v : value) : out result :=
  validateRecursive env h fuel o root v [STRING_CONTEXT_ROOT].
