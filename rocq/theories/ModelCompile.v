(** schema.go: compiling a schema document into a graph of subSchemas. *)
From Verif Require Export ModelPool.
Open Scope string_scope.
Open Scope list_scope.
Open Scope nat_scope.

(** A fresh subSchema with only its property name set. *)
Definition empty_node (prop : string) : node :=
  Node prop None [] None [] false [] None None None None None None None None ""
       None None [] [] None [] None None None false None None None [] [] [] []
       None None None None.
Definition pass_node (prop : string) (b : bool) : node :=
  Node prop (Some b) [] None [] false [] None None None None None None None None ""
       None None [] [] None [] None None None false None None None [] [] [] []
       None None None None.
Definition ref_node (prop : string) (r : nat) : node :=
  Node prop None [] (Some r) [] false [] None None None None None None None None ""
       None None [] [] None [] None None None false None None None [] [] [] []
       None None None None.

(** Error messages used by schema.go (templates from locales.go). *)
Definition InvalidType (expected given : string) : cerr :=
  EMsg "Invalid type. Expected: {{.expected}}, given: {{.given}}" [("expected", expected); ("given", given)].
Definition ParseError : cerr :=
  EMsg "Expected: {{.expected}}, given: Invalid JSON" [("expected", "valid schema")].
Definition MustBeOfA (x y : string) : cerr := EMsg "{{.x}} must be of a {{.y}}" [("x", x); ("y", y)].
Definition MustBeOfAn (x y : string) : cerr := EMsg "{{.x}} must be of an {{.y}}" [("x", x); ("y", y)].
Definition MustBeOfType (key t : string) : cerr :=
  EMsg "{{.key}} must be of type {{.type}}" [("key", key); ("type", t)].
Definition MustBeGTEZero (key : string) : cerr :=
  EMsg "{{.key}} must be greater than or equal to 0" [("key", key)].
Definition CannotBeUsedWithout (x y : string) : cerr :=
  EMsg "{{.x}} cannot be used without {{.y}}" [("x", x); ("y", y)].
Definition CannotBeGT (x y : string) : cerr :=
  EMsg "{{.x}} cannot be greater than {{.y}}" [("x", x); ("y", y)].
Definition KeyItemsMustBeUnique (key : string) : cerr :=
  EMsg "{{.key}} items must be unique" [("key", key)].
Definition KeyItemsMustBeOfType (key t : string) : cerr :=
  EMsg "{{.key}} items must be {{.type}}" [("key", key); ("type", t)].
Definition NotAValidType (given : string) : cerr :=
  EMsg "has a primitive type that is NOT VALID -- given: {{.given}} Expected valid values are:{{.expected}}"
       [("given", append "/" (append given "/")); ("expected", "[array boolean integer number null object string]")].
Definition Duplicated (t : string) : cerr := EMsg "{{.type}} type is duplicated" [("type", t)].
Definition GreaterThanZero (x : string) : cerr :=
  EMsg "{{.number}} must be strictly greater than 0" [("number", x)].
Definition RegexPattern (p : string) : cerr := EMsg "Invalid regex pattern '{{.pattern}}'" [("pattern", p)].
Definition MustBeValidRegex (key : string) : cerr := EMsg "{{.key}} must be a valid regex" [("key", key)].

(** JSON_TYPES, types.go:46-53. *)
Definition JSON_TYPES : list string :=
  [TYPE_ARRAY; TYPE_BOOLEAN; TYPE_INTEGER; TYPE_NUMBER; TYPE_NULL; TYPE_OBJECT; TYPE_STRING].

(** jsonSchemaType.Add, schemaType.go:44-57. *)
Definition types_add (t : list string) (e : string) : comp (list string) :=
  if negb (isStringInSlice JSON_TYPES e) then cfail (NotAValidType e)
  else if Contains t e then cfail (Duplicated e)
  else cret (t ++ [e]).

(** &subSchema{property: prop, ...}: allocate a heap cell. *)
Definition alloc (prop : string) (d : draft) (doc : value) : comp nat :=
  fun s => COk (length (st_heap s))
               (CState (st_heap s ++ [empty_node prop]) (st_src s ++ [(d, doc)]) (st_pool s) (st_refs s)).

Fixpoint set_nth {A} (i : nat) (x : A) (l : list A) : list A :=
  match l, i with
  | [], _ => []
  | _ :: l', O => x :: l'
  | y :: l', S j => y :: set_nth j x l'
  end.

(** Fill in a heap cell. *)
Definition store (id : nat) (n : node) : comp unit :=
  fun s => COk tt (CState (set_nth id n (st_heap s)) (st_src s) (st_pool s) (st_refs s)).

(** referencePool.Get / Add, schemaReferencePool.go:44-68. *)
Definition refs_get (r : string) : comp (option nat) := fun s => COk (assoc r (st_refs s)) s.
Definition refs_add (r : string) (id : nat) : comp unit :=
  fun s => COk tt (CState (st_heap s) (st_src s) (st_pool s)
                          (match assoc r (st_refs s) with
                           | Some _ => st_refs s
                           | None => st_refs s ++ [(r, id)]
                           end)).

(** What a subSchema being parsed knows from its surroundings: its property
    name, its draft (already inherited: schema.go:79-84), whether it is the
    root, its own preset id and its parent's id. *)
Record pargs := PArgs {
  pa_prop : string;
  pa_draft : draft;
  pa_root : bool;
  pa_id : string;
  pa_parent_id : string
}.

Section Parse.
  Variable ce : cenv.
  (** [rec o a id doc]: parseSchema(doc, cell id). *)
  Variable rec : oracle -> pargs -> nat -> value -> comp unit.

  Definition lim : Z := e_ratlim (c_go ce).
  Definition ck (v : value) (ks : list kind) : comp bool := lift_out (isKind lim v ks).

  (** newSchema := &subSchema{property: prop, parent: current, ...};
      d.parseSchema(doc, newSchema). *)
  Definition child (o : oracle) (prop : string) (d : draft) (myid : string) (doc : value) : comp nat :=
    let! id := alloc prop d doc in
    let! _ := rec o (PArgs prop d false myid myid) id doc in
    cret id.

  (** The "id"/"$id" keyword, schema.go:113-151: the id of this schema.  Only
      used to resolve nested ids, and can only fail. *)
  Definition p_id (a : pargs) (m : list (string * value)) : comp string :=
    let keyID := match pa_draft a with
                 | Draft4 => "id"
                 | Hybrid => if existsMapKey m "id" then "id" else "$id"
                 | _ => "$id"
                 end in
    match assoc keyID m with
    | None => cret (pa_id a)
    | Some v =>
        let! b := ck v [KString] in
        if negb b then cfail (InvalidType TYPE_STRING keyID) else
        match v with
        | VStr k =>
            match u_parse ce k with
            | None => cfail EUrl
            | Some r =>
                if pa_root a then cret r
                else match u_inherits ce (pa_parent_id a) r with
                     | None => cfail EUrl
                     | Some x => cret x
                     end
            end
        | _ => cret (pa_id a)
        end
    end.

  (** definitions, schema.go:153-186.  A boolean passes the isKind test and
      then fails the type assertion. *)
  Definition p_definitions (o : oracle) (d : draft) (myid : string) (m : list (string * value)) : comp unit :=
    match assoc "definitions" m with
    | None => cret tt
    | Some v =>
        let! b := ck v [KMap; KBool] in
        if negb b then cfail (InvalidType "array of schemas" "definitions") else
        match v with
        | VMap defs =>
            let! _ := cmap (fun i e =>
                              let! b := ck (snd e) [KMap; KBool] in
                              if b then child (shift o (S i)) "definitions" d myid (snd e)
                              else cfail (InvalidType "array of schemas" "definitions"))
                           0 (pick (shift o 0) defs) in
            cret tt
        | _ => cpanic
        end
    end.

  (** title, description (schema.go:188-214): must be strings, otherwise ignored. *)
  Definition p_string_only (key : string) (m : list (string * value)) : comp unit :=
    match assoc key m with
    | None => cret tt
    | Some v =>
        let! b := ck v [KString] in
        if b then cret tt else cfail (InvalidType TYPE_STRING key)
    end.

  (** type, schema.go:249-286.  reflect gives a json.Number the kind String, so
      a number in the array reaches typeInArray.(string) and panics. *)
  Fixpoint add_types (t : list string) (l : list value) : comp (list string) :=
    match l with
    | [] => cret t
    | VStr s :: l' => let! t' := types_add t s in add_types t' l'
    | VNum _ :: _ => cpanic
    | _ :: _ => cfail (InvalidType "string/array of strings" "type")
    end.
  Definition p_type (m : list (string * value)) : comp (list string) :=
    match assoc "type" m with
    | None => cret []
    | Some v =>
        let! b := ck v [KString] in
        match b, v with
        | true, VStr k => types_add [] k
        | _, _ =>
            let! b2 := ck v [KSlice] in
            match b2, v with
            | true, VArr l => add_types [] l
            | _, _ => cfail (InvalidType "string/array of strings" "type")
            end
        end
    end.

  (** parseProperties, schema.go:1010-1031. *)
  Definition p_properties (o : oracle) (d : draft) (myid : string) (m : list (string * value))
    : comp (list nat) :=
    match assoc "properties" m with
    | None => cret []
    | Some v =>
        let! b := ck v [KMap] in
        if negb b then cfail (MustBeOfType "properties" TYPE_OBJECT) else
        match v with
        | VMap ps => cmap (fun i e => child (shift o (S i)) (fst e) d myid (snd e)) 0 (pick (shift o 0) ps)
        | _ => cpanic
        end
    end.

  (** additionalProperties (schema.go:296-316), additionalItems (422-442). *)
  Definition p_additional (o : oracle) (key : string) (d : draft) (myid : string)
                          (m : list (string * value)) : comp (option addl) :=
    match assoc key m with
    | None => cret None
    | Some v =>
        let! b := ck v [KBool] in
        if b then match v with VBool x => cret (Some (AddlBool x)) | _ => cpanic end else
        let! b2 := ck v [KMap] in
        if b2 then let! id := child o key d myid v in cret (Some (AddlSchema id))
        else cfail (InvalidType "boolean/valid schema" key)
    end.

  (** patternProperties, schema.go:318-349. *)
  Definition p_patternProperties (o : oracle) (d : draft) (myid : string) (m : list (string * value))
    : comp (list (string * nat)) :=
    match assoc "patternProperties" m with
    | None => cret []
    | Some v =>
        let! b := ck v [KMap] in
        if negb b then cfail (InvalidType "valid schema" "patternProperties") else
        match v with
        | VMap ps =>
            cmap (fun i e =>
                    if e_re_ok (c_go ce) (fst e)
                    then let! id := child (shift o (S i)) (fst e) d myid (snd e) in cret (fst e, id)
                    else cfail (RegexPattern (fst e)))
                 0 (pick (shift o 0) ps)
        | _ => cpanic
        end
    end.

  (** A keyword whose value is one schema; [err] when it is neither an object
      nor a boolean. *)
  Definition p_schema (o : oracle) (key : string) (d : draft) (myid : string) (err : cerr)
                      (m : list (string * value)) : comp (option nat) :=
    match assoc key m with
    | None => cret None
    | Some v =>
        let! b := ck v [KMap; KBool] in
        if b then let! id := child o key d myid v in cret (Some id)
        else cfail err
    end.

  (** propertyNames, schema.go:351-369 (draft 6 and later). *)
  Definition p_propertyNames (o : oracle) (d : draft) (myid : string) (m : list (string * value))
    : comp (option nat) :=
    if draft_ge6 d
    then p_schema o "propertyNames" d myid (InvalidType "valid schema" "patternProperties") m
    else cret None.

  (** parseDependencies, schema.go:1033-1087.  The entry is only set once the
      first name of the array has been read, so an empty array sets nothing. *)
  Fixpoint dep_strings (l : list value) : comp (list string) :=
    match l with
    | [] => cret []
    | x :: l' =>
        let! b := ck x [KString] in
        match b, x with
        | true, VStr s => let! r := dep_strings l' in cret (s :: r)
        | true, _ => cpanic
        | false, _ => cfail (MustBeOfType "dependency" "schema or array of strings")
        end
    end.
  Definition p_dependency (o : oracle) (d : draft) (myid : string) (e : string * value)
    : comp (list (string * dep)) :=
    match snd e with
    | VArr l =>
        let! ks := dep_strings l in
        cret (match ks with [] => [] | _ => [(fst e, DepKeys ks)] end)
    | VMap _ | VIMap _ | VBool _ =>
        let! id := child o (fst e) d myid (snd e) in
        cret [(fst e, DepSchema id)]
    | _ => cfail (MustBeOfType "dependency" "schema or array of strings")
    end.
  Definition p_dependencies (o : oracle) (d : draft) (myid : string) (m : list (string * value))
    : comp (list (string * dep)) :=
    match assoc "dependencies" m with
    | None => cret []
    | Some v =>
        let! b := ck v [KMap] in
        if negb b then cfail (MustBeOfType "dependencies" TYPE_OBJECT) else
        match v with
        | VMap ds =>
            let! l := cmap (fun i e => p_dependency (shift o (S i)) d myid e) 0 (pick (shift o 0) ds) in
            cret (concat l)
        | _ => cpanic
        end
    end.

  (** items, schema.go:379-420. *)
  Definition p_items (o : oracle) (d : draft) (myid : string) (m : list (string * value))
    : comp (list nat * bool) :=
    match assoc "items" m with
    | None => cret ([], false)
    | Some v =>
        let! b := ck v [KSlice] in
        match b, v with
        | true, VArr l =>
            let! ids := cmap (fun i x =>
                                let! b := ck x [KMap; KBool] in
                                if b then child (shift o i) "items" d myid x
                                else cfail (InvalidType "valid schema/array of schemas" "items")) 0 l in
            cret (ids, false)
        | true, _ => cpanic
        | false, _ =>
            let! b2 := ck v [KMap; KBool] in
            if b2 then let! id := child o "items" d myid v in cret ([id], true)
            else cfail (InvalidType "valid schema/array of schemas" "items")
        end
    end.

  (** multipleOf, schema.go:446-464. *)
  Definition p_multipleOf (m : list (string * value)) : comp (option Q) :=
    match assoc "multipleOf" m with
    | None => cret None
    | Some v =>
        match mustBeNumber lim v with
        | None => cfail (InvalidType "number" "multipleOf")
        | Some q => if Qle_bool q 0 then cfail (GreaterThanZero "multipleOf") else cret (Some q)
        end
    end.

  (** minimum/maximum and their exclusive forms, schema.go:466-606: the
      inclusive and the exclusive bound. *)
  Definition p_bound (key xkey : string) (d : draft) (m : list (string * value))
    : comp (option Q * option Q) :=
    let! incl := match assoc key m with
                 | None => cret None
                 | Some v => match mustBeNumber lim v with
                             | None => cfail (MustBeOfA key "number")
                             | Some q => cret (Some q)
                             end
                 end in
    match assoc xkey m with
    | None => cret (incl, None)
    | Some v =>
        let as_bool (b : bool) : comp (option Q * option Q) :=
          match incl with
          | None => cfail (CannotBeUsedWithout xkey key)
          | Some q => cret (if b then (None, Some q) else (Some q, None))
          end in
        match d with
        | Draft4 =>
            let! isb := ck v [KBool] in
            match isb, v with
            | true, VBool b => as_bool b
            | _, _ => cfail (InvalidType TYPE_BOOLEAN xkey)
            end
        | Hybrid =>
            let! isb := ck v [KBool] in
            match isb, v with
            | true, VBool b => as_bool b
            | _, VNum _ => cret (incl, mustBeNumber lim v)
            | _, _ => cfail (InvalidType "boolean/number" xkey)
            end
        | _ =>
            match v with
            | VNum _ => cret (incl, mustBeNumber lim v)
            | _ => cfail (InvalidType TYPE_NUMBER xkey)
            end
        end
    end.

  (** A non-negative integer keyword (minLength, maxItems, ...). *)
  Definition p_natural (key : string) (m : list (string * value)) : comp (option Z) :=
    match assoc key m with
    | None => cret None
    | Some v =>
        match mustBeInteger lim v with
        | None => cfail (MustBeOfAn key TYPE_INTEGER)
        | Some z => if (z <? 0)%Z then cfail (MustBeGTEZero key) else cret (Some z)
        end
    end.

  (** minLength > maxLength (644-651), minProperties > maxProperties (718-725). *)
  Definition p_le (lo hi : option Z) (e : cerr) : comp unit :=
    match lo, hi with
    | Some a, Some b => if (b <? a)%Z then cfail e else cret tt
    | _, _ => cret tt
    end.

  (** pattern, schema.go:653-669. *)
  Definition p_pattern (m : list (string * value)) : comp (option string) :=
    match assoc "pattern" m with
    | None => cret None
    | Some v =>
        let! b := ck v [KString] in
        match b, v with
        | true, VStr s =>
            if e_re_ok (c_go ce) s then cret (Some s) else cfail (MustBeValidRegex "pattern")
        | _, _ => cfail (MustBeOfA "pattern" TYPE_STRING)
        end
    end.

  (** format, schema.go:671-680. *)
  Definition p_format (m : list (string * value)) : comp string :=
    match assoc "format" m with
    | None => cret ""
    | Some (VStr s) => cret s
    | Some _ => cfail (MustBeOfType "format" TYPE_STRING)
    end.

  (** required, schema.go:727-752. *)
  Fixpoint add_required (t : list string) (l : list value) : comp (list string) :=
    match l with
    | [] => cret t
    | x :: l' =>
        let! b := ck x [KString] in
        match b, x with
        | true, VStr s =>
            if isStringInSlice t s then cfail (KeyItemsMustBeUnique "required")
            else add_required (t ++ [s]) l'
        | true, _ => cpanic
        | false, _ => cfail (KeyItemsMustBeOfType "required" TYPE_STRING)
        end
    end.
  Definition p_required (m : list (string * value)) : comp (list string) :=
    match assoc "required" m with
    | None => cret []
    | Some v =>
        let! b := ck v [KSlice] in
        match b, v with
        | true, VArr l => add_required [] l
        | _, _ => cfail (MustBeOfAn "required" TYPE_ARRAY)
        end
    end.

  (** uniqueItems, schema.go:790-799. *)
  Definition p_uniqueItems (m : list (string * value)) : comp bool :=
    match assoc "uniqueItems" m with
    | None => cret false
    | Some v =>
        let! b := ck v [KBool] in
        match b, v with
        | true, VBool x => cret x
        | _, _ => cfail (MustBeOfA "uniqueItems" TYPE_BOOLEAN)
        end
    end.

  (** contains, schema.go:801-808 (no kind check here). *)
  Definition p_contains (o : oracle) (d : draft) (myid : string) (m : list (string * value))
    : comp (option nat) :=
    if draft_ge6 d then
      match assoc "contains" m with
      | None => cret None
      | Some v => let! id := child o "contains" d myid v in cret (Some id)
      end
    else cret None.

  (** const, schema.go:812-818. *)
  Definition p_const (d : draft) (m : list (string * value)) : comp (option string) :=
    if draft_ge6 d then
      match assoc "const" m with
      | None => cret None
      | Some v => match marshalWithoutNumber v with
                  | None => cfail EMarshal
                  | Some t => cret (Some t)
                  end
      end
    else cret None.

  (** enum, schema.go:820-841. *)
  Fixpoint add_enum (t : list string) (l : list value) : comp (list string) :=
    match l with
    | [] => cret t
    | x :: l' =>
        match marshalWithoutNumber x with
        | None => cfail EMarshal
        | Some s =>
            if isStringInSlice t s then cfail (KeyItemsMustBeUnique "enum")
            else add_enum (t ++ [s]) l'
        end
    end.
  Definition p_enum (m : list (string * value)) : comp (list string) :=
    match assoc "enum" m with
    | None => cret []
    | Some v =>
        let! b := ck v [KSlice] in
        match b, v with
        | true, VArr l => add_enum [] l
        | _, _ => cfail (MustBeOfAn "enum" TYPE_ARRAY)
        end
    end.

  (** oneOf, anyOf, allOf, schema.go:845-897 (no kind check on the elements). *)
  Definition p_schemas (o : oracle) (key errkey : string) (d : draft) (myid : string)
                       (m : list (string * value)) : comp (list nat) :=
    match assoc key m with
    | None => cret []
    | Some v =>
        let! b := ck v [KSlice] in
        match b, v with
        | true, VArr l => cmap (fun i x => child (shift o i) key d myid x) 0 l
        | _, _ => cfail (MustBeOfAn errkey TYPE_ARRAY)
        end
    end.

  (** if, then, else, schema.go:915-963 (draft 7 and later). *)
  Definition p_cond (o : oracle) (key : string) (d : draft) (myid : string) (m : list (string * value))
    : comp (option nat) :=
    if draft_ge7 d then p_schema o key d myid (MustBeOfAn key TYPE_OBJECT) m else cret None.

  (** parseReference, schema.go:968-1008: a cell for the referenced document,
      registered in the referencePool before it is parsed. *)
  Definition parseReference (o : oracle) (d : draft) (myid : string) (ref : string) : comp nat :=
    fun s =>
      let id := length (st_heap s) in
      (let! _ := alloc "$ref" d VNil in
       let! _ := refs_add ref id in
       let! dsp := GetDocument ce (shift o 0) ref in
       let! b := ck (sp_doc dsp) [KMap; KBool] in
       if negb b then cfail (MustBeOfType "valid schema" TYPE_OBJECT) else
       let d' := match sp_draft dsp with Some x => x | None => d end in
       let! _ := (fun s' => COk tt (CState (st_heap s') (set_nth id (d', sp_doc dsp) (st_src s'))
                                           (st_pool s') (st_refs s'))) in
       let! _ := rec (shift o 1) (PArgs "$ref" d' false ref myid) id (sp_doc dsp) in
       cret id) s.

  (** Everything after "$ref" in parseSchema, schema.go:249-965. *)
  Definition p_keywords (o : oracle) (a : pargs) (myid : string) (refid : option nat)
                        (m : list (string * value)) : comp node :=
    let d := pa_draft a in
    let! types := p_type m in
    let! props := p_properties (shift o 1) d myid m in
    let! addprops := p_additional (shift o 2) "additionalProperties" d myid m in
    let! pats := p_patternProperties (shift o 3) d myid m in
    let! pnames := p_propertyNames (shift o 4) d myid m in
    let! deps := p_dependencies (shift o 5) d myid m in
    let! items := p_items (shift o 6) d myid m in
    let! additems := p_additional (shift o 7) "additionalItems" d myid m in
    let! mult := p_multipleOf m in
    let! mins := p_bound "minimum" "exclusiveMinimum" d m in
    let! maxs := p_bound "maximum" "exclusiveMaximum" d m in
    let! minLen := p_natural "minLength" m in
    let! maxLen := p_natural "maxLength" m in
    let! _ := p_le minLen maxLen (CannotBeGT "minLength" "maxLength") in
    let! pat := p_pattern m in
    let! fmt := p_format m in
    let! minProps := p_natural "minProperties" m in
    let! maxProps := p_natural "maxProperties" m in
    let! _ := p_le minProps maxProps
                (EMsg "{{.key}} cannot be greater than {{.y}}" [("key", "minProperties"); ("y", "maxProperties")]) in
    let! req := p_required m in
    let! minItems := p_natural "minItems" m in
    let! maxItems := p_natural "maxItems" m in
    let! uniq := p_uniqueItems m in
    let! cont := p_contains (shift o 8) d myid m in
    let! cst := p_const d m in
    let! enm := p_enum m in
    let! oneOf := p_schemas (shift o 9) "oneOf" "oneOf" d myid m in
    let! anyOf := p_schemas (shift o 10) "anyOf" "anyOf" d myid m in
    let! allOf := p_schemas (shift o 11) "allOf" "anyOf" d myid m in
    let! nt := p_schema (shift o 12) "not" d myid (MustBeOfAn "not" TYPE_OBJECT) m in
    let! cif := p_cond (shift o 13) "if" d myid m in
    let! cthen := p_cond (shift o 14) "then" d myid m in
    let! celse := p_cond (shift o 15) "else" d myid m in
    cret (Node (pa_prop a) None types refid (fst items) (snd items) props
               mult (fst maxs) (snd maxs) (fst mins) (snd mins)
               minLen maxLen pat fmt minProps maxProps req deps addprops pats pnames
               minItems maxItems uniq cont additems cst enm oneOf anyOf allOf nt cif cthen celse).

  (** parseSchema, schema.go:77-966, on a heap cell. *)
  Definition parseSchemaNode (o : oracle) (a : pargs) (id : nat) (doc : value) : comp unit :=
    let d := pa_draft a in
    let! isb := (if draft_ge6 d then ck doc [KBool] else cret false) in
    if isb then
      match doc with
      | VBool b => store id (pass_node (pa_prop a) b)
      | _ => cpanic
      end
    else
      let! ism := ck doc [KMap] in
      if negb ism then cfail ParseError else
      match doc with
      | VMap m =>
          let! myid := p_id a m in
          let! _ := p_definitions (shift o 0) d myid m in
          let! _ := p_string_only "title" m in
          let! _ := p_string_only "description" m in
          let! _ := p_string_only "$ref" m in
          match assoc "$ref" m with
          | Some (VStr k) =>
              match u_parse ce k with
              | None => cfail EUrl
              | Some r =>
                  let! hit := refs_get r in
                  match hit with
                  | Some rid =>
                      let! n := p_keywords o a myid (Some rid) m in
                      store id n
                  | None =>
                      let! rid := parseReference (shift o 16) d myid r in
                      store id (ref_node (pa_prop a) rid)
                  end
              end
          | _ =>
              let! n := p_keywords o a myid None m in
              store id n
          end
      | _ => cpanic   (* documentNode.(map[string]interface{}) *)
      end.
End Parse.

(** parseSchema with its recursion; fuel bounds the Go call depth. *)
Fixpoint parseSchema (ce : cenv) (fuel : nat) (o : oracle) (a : pargs) (id : nat) (doc : value)
  : comp unit :=
  match fuel with
  | O => fun _ => CNoFuel
  | S k => parseSchemaNode ce (parseSchema ce k) o a id doc
  end.

(** Schema.parse, schema.go:61-64: the root cell is heap index 0. *)
Definition parse (ce : cenv) (fuel : nat) (o : oracle) (docref : string) (d : draft) (doc : value)
  : comp nat :=
  let! id := alloc STRING_ROOT_SCHEMA_PROPERTY d doc in
  let! _ := parseSchema ce fuel o (PArgs STRING_ROOT_SCHEMA_PROPERTY d true docref docref) id doc in
  cret id.
