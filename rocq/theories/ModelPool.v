(** schemaPool.go, schemaReferencePool.go and draft.go: documents, identifiers
    and references; the state and the monad of the compiler. *)
From Verif Require Export ModelValidate.
Open Scope string_scope.
Open Scope list_scope.
Open Scope nat_scope.

(** Draft, draft.go:26-34 (only the four named constants are modelled). *)
Inductive draft := Draft4 | Draft6 | Draft7 | Hybrid.
Definition draft_ge6 (d : draft) : bool := match d with Draft4 => false | _ => true end.
Definition draft_ge7 (d : draft) : bool := match d with Draft7 | Hybrid => true | _ => false end.
Definition draft_eqb (a b : draft) : bool :=
  match a, b with
  | Draft4, Draft4 | Draft6, Draft6 | Draft7, Draft7 | Hybrid, Hybrid => true
  | _, _ => false
  end.

(** drafts, draft.go:43-88: the URL of each draft's meta-schema. *)
Definition META4 := "http://json-schema.org/draft-04/schema".
Definition META6 := "http://json-schema.org/draft-06/schema".
Definition META7 := "http://json-schema.org/draft-07/schema".
Definition GetDraftVersion (url : string) : option draft :=
  if String.eqb META4 url then Some Draft4
  else if String.eqb META6 url then Some Draft6
  else if String.eqb META7 url then Some Draft7
  else None.
Definition GetSchemaURL (d : draft) : string :=
  match d with Draft4 => META4 | Draft6 => META6 | Draft7 => META7 | Hybrid => "" end.

(** A gojsonreference.JsonReference is represented by its String(); parsing
    that string again gives the same reference.  Parameters (library code not
    in /repo):
    - [u_parse s]: NewJsonReference(s), None if url.Parse fails;
    - [u_inherits p c]: p.Inherits(c): c resolved against p (RFC 3986), where
      the fragment of p is dropped first;
    - [u_strip r]: r with its fragment removed;
    - [u_fragment r]: the decoded fragment of r, from which its JSON pointer is made;
    - [u_canonical r]: IsCanonical, a full URL or an absolute file path;
    - [c_fetch r]: jsonLoaderFactory.New(r).LoadJSON(), None on error
      (jsonLoader.go:132-220). *)
Record cenv := CEnv {
  c_go : goenv;
  u_parse : string -> option string;
  u_inherits : string -> string -> option string;
  u_strip : string -> string;
  u_fragment : string -> string;
  u_canonical : string -> bool;
  c_fetch : string -> option value;
  c_autodetect : bool
}.

(** Errors returned by the compiler: the message template and its arguments. *)
Inductive cerr :=
| EMsg (template : string) (args : list (string * string))
| EUrl                        (* url.Parse failed *)
| EFetch                      (* LoadJSON failed *)
| EPointer                    (* JSON pointer does not resolve *)
| EMarshal                    (* marshalWithoutNumber failed *)
| EExists (ref : string)      (* fmt.Errorf("Reference already exists: ...") *)
| EMeta (es : list rerror)    (* errors.New of the texts of es, schemaLoader.go:79-88 *)
| EDocument.                  (* LoadJSON of the given loader failed *)

(** schemaPoolDocument / schemaPool, schemaPool.go:37-46. *)
Record spd := Spd { sp_doc : value; sp_draft : option draft }.
Definition pool := list (string * spd).

(** State of the compiler: the subSchema heap, the pool and the referencePool
    (schemaReferencePool.go:32-42).  [st_src] is ghost state: the draft and the
    document each heap cell is compiled from; no code reads it. *)
Record cstate := CState {
  st_heap : heap;
  st_src : list (draft * value);
  st_pool : pool;
  st_refs : list (string * nat)
}.

Inductive cres (A : Type) :=
| COk (a : A) (s : cstate)
| CErr (e : cerr) (s : cstate)
| CPanic
| CNoFuel.
Arguments COk {A}. Arguments CErr {A}. Arguments CPanic {A}. Arguments CNoFuel {A}.

Definition comp (A : Type) := cstate -> cres A.
Definition cret {A} (a : A) : comp A := fun s => COk a s.
Definition cfail {A} (e : cerr) : comp A := fun s => CErr e s.
Definition cpanic {A} : comp A := fun _ => CPanic.
Definition cbind {A B} (x : comp A) (f : A -> comp B) : comp B :=
  fun s => match x s with
           | COk a s' => f a s'
           | CErr e s' => CErr e s'
           | CPanic => CPanic
           | CNoFuel => CNoFuel
           end.
Notation "'let!' x := e 'in' f" := (cbind e (fun x => f))
  (at level 200, x name, e at level 200, f at level 200, right associativity).

Definition lift_out {A} (x : out A) : comp A :=
  match x with Ok a => cret a | Panic => cpanic | NoFuel => fun _ => CNoFuel end.

(** Run [f] on every element in order, collecting the results. *)
Fixpoint cmap {A B} (f : nat -> A -> comp B) (i : nat) (l : list A) : comp (list B) :=
  match l with
  | [] => cret []
  | x :: l' =>
      let! y := f i x in
      let! ys := cmap f (S i) l' in
      cret (y :: ys)
  end.

(** reflect.Kind of a value as isKind sees it (a json.Number is replaced by
    its big.Rat struct, utils.go:36-39; nil dereference if it has none). *)
Inductive kind := KInvalid | KBool | KStruct | KFloat | KString | KSlice | KMap.
Definition kind_eqb (a b : kind) : bool :=
  match a, b with
  | KInvalid, KInvalid | KBool, KBool | KStruct, KStruct | KFloat, KFloat
  | KString, KString | KSlice, KSlice | KMap, KMap => true
  | _, _ => false
  end.
Definition kind_of (lim : Z) (v : value) : out kind :=
  match v with
  | VNil => Ok KInvalid
  | VBool _ => Ok KBool
  | VNum s => match rat_of lim s with Some _ => Ok KStruct | None => Panic end
  | VFloat _ => Ok KFloat
  | VStr _ => Ok KString
  | VArr _ => Ok KSlice
  | VMap _ | VIMap _ => Ok KMap
  end.

(** isKind, utils.go:34-47. *)
Definition isKind (lim : Z) (v : value) (ks : list kind) : out bool :=
  do k <- kind_of lim v; Ok (existsb (kind_eqb k) ks).

(** existsMapKey, utils.go:49-52. *)
Definition existsMapKey (m : list (string * value)) (k : string) : bool :=
  match assoc k m with Some _ => true | None => false end.

(** parseSchemaURL, draft.go:90-125: the "$schema" of a document and the draft
    it names.  [inl e]: error. *)
Definition parseSchemaURL (ce : cenv) (doc : value) : out (cerr + (string * option draft)) :=
  let lim := e_ratlim (c_go ce) in
  do isb <- isKind lim doc [KBool];
  if isb then Ok (inr ("", None)) else
  do ism <- isKind lim doc [KMap];
  if negb ism then Ok (inl (EMsg "schema is invalid" [])) else
  match doc with
  | VMap m =>
      match assoc "$schema" m with
      | None => Ok (inr ("", None))
      | Some sv =>
          do iss <- isKind lim sv [KString];
          if negb iss then
            Ok (inl (EMsg "{{.key}} must be of type {{.type}}" [("key", "$schema"); ("type", TYPE_STRING)]))
          else
            match sv with
            | VStr s =>
                match u_parse ce s with
                | None => Ok (inl EUrl)
                | Some r => Ok (inr (r, GetDraftVersion r))
                end
            | _ => Panic
            end
      end
  | _ => Panic   (* documentNode.(map[string]interface{}) *)
  end.

(** The identifier a map declares for its contents, as parseReferencesRecursive
    sees it (schemaPool.go:91-106): "id" if present, else "$id", whatever the
    draft; only strings that parse count. *)
Definition declared_id (ce : cenv) (base : string) (m : list (string * value)) : out (option string) :=
  let keyID := if existsMapKey m "id" then "id" else "$id" in
  match assoc keyID m with
  | None => Ok None
  | Some v =>
      do b <- isKind (e_ratlim (c_go ce)) v [KString];
      if negb b then Ok None else
      match v with
      | VStr s => match u_parse ce s with
                  | None => Ok None
                  | Some r => match u_inherits ce base r with
                              | Some a => Ok (Some a)
                              | None => Panic  (* localRef is nil, dereferenced at line 132 *)
                              end
                  end
      | _ => Panic
      end
  end.

(** The rewritten "$ref" (schemaPool.go:108-116): an absolute reference. *)
Definition absolute_ref (ce : cenv) (base : string) (m : list (string * value))
  : out (list (string * value)) :=
  match assoc "$ref" m with
  | None => Ok m
  | Some v =>
      do b <- isKind (e_ratlim (c_go ce)) v [KString];
      if negb b then Ok m else
      match v with
      | VStr s =>
          match u_parse ce s with
          | None => Ok m
          | Some r => match u_inherits ce base r with
                      | None => Ok m
                      | Some a => Ok (aset "$ref" (VStr a) m)
                      end
          end
      | _ => Panic
      end
  end.

(** Keys whose value is taken literally, resp. is a map of schemas
    (schemaPool.go:120-130). *)
Definition literal_key (k : string) : bool := (String.eqb k "const" || String.eqb k "enum")%bool.
Definition map_key (k : string) : bool :=
  (String.eqb k "properties" || String.eqb k "dependencies" || String.eqb k "patternProperties")%bool.

(** What parseReferencesRecursive does to a document: the rewritten document
    (the Go code changes the maps in place), the pool with the identifiers it
    registered, and the error it returns (every nested call ignores it). *)
Record prr := Prr { pr_doc : value; pr_pool : pool; pr_err : option cerr }.

Section ParseReferences.
  Variable ce : cenv.
  Variable rec : oracle -> value -> string -> option draft -> pool -> out prr.

  (** range over a slice (schemaPool.go:84-87). *)
  Fixpoint prr_list (o : oracle) (i : nat) (base : string) (dr : option draft) (l : list value) (p : pool)
    : out (list value * pool) :=
    match l with
    | [] => Ok ([], p)
    | x :: l' =>
        do r <- rec (shift o i) x base dr p;
        do q <- prr_list o (S i) base dr l' (pr_pool r);
        Ok (pr_doc r :: fst q, snd q)
    end.

  (** range over the values of a map, rewriting each in place. *)
  Fixpoint prr_map (o : oracle) (i : nat) (base : string) (dr : option draft)
                   (es m : list (string * value)) (p : pool) : out (list (string * value) * pool) :=
    match es with
    | [] => Ok (m, p)
    | (k, x) :: es' =>
        do r <- rec (shift o i) x base dr p;
        prr_map o (S i) base dr es' (aset k (pr_doc r) m) (pr_pool r)
    end.

  (** One member of a schema object (schemaPool.go:118-134). *)
  Definition prr_member (o : oracle) (base : string) (dr : option draft) (k : string) (x : value) (p : pool)
    : out (value * pool) :=
    if literal_key k then Ok (x, p)
    else if map_key k then
      match x with
      | VMap child =>
          do q <- prr_map (shift o 1) 0 base dr (pick (shift o 0) child) child p;
          Ok (VMap (fst q), snd q)
      | _ => Ok (x, p)
      end
    else
      do r <- rec o x base dr p; Ok (pr_doc r, pr_pool r).

  Fixpoint prr_members (o : oracle) (i : nat) (base : string) (dr : option draft)
                       (es m : list (string * value)) (p : pool) : out (list (string * value) * pool) :=
    match es with
    | [] => Ok (m, p)
    | (k, x) :: es' =>
        do r <- prr_member (shift o i) base dr k x p;
        prr_members o (S i) base dr es' (aset k (fst r) m) (snd r)
    end.

  (** parseReferencesRecursive, schemaPool.go:76-137.  When an identifier is
      registered, the pool entry aliases the map being rewritten: the model
      first claims the key and stores the rewritten document at the end. *)
  Definition parseReferencesNode (o : oracle) (doc : value) (base : string) (dr : option draft) (p : pool)
    : out prr :=
    match doc with
    | VArr l =>
        do q <- prr_list o 0 base dr l p;
        Ok (Prr (VArr (fst q)) (snd q) None)
    | VMap m =>
        do lid <- declared_id ce base m;
        match lid with
        | Some r =>
            match assoc r p with
            | Some _ => Ok (Prr doc p (Some (EExists r)))
            | None =>
                let p1 := aset r (Spd doc dr) p in
                do m1 <- absolute_ref ce r m;
                do q <- prr_members (shift o 1) 0 r dr (pick (shift o 0) m1) m1 p1;
                Ok (Prr (VMap (fst q)) (aset r (Spd (VMap (fst q)) dr) (snd q)) None)
            end
        | None =>
            do m1 <- absolute_ref ce base m;
            do q <- prr_members (shift o 1) 0 base dr (pick (shift o 0) m1) m1 p;
            Ok (Prr (VMap (fst q)) (snd q) None)
        end
    | _ => Ok (Prr doc p None)
    end.
End ParseReferences.

Fixpoint parseReferencesRecursive (ce : cenv) (fuel : nat) (o : oracle) (doc : value) (base : string)
                                  (dr : option draft) (p : pool) : out prr :=
  match fuel with
  | O => NoFuel
  | S k => parseReferencesNode ce (parseReferencesRecursive ce k) o doc base dr p
  end.

(** parseReferences, schemaPool.go:48-74: rewritten document, pool, error. *)
Definition parseReferences (ce : cenv) (o : oracle) (doc : value) (ref : string) (pooled : bool) (p : pool)
  : out prr :=
  if (pooled && match assoc ref p with Some _ => true | None => false end)%bool
  then Ok (Prr doc p (Some (EExists ref)))
  else
    do dr <- (if c_autodetect ce then
                do r <- parseSchemaURL ce doc;
                match r with inl e => Ok (inl e) | inr (_, d) => Ok (inr d) end
              else Ok (inr None));
    match dr with
    | inl e => Ok (Prr doc p (Some e))
    | inr d =>
        do r <- parseReferencesRecursive ce (S (vsize doc)) o doc ref d p;
        Ok (if pooled
            then Prr (pr_doc r) (aset ref (Spd (pr_doc r) d) (pr_pool r)) (pr_err r)
            else r)
    end.

(** gojsonpointer: reference tokens of a fragment; one that does not start
    with "/" has no tokens (its error is ignored by gojsonreference). *)
Fixpoint split_slash (s : string) : string * list string :=
  match s with
  | EmptyString => ("", [])
  | String c s' =>
      let '(h, t) := split_slash s' in
      if Ascii.eqb c "/" then ("", h :: t) else (String c h, t)
  end.
Definition pointer_tokens (fragment : string) : list string :=
  match fragment with
  | String "/" s => let '(h, t) := split_slash s in h :: t
  | _ => []
  end.
(** ~1 -> / , then ~0 -> ~ . *)
Fixpoint unescape_token (s : string) : string :=
  match s with
  | String "~" (String "1" s') => String "/" (unescape_token s')
  | String "~" (String "0" s') => String "~" (unescape_token s')
  | String c s' => String c (unescape_token s')
  | EmptyString => ""
  end.
(** strconv.Atoi. *)
Definition atoi (s : string) : option Z := parse_int64 s.

(** JsonPointer.Get (gojsonpointer). *)
Fixpoint pointer_get (tokens : list string) (v : value) : option value :=
  match tokens with
  | [] => Some v
  | t :: ts =>
      match v with
      | VMap m => match assoc (unescape_token t) m with
                  | Some x => pointer_get ts x
                  | None => None
                  end
      | VArr l => match atoi t with
                  | Some i => if (i <? 0)%Z then None
                              else match nth_error l (Z.to_nat i) with
                                   | Some x => pointer_get ts x
                                   | None => None
                                   end
                  | None => None
                  end
      | _ => None
      end
  end.

Definition set_pool (p : pool) : comp unit :=
  fun s => COk tt (CState (st_heap s) (st_src s) p (st_refs s)).
Definition get_pool : comp pool := fun s => COk (st_pool s) s.

(** GetDocument, schemaPool.go:139-215. *)
Definition GetDocument (ce : cenv) (o : oracle) (ref : string) : comp spd :=
  let! p := get_pool in
  match assoc ref p with
  | Some d => cret d
  | None =>
      let base := u_strip ce ref in
      let toks := pointer_tokens (u_fragment ce ref) in
      match assoc base p with
      | Some d =>
          match pointer_get toks (sp_doc d) with
          | None => cfail EPointer
          | Some x =>
              let e := Spd x (sp_draft d) in
              let! _ := set_pool (aset ref e p) in
              cret e
          end
      | None =>
          if negb (u_canonical ce ref) then
            cfail (EMsg "Reference {{.reference}} must be canonical" [("reference", ref)])
          else
            match c_fetch ce ref with
            | None => cfail EFetch
            | Some doc =>
                let! r := lift_out (parseReferences ce o doc base true p) in
                let! _ := set_pool (pr_pool r) in
                let! su := lift_out (parseSchemaURL ce (pr_doc r)) in
                match pointer_get toks (pr_doc r) with
                | None => cfail EPointer
                | Some x => cret (Spd x (match su with inr (_, d) => d | inl _ => None end))
                end
            end
      end
  end.
