(** jsonLoader.go, schemaLoader.go and the entry points of schema.go and
    validation.go: where documents come from, and the life of a SchemaLoader. *)
From Verif Require Export ModelCompile MetaSchemas.
Open Scope string_scope.
Open Scope list_scope.
Open Scope nat_scope.

(** The outside world and the libraries that look at it.
    - the fields up to [w_canonical] are those of [cenv];
    - [w_file r]: None unless r has the scheme file; otherwise the file name,
      [Some None] when url.QueryUnescape fails (jsonLoader.go:146-149);
    - [w_fs fs path]: content of a file of file system [fs]; 0 is the OS;
    - [w_http url]: body of a 200 answer to GET url, None on any failure;
    - [w_rest s]: what is left in a bytes.Buffer holding s once a json.Decoder
      has decoded its first value from it. *)
Record world := World {
  w_go : goenv;
  w_parse : string -> option string;
  w_inherits : string -> string -> option string;
  w_strip : string -> string;
  w_fragment : string -> string;
  w_canonical : string -> bool;
  w_file : string -> option (option string);
  w_fs : nat -> string -> option string;
  w_http : string -> option string;
  w_rest : string -> string
}.

(** drafts.GetMetaSchema, draft.go:74-81; "" when there is none. *)
Definition GetMetaSchema (url : string) : string :=
  if String.eqb META4 url then META_TEXT_Draft4
  else if String.eqb META6 url then META_TEXT_Draft6
  else if String.eqb META7 url then META_TEXT_Draft7
  else "".

(** loadFromHTTP, jsonLoader.go:179-205. *)
Definition loadFromHTTP (w : world) (address : string) : option value :=
  let t := GetMetaSchema address in
  if negb (String.eqb t "") then decode_use_number t
  else match w_http w address with
       | None => None
       | Some body => decode_use_number body
       end.

(** loadFromFile, jsonLoader.go:207-221. *)
Definition loadFromFile (w : world) (fs : nat) (path : string) : option value :=
  match w_fs w fs path with None => None | Some body => decode_use_number body end.

(** jsonReferenceLoader.LoadJSON, jsonLoader.go:132-177. *)
Definition loadReference (w : world) (fs : nat) (source : string) : option value :=
  match w_parse w source with
  | None => None
  | Some r =>
      let base := w_strip w r in
      match w_file w base with
      | Some None => None
      | Some (Some path) => loadFromFile w fs path
      | None => loadFromHTTP w base
      end
  end.

(** The loaders: NewStringLoader, NewBytesLoader, NewGoLoader (of a value that
    encoding/json can marshal: [value]), NewReaderLoader/NewWriterLoader (the
    bytes buffered so far), NewRawLoader, NewReferenceLoader(FileSystem). *)
Inductive loader :=
| LString (s : string)
| LBytes (s : string)
| LGo (v : value)
| LIO (buf : string)
| LRaw (v : value)
| LRef (fs : nat) (source : string).

(** JsonReference(): the source of a reference loader, "#" for the others. *)
Definition JsonReference (w : world) (l : loader) : option string :=
  match l with LRef _ s => w_parse w s | _ => w_parse w "#" end.

(** LoaderFactory(): the file system the factory opens files with.
    DefaultJSONLoaderFactory uses the OS. *)
Definition LoaderFactory (l : loader) : nat := match l with LRef fs _ => fs | _ => 0 end.

(** LoadJSON() and the loader afterwards. *)
Definition LoadJSON (w : world) (l : loader) : option value * loader :=
  match l with
  | LString s | LBytes s => (decode_use_number s, l)
  | LGo v => (match marshal v with Some t => decode_use_number t | None => None end, l)
  | LIO b => (decode_use_number b, LIO (w_rest w b))
  | LRaw v => (Some v, l)
  | LRef fs s => (loadReference w fs s, l)
  end.

(** SchemaLoader, schemaLoader.go:24-46.  [sl_factory] is
    pool.jsonLoaderFactory; it is nil before the first Compile, which sets it
    before anything is fetched. *)
Record sloader := SLoader {
  sl_pool : pool;
  sl_auto : bool;
  sl_validate : bool;
  sl_draft : draft;
  sl_factory : nat
}.
Definition NewSchemaLoader : sloader := SLoader [] true false Hybrid 0.
Definition with_pool (p : pool) (sl : sloader) : sloader :=
  SLoader p (sl_auto sl) (sl_validate sl) (sl_draft sl) (sl_factory sl).
Definition with_validate (b : bool) (sl : sloader) : sloader :=
  SLoader (sl_pool sl) (sl_auto sl) b (sl_draft sl) (sl_factory sl).
Definition with_factory (f : nat) (sl : sloader) : sloader :=
  SLoader (sl_pool sl) (sl_auto sl) (sl_validate sl) (sl_draft sl) f.

(** The compiler's view of the world through a loader. *)
Definition cenv_of (w : world) (sl : sloader) : cenv :=
  CEnv (w_go w) (w_parse w) (w_inherits w) (w_strip w) (w_fragment w) (w_canonical w)
       (loadReference w (sl_factory sl)) (sl_auto sl).

(** Outcome of a call on a SchemaLoader, with the loader afterwards. *)
Inductive lres (A : Type) :=
| LOk (a : A) (sl : sloader)
| LErr (e : cerr) (sl : sloader)
| LPanic
| LNoFuel.
Arguments LOk {A}. Arguments LErr {A}. Arguments LPanic {A}. Arguments LNoFuel {A}.
Definition lbind {A B} (x : lres A) (f : A -> sloader -> lres B) : lres B :=
  match x with
  | LOk a sl => f a sl
  | LErr e sl => LErr e sl
  | LPanic => LPanic
  | LNoFuel => LNoFuel
  end.

(** Run the compiler on the loader's pool. *)
Definition run_comp {A} (sl : sloader) (x : comp A) : lres (A * cstate) :=
  match x (CState [] [] (sl_pool sl) []) with
  | COk a s => LOk (a, s) (with_pool (st_pool s) sl)
  | CErr e s => LErr e (with_pool (st_pool s) sl)
  | CPanic => LPanic
  | CNoFuel => LNoFuel
  end.
Definition run_out {A} (sl : sloader) (x : out A) : lres A :=
  match x with Ok a => LOk a sl | Panic => LPanic | NoFuel => LNoFuel end.

(** pool.parseReferences on the loader's pool: the rewritten document. *)
Definition pool_parseReferences (w : world) (o : oracle) (doc : value) (ref : string) (pooled : bool)
                                (sl : sloader) : lres value :=
  lbind (run_out sl (parseReferences (cenv_of w sl) o doc ref pooled (sl_pool sl)))
    (fun r sl =>
       let sl' := with_pool (pr_pool r) sl in
       match pr_err r with None => LOk (pr_doc r) sl' | Some e => LErr e sl' end).

(** A compiled Schema: the graph of subSchemas and the root.  (Schema also
    keeps the pool, which Validate never touches.) *)
Record schema := Schema { s_heap : heap; s_root : nat; s_state : cstate }.

Section Load.
  Variable w : world.
  Variable fuel : nat.

  (** First half of Compile, schemaLoader.go:147-182: the document. *)
  Definition compile_doc (o : oracle) (sl : sloader) (l : loader) : lres (string * value) :=
    match JsonReference w l with
    | None => LErr EUrl sl
    | Some ref =>
        let sl := with_factory (LoaderFactory l) sl in
        if negb (String.eqb ref "") then
          lbind (run_comp sl (GetDocument (cenv_of w sl) (shift o 0) ref))
                (fun r sl => LOk (ref, sp_doc (fst r)) sl)
        else
          match fst (LoadJSON w l) with
          | None => LErr EDocument sl
          | Some doc =>
              lbind (pool_parseReferences w (shift o 0) doc ref true sl)
                    (fun doc' sl => LOk (ref, doc') sl)
          end
    end.

  (** Second half, schemaLoader.go:190-206: choose the draft and compile. *)
  Definition compile_parse (o : oracle) (sl : sloader) (ref : string) (doc : value) : lres schema :=
    lbind (if sl_auto sl then
             lbind (run_out sl (parseSchemaURL (cenv_of w sl) doc))
               (fun r sl => match r with
                            | inl e => LErr e sl
                            | inr (_, Some d) => LOk d sl
                            | inr (_, None) => LOk (sl_draft sl) sl
                            end)
           else LOk (sl_draft sl) sl)
      (fun d sl =>
         lbind (run_comp sl (parse (cenv_of w sl) fuel (shift o 1) ref d doc))
           (fun r sl => LOk (Schema (st_heap (snd r)) (fst r) (snd r)) sl)).

  (** Compile with Validate off. *)
  Definition Compile0 (o : oracle) (sl : sloader) (l : loader) : lres schema :=
    lbind (compile_doc o sl l) (fun rd sl => compile_parse o sl (fst rd) (snd rd)).

  (** validateMetaschema, schemaLoader.go:48-92.  The inner Compile runs with
      Validate off, so it never comes back here. *)
  Definition validateMetaschema (o : oracle) (sl : sloader) (doc : value) : lres unit :=
    lbind (if sl_auto sl then
             lbind (run_out sl (parseSchemaURL (cenv_of w sl) doc))
               (fun r sl => match r with inl e => LErr e sl | inr (u, _) => LOk u sl end)
           else LOk "" sl)
      (fun url sl =>
         if (String.eqb url "" && draft_eqb (sl_draft sl) Hybrid)%bool then LOk tt sl
         else
           let url := if String.eqb url "" then GetSchemaURL (sl_draft sl) else url in
           lbind (Compile0 (shift o 0) (with_validate false sl) (LRef 0 url))
             (fun sch sl =>
                let sl := with_validate true sl in
                lbind (run_out sl (validateDocument (w_go w) (s_heap sch) fuel (shift o 1) (s_root sch) doc))
                  (fun r sl =>
                     if Valid r then LOk tt sl
                     else LErr (EMeta (errors r)) sl))).

  (** Compile, schemaLoader.go:147-206. *)
  Definition Compile (o : oracle) (sl : sloader) (l : loader) : lres schema :=
    lbind (compile_doc (shift o 0) sl l)
      (fun rd sl =>
         lbind (if sl_validate sl then validateMetaschema (shift o 1) sl (snd rd) else LOk tt sl)
           (fun _ sl => compile_parse (shift o 2) sl (fst rd) (snd rd))).

  (** NewSchema, schema.go:47-49. *)
  Definition NewSchema (o : oracle) (l : loader) : lres schema := Compile o NewSchemaLoader l.

  (** AddSchema, schemaLoader.go:123-144. *)
  Definition AddSchema (o : oracle) (url : string) (l : loader) (sl : sloader) : lres unit :=
    match w_parse w url with
    | None => LErr EUrl sl
    | Some ref =>
        match fst (LoadJSON w l) with
        | None => LErr EDocument sl
        | Some doc =>
            lbind (if sl_validate sl then validateMetaschema (shift o 0) sl doc else LOk tt sl)
              (fun _ sl => lbind (pool_parseReferences w (shift o 1) doc ref true sl)
                                 (fun _ sl => LOk tt sl))
        end
    end.

  (** AddSchemas, schemaLoader.go:96-120.  NewJsonReference("") gives "". *)
  Fixpoint AddSchemas (o : oracle) (ls : list loader) (sl : sloader) : lres unit :=
    match ls with
    | [] => LOk tt sl
    | l :: ls' =>
        match fst (LoadJSON w l) with
        | None => LErr EDocument sl
        | Some doc =>
            lbind (if sl_validate sl then validateMetaschema (shift o 0) sl doc else LOk tt sl)
              (fun _ sl =>
                 lbind (pool_parseReferences w (shift o 1) doc "" false sl)
                   (fun _ sl => AddSchemas (shift o 2) ls' sl))
        end
    end.

  (** Schema.Validate, validation.go:48-54: None when the document does not load. *)
  Definition Schema_Validate (o : oracle) (s : schema) (l : loader) : option (out result) :=
    match fst (LoadJSON w l) with
    | None => None
    | Some v => Some (validateDocument (w_go w) (s_heap s) fuel o (s_root s) v)
    end.

  (** SetRootSchemaName, schema.go:66-69. *)
  Definition SetRootSchemaName (name : string) (s : schema) : schema :=
    match nth_error (s_heap s) (s_root s) with
    | None => s
    | Some n =>
        Schema (set_nth (s_root s)
                  (Node name (n_pass n) (n_types n) (n_ref n) (n_items n) (n_items_single n) (n_props n)
                     (n_multipleOf n) (n_maximum n) (n_exclusiveMaximum n) (n_minimum n) (n_exclusiveMinimum n)
                     (n_minLength n) (n_maxLength n) (n_pattern n) (n_format n) (n_minProperties n)
                     (n_maxProperties n) (n_required n) (n_dependencies n) (n_additionalProperties n)
                     (n_patternProperties n) (n_propertyNames n) (n_minItems n) (n_maxItems n)
                     (n_uniqueItems n) (n_contains n) (n_additionalItems n) (n_const n) (n_enum n)
                     (n_oneOf n) (n_anyOf n) (n_allOf n) (n_not n) (n_if n) (n_then n) (n_else n))
                  (s_heap s)) (s_root s) (s_state s)
    end.
End Load.
