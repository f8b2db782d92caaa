(** What a caller's own value becomes when it is given to NewRawLoader.

    jsonRawLoader.LoadJSON (jsonLoader.go:358-360) returns the caller's value
    itself, and parseReferencesRecursive (schemaPool.go:76-137) rewrites the maps
    of the document in place; all other loaders decode a fresh document.  (After
    a panic the value may be rewritten in part; that is not modelled.) *)
From Verif Require Export ModelLoader.

Section Raw.
  Variable w : world.
  Variable fuel : nat.

  Definition refs_value (o : oracle) (v : value) (ref : string) (pooled : bool) (sl : sloader) : value :=
    match parseReferences (cenv_of w sl) o v ref pooled (sl_pool sl) with Ok r => pr_doc r | _ => v end.

  (** The value after AddSchema(url, NewRawLoader(v)), schemaLoader.go:123-144. *)
  Definition AddSchema_value (o : oracle) (url : string) (v : value) (sl : sloader) : value :=
    match w_parse w url with
    | None => v
    | Some ref =>
        match (if sl_validate sl then validateMetaschema w fuel (shift o 0) sl v else LOk tt sl) with
        | LOk _ sl' => refs_value (shift o 1) v ref true sl'
        | _ => v
        end
    end.

  (** The value after Compile(NewRawLoader(v)), schemaLoader.go:147-182. *)
  Definition Compile_value (o : oracle) (v : value) (sl : sloader) : value :=
    match JsonReference w (LRaw v) with
    | Some "" => refs_value (shift (shift o 0) 0) v "" true (with_factory 0 sl)
    | _ => v
    end.
End Raw.
