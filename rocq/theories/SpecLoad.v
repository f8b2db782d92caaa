(** Specification: which documents are known, and by which URLs, once a schema
    document has been loaded; and the draft it is read under. *)
From Verif Require Export SpecResolve SpecLocate.
Open Scope string_scope.
Open Scope list_scope.

Section Load.
  Variable parse : string -> option string.
  Variable inherits : string -> string -> option string.

  (** The draft a document names with "$schema", if it is one of the three. *)
  Definition named_draft (doc : value) : option draft :=
    match doc with
    | VMap m =>
        match assoc "$schema" m with
        | Some (VStr s) =>
            match parse s with
            | Some r =>
                if String.eqb r "http://json-schema.org/draft-04/schema" then Some Draft4
                else if String.eqb r "http://json-schema.org/draft-06/schema" then Some Draft6
                else if String.eqb r "http://json-schema.org/draft-07/schema" then Some Draft7
                else None
            | None => None
            end
        | _ => None
        end
    | _ => None
    end.
  (** "$schema", if present, is a URL. *)
  Definition well_declared (doc : value) : Prop :=
    (exists b, doc = VBool b) \/
    exists m, doc = VMap m /\ forall x, assoc "$schema" m = Some x -> exists s r, x = VStr s /\ parse s = Some r.

  (** The documents a schema text makes known: itself under the URL it was
      loaded by, and every subschema under the identifier it declares. *)
  Definition documents (base : string) (doc : value) : list (string * value) :=
    (base, resolve parse inherits base doc) :: ids_of parse inherits base doc.
  Definition entries (dr : option draft) (ds : list (string * value)) : pool :=
    map (fun e => (fst e, Spd (snd e) dr)) ds.
End Load.
