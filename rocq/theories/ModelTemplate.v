(** The descriptions of errors: text/template restricted to the templates the
    library itself uses (DefaultLocale, locales.go:195-457): literal text and
    placeholders of the form {{.name}}.  User supplied locales and template
    functions (ErrorTemplateFuncs) are not modelled. *)
From Verif Require Export ModelResult.

Inductive tok := TText (c : ascii) | TVar (name : string).

(** Parse of a template: [acc] is the (reversed) name being read, or None in text. *)
Fixpoint tokens (acc : option string) (s : string) : list tok :=
  match acc, s with
  | None, EmptyString => []
  | None, String "{" (String "{" (String "." r)) => tokens (Some EmptyString) r
  | None, String c r => TText c :: tokens None r
  | Some a, EmptyString => []
  | Some a, String "}" (String "}" r) => TVar a :: tokens None r
  | Some a, String c r => tokens (Some (append a (String c EmptyString))) r
  end.
Definition template (s : string) : list tok := tokens None s.

(** The placeholders of a template. *)
Definition tvars (s : string) : list string :=
  flat_map (fun t => match t with TVar x => [x] | TText _ => [] end) (template s).

(** tpl.Execute(&buf, details): a missing key prints "<no value>".  [show] is
    how fmt prints a detail (only DRat, DRegexp and DError are not spelled out
    here). *)
Definition render (show : dval -> string) (s : string) (d : details) : string :=
  concat_str (map (fun t => match t with
                            | TText c => String c EmptyString
                            | TVar x => match assoc x d with
                                        | Some v => show v
                                        | None => "<no value>"
                                        end
                            end) (template s)).

(** Description of an error: formatErrorDescription(err.DescriptionFormat(), details),
    errors.go:326, 332-364. *)
Definition description (show : dval -> string) (e : rerror) : string :=
  render show (default_format (r_type e)) (r_details e).

(** AddError, result.go:195-204. *)

(** An error a caller built: its context may be nil, its details are passed
    separately and may be a nil map; [format] is DescriptionFormat(). *)
Record user_error := UserError { ue_ctx : option ctx; ue_format : string; ue_value : value }.
(** What Errors() holds afterwards: the user's error with its description. *)
Record described_error := Described { de_error : user_error; de_description : string }.

(** Assigning to a nil map panics. *)
Definition AddError (show : dval -> string) (es : list described_error) (e : user_error)
                    (d : option details) : out (list described_error) :=
  let dm := match d with Some m => m | None => [] end in
  do d' <- match assoc "context" dm, ue_ctx e with
           | None, Some c =>
               match d with
               | Some m => Ok (aset "context" (DStr (ctx_string [] c)) m)
               | None => Panic
               end
           | _, _ => Ok dm
           end;
  Ok (es ++ [Described e (render show (ue_format e) d')]).

(** ErrorFormat, locales.go:439-441. *)
Definition ErrorFormat : string := "{{.field}}: {{.description}}".
(** ResultErrorFields.String, result.go:155-182, of an error with that context,
    description and value.  The context is a pointer: String of a nil one
    panics (jsonContext.go:52).  [shown] is the value as JSON, or as fmt prints
    it; the format above does not use it. *)
Definition error_String (show : dval -> string) (shown : value -> string) (c : option ctx) (desc : string) (v : value) : out string :=
  match c with
  | None => Panic
  | Some c => Ok (render show ErrorFormat
      [("context", DStr (ctx_string [] c)); ("description", DStr desc);
       ("value", DStr (shown v)); ("field", DStr (field_of c))])
  end.
