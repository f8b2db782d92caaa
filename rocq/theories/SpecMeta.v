(** Specification: the meta-schema a schema document is to conform to. *)
From Verif Require Export SpecFetch ModelLoader Meaning CompileSem.
From Verif Require SpecReason SpecMessage ModelError.
Open Scope string_scope.
Open Scope list_scope.

(** The URL under "$schema", "" if there is none. *)
Definition declared_url (parse : string -> option string) (doc : value) : string :=
  match doc with
  | VMap m => match assoc "$schema" m with
              | Some (VStr s) => match parse s with Some r => r | None => "" end
              | _ => ""
              end
  | _ => ""
  end.
Definition meta_at (d : draft) : string :=
  match d with
  | Draft4 => "http://json-schema.org/draft-04/schema"
  | Draft6 => "http://json-schema.org/draft-06/schema"
  | Draft7 => "http://json-schema.org/draft-07/schema"
  | Hybrid => ""
  end.
(** The meta-schema of a document: the declared one if declarations are heeded,
    else that of the draft the loader is set to; "" for none. *)
Definition meta_url (w : world) (sl : sloader) (doc : value) : string :=
  let u := if sl_auto sl then declared_url (w_parse w) doc else "" in
  if String.eqb u "" then meta_at (sl_draft sl) else u.

(** The meta-schemas, their references made absolute. *)
Fixpoint anchored (u : string) (v : value) : value :=
  match v with
  | VArr l => VArr (map (anchored u) l)
  | VMap m => VMap (map (fun e => (fst e,
      match snd e with
      | VStr s => if String.eqb (fst e) "$ref" then VStr (if String.eqb s "#" then u else append u s) else VStr s
      | _ => anchored u (snd e)
      end)) m)
  | _ => v
  end.
Definition meta_source (d : draft) : string :=
  match d with Draft4 => META_TEXT_Draft4 | Draft6 => META_TEXT_Draft6 | Draft7 => META_TEXT_Draft7 | Hybrid => "" end.
Definition meta_schema (d : draft) : value :=
  match decode_use_number (meta_source d) with Some v => anchored (meta_at d) v | None => VNil end.
(** What they name: themselves, and some of their definitions. *)
Definition meta_names (d : draft) : list string :=
  match d with
  | Draft4 => ["positiveInteger"; "positiveIntegerDefault0"; "simpleTypes"; "stringArray"; "schemaArray"]
  | Draft6 | Draft7 => ["nonNegativeInteger"; "nonNegativeIntegerDefault0"; "simpleTypes"; "stringArray"; "schemaArray"]
  | Hybrid => []
  end.
Definition meta_fragment (n : string) : string := append "/definitions/" n.
Definition meta_leads (d : draft) (k : string) (d' : draft) (x : value) : Prop :=
  d' = d /\
  (k = meta_at d /\ x = meta_schema d \/
   exists n, In n (meta_names d) /\ k = append (meta_at d) (append "#" (meta_fragment n)) /\ points ["definitions"; n] (meta_schema d) x).
(** The document conforms to the meta-schema of draft d. *)
Definition conforms (env : goenv) (d : draft) (doc : value) : Prop :=
  meaning (pat env) (fmt env) same (meta_leads d) d (meta_schema d) doc.

(** An error as a line of text: where, and the message of its type. *)
Definition line (e : rerror) (l : string) : Prop :=
  exists p ps msg, r_ctx e = rev ("(root)" :: p) /\ In (type_name (r_type e), ps) SpecMessage.messages /\
    SpecMessage.said (fun k y => exists d, assoc k (r_details e) = Some d /\ y = ModelShow.go_show d) ps msg /\
    l = append (SpecMessage.place p) (append ": " msg).
(** The text of the error Compile returns: one line per error. *)
Definition lines (es : list rerror) : Prop :=
  exists ls, Forall2 line es ls /\ ModelError.Error (EMeta es) = Some (concat_str (map (fun l => append l (String (ascii_of_nat 10) "")) ls)).
(** The errors es say in what it does not. *)
Definition meta_tells (env : goenv) (d : draft) (doc : value) (es : list rerror) : Prop :=
  SpecReason.tells (pat env) (fmt env) same (meaning (pat env) (fmt env) same (meta_leads d)) (meta_leads d) d (meta_schema d) doc es /\ lines es.

(** What is asked of the URL library on the URLs of the meta-schemas. *)
Definition meta_urls (w : world) : Prop := forall d, d <> Hybrid ->
  let u := meta_at d in
  (w_parse w (append u "#") = Some u /\ w_parse w u = Some u /\ w_inherits w u u = Some u /\ w_inherits w u "" = Some u /\
   w_strip w u = u /\ w_fragment w u = "" /\ w_canonical w u = true /\ w_file w u = None) /\
  forall n, In n (meta_names d) ->
    let f := append "#" (meta_fragment n) in
    w_parse w f = Some f /\ w_inherits w u f = Some (append u f) /\ w_parse w (append u f) = Some (append u f) /\
    w_strip w (append u f) = u /\ w_fragment w (append u f) = meta_fragment n.

(** Nothing else is registered under those URLs. *)
Definition meta_intact (p : pool) : Prop := forall d k e x, d <> Hybrid -> assoc k p = Some e -> meta_leads d k d x ->
  sp_doc e = x /\ (sp_draft e = None \/ sp_draft e = Some d).
