(** Specification: the URLs Compile has a reason to ask for. *)
From Verif Require Export ModelLoader.
Open Scope string_scope.
Open Scope list_scope.

(** x occurs in the value. *)
Inductive within (x : value) : value -> Prop :=
| within_self : within x x
| within_item l y : In y l -> within x y -> within x (VArr l)
| within_member m k y : In (k, y) m -> within x y -> within x (VMap m).
(** Some object in v, however deep, has the member k: s. *)
Definition says (v : value) (k s : string) : Prop := exists m, within (VMap m) v /\ In (k, VStr s) m.

Section Asks.
  Variables (w : world) (sl : sloader) (l : loader).
  (** The URLs the references of a document loaded by the URL base may be
      relative to: base, and the identifiers in it, resolved. *)
  Inductive scope (base : string) (doc : value) : string -> Prop :=
  | scope_base : scope base doc base
  | scope_id b k s r b' : scope base doc b -> k = "id" \/ k = "$id" -> says doc k s -> w_parse w s = Some r -> w_inherits w b r = Some b' ->
      scope base doc b'.
  (** The SchemaLoader holds a document for r. *)
  Definition held (r : string) : Prop := assoc r (sl_pool sl) <> None \/ assoc (w_strip w r) (sl_pool sl) <> None.
  (** [asked r]: the loader itself is a reference to r, or a document that was
      read says "$ref": r (as it stands or resolved), or a document the
      SchemaLoader holds does.  With Validate on: or r is what a "$schema" says or
      the URL of the chosen draft.  [seen base doc]: doc is the text given, or what
      is read at a URL asked for and not held. *)
  Inductive asked : string -> Prop :=
  | asked_itself r : JsonReference w l = Some r -> asked r
  | asked_ref base doc s r : seen base doc -> says doc "$ref" s -> w_parse w s = Some r -> asked r
  | asked_resolved base doc s r b a r' : seen base doc -> says doc "$ref" s -> w_parse w s = Some r ->
      scope base doc b -> w_inherits w b r = Some a -> w_parse w a = Some r' -> asked r'
  | asked_held k e s r : In (k, e) (sl_pool sl) -> says (sp_doc e) "$ref" s -> w_parse w s = Some r -> asked r
  | asked_schema base doc s r : sl_validate sl = true -> sl_auto sl = true -> seen base doc -> says doc "$schema" s -> w_parse w s = Some r -> asked r
  | asked_held_schema k e s r : sl_validate sl = true -> sl_auto sl = true -> In (k, e) (sl_pool sl) -> says (sp_doc e) "$schema" s -> w_parse w s = Some r -> asked r
  | asked_draft : sl_validate sl = true -> asked (GetSchemaURL (sl_draft sl))
  with seen : string -> value -> Prop :=
  | seen_given doc : JsonReference w l = Some "" -> fst (LoadJSON w l) = Some doc -> seen "" doc
  | seen_fetched fs r doc : fs = 0 \/ fs = LoaderFactory l -> asked r -> w_canonical w r = true -> ~ held r -> loadReference w fs r = Some doc ->
      seen (w_strip w r) doc.

  (** The URLs the SchemaLoader may hold documents under afterwards: as before, asked
      for, or the URL or an identifier of a document that was read. *)
  Definition entered (k : string) : Prop :=
    assoc k (sl_pool sl) <> None \/ asked k \/ exists base doc, seen base doc /\ scope base doc k.

  (** The other world differs only in what it serves elsewhere. *)
  Definition serves_the_same (w' : world) : Prop :=
    w_go w' = w_go w /\ w_parse w' = w_parse w /\ w_inherits w' = w_inherits w /\ w_strip w' = w_strip w /\
    w_fragment w' = w_fragment w /\ w_canonical w' = w_canonical w /\
    (JsonReference w l = Some "" -> fst (LoadJSON w' l) = fst (LoadJSON w l)) /\
    forall fs r, fs = 0 \/ fs = LoaderFactory l -> asked r -> w_canonical w r = true -> ~ held r -> loadReference w' fs r = loadReference w fs r.
End Asks.
(** The SchemaLoader as a call leaves it, successful or not. *)
Definition outcome_loader {T} (x : lres T) (sl : sloader) : Prop :=
  match x with LOk _ sl' | LErr _ sl' => sl' = sl | _ => False end.
