(** Specification: a SchemaLoader that already holds documents another one would
    have to fetch. *)
From Verif Require Export SpecFetch LoadFetch.
Open Scope string_scope.
Open Scope list_scope.

(** p' holds what p holds; whatever else it holds is what p finds at that URL,
    in a document it knows or by fetching one. *)
Definition cached (ce : cenv) (p p' : pool) : Prop :=
  (forall r e, assoc r p = Some e -> assoc r p' = Some e) /\
  (forall r e, assoc r p' = Some e -> assoc r p = Some e \/ u_parse ce r = Some r /\ finds ce p r e).

Section Cache.
  Variable w : world.
  (** The same settings; sl' has some of the documents at hand that sl, when it
      compiles l, fetches. *)
  Definition ahead (sl sl' : sloader) (l : loader) : Prop :=
    sl_auto sl' = sl_auto sl /\ sl_validate sl' = sl_validate sl /\ sl_draft sl' = sl_draft sl /\
    cached (view w sl l) (sl_pool sl) (sl_pool sl').

  (** When l is a text (or a value): none of the URLs held by sl' is one that the
      text declares, and none that sl does not hold lies in such a document.
      When l is a reference without fragment, it is its own URL. *)
  Definition distinct_names (sl sl' : sloader) (l : loader) : Prop :=
    (forall r, JsonReference w l = Some r -> w_fragment w r = "" -> w_strip w r = r) /\
    (JsonReference w l = Some "" -> forall raw, fst (LoadJSON w l) = Some raw ->
    forall r e i, assoc r (sl_pool sl') = Some e -> i = "" \/ In i (map fst (ids_of (w_parse w) (w_inherits w) "" raw)) ->
    r <> i /\ (assoc r (sl_pool sl) = None -> w_strip w r <> i)).
End Cache.
