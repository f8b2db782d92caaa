(** Specification: what a reference leads to when documents that are not known
    yet are fetched, and which references a compilation comes across. *)
From Verif Require Export SpecLoad SpecEqual.
Open Scope string_scope.
Open Scope list_scope.

Section Fetch.
  Variable ce : cenv.
  Variable p : pool.
  Notation resolve := (resolve (u_parse ce) (u_inherits ce)).
  Notation ids_of := (ids_of (u_parse ce) (u_inherits ce)).

  (** The URL b serves a document that can be used: its numbers are moderate,
      its "$schema" is a URL (and heeded, or names no draft) and the only
      identifier it declares is its own URL.  It is x, of draft dr. *)
  Definition page (b : string) (x : value) (dr : option draft) : Prop :=
    exists raw, c_fetch ce b = Some raw /\ all_numbers (moderate (e_ratlim (c_go ce))) raw /\
      well_declared (u_parse ce) raw /\ (c_autodetect ce = true \/ named_draft (u_parse ce) raw = None) /\
      NoDup (map fst (ids_of b raw)) /\ (forall r y, In (r, y) (ids_of b raw) -> r = b) /\
      x = resolve b raw /\ dr = named_draft (u_parse ce) raw.

  (** r is known, or leads into a known document, or into one that is served. *)
  Definition finds (r : string) (e : spd) : Prop :=
    locates ce p r e \/
    assoc r p = None /\ assoc (u_strip ce r) p = None /\ u_canonical ce r = true /\ u_parse ce r = Some r /\
    exists ts x dr y, page (u_strip ce r) x dr /\ u_fragment ce r = pointer_text ts /\ points ts x y /\ e = Spd y dr.

  (** The references met when starting from a document. *)
  Inductive reached (doc : value) : string -> Prop :=
  | reached_root k r : mentions doc k -> u_parse ce k = Some r -> reached doc r
  | reached_on r e k r' : reached doc r -> finds r e -> mentions (sp_doc e) k -> u_parse ce k = Some r' -> reached doc r'.
  Definition found (doc : value) (r : string) (e : spd) : Prop := reached doc r /\ finds r e.

  (** All of them lead somewhere. *)
  Definition all_found (doc : value) : Prop := forall r, reached doc r -> exists e, finds r e.
  (** And there are finitely many: all are listed in lib. *)
  Definition covered (lib : pool) (doc : value) : Prop := forall r, reached doc r -> exists e, In (r, e) lib /\ finds r e.
  (** The reference text k met from doc leads to x, read under draft d. *)
  Definition heads_to (doc : value) : draft -> string -> draft -> value -> Prop := leads_in ce (found doc).
End Fetch.
