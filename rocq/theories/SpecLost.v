(** Specification: references that lead nowhere, and the error each gives. *)
From Verif Require Export SpecFetch SpecFault.
From Verif Require SpecPointer.
Open Scope string_scope.
Open Scope list_scope.

Section Lost.
  Variable ce : cenv.
  Variable p : pool.

  (** The fragment of r names no part of the document x. *)
  Definition nowhere (r : string) (x : value) : Prop :=
    forall ts y, SpecPointer.fragment_decoded (u_fragment ce r) ts -> ~ SpecPointer.reaches SpecPointer.go_index ts x y.

  (** r is not known, and
      - its document is known but has no such part;
      - or the document is not known and r is no absolute URL;
      - or nothing usable is served there;
      - or what is served has no such part. *)
  Inductive lost (r : string) : cerr -> Prop :=
  | lost_part b : assoc r p = None -> assoc (u_strip ce r) p = Some b -> nowhere r (sp_doc b) -> lost r EPointer
  | lost_relative e : assoc r p = None -> assoc (u_strip ce r) p = None -> u_canonical ce r = false ->
      e = EMsg "Reference {{.reference}} must be canonical" [("reference", r)] -> lost r e
  | lost_page : assoc r p = None -> assoc (u_strip ce r) p = None -> u_canonical ce r = true -> c_fetch ce (u_strip ce r) = None -> lost r EFetch
  | lost_served x dr : assoc r p = None -> assoc (u_strip ce r) p = None -> u_canonical ce r = true ->
      page ce (u_strip ce r) x dr -> nowhere r x -> lost r EPointer.

  (** Every reference met leads somewhere or nowhere; they are listed in lib. *)
  Definition charted (lib : pool) (doc : value) : Prop :=
    forall r, reached ce p doc r -> exists e, In (r, e) lib /\ (finds ce p r e \/ exists x, lost r x).
  (** The same without the list. *)
  Definition either_way (doc : value) : Prop :=
    forall r, reached ce p doc r -> (exists e, finds ce p r e) \/ exists x, lost r x.
  (** The reference text k, met from doc, leads nowhere and gives the error e. *)
  Definition dangles (k : string) (e : cerr) : Prop := exists r, u_parse ce k = Some r /\ lost r e.
End Lost.
