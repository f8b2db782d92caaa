(** Specification: loaders that know the same documents, and documents that have
    no name in common. *)
From Verif Require Export SpecPaths SpecLoad ModelLoader.
Open Scope string_scope.
Open Scope list_scope.

(** The same settings, and every URL means the same document. *)
Definition same_library (sl sl' : sloader) : Prop :=
  sl_auto sl = sl_auto sl' /\ sl_validate sl = sl_validate sl' /\ sl_draft sl = sl_draft sl' /\ sl_factory sl = sl_factory sl' /\
  forall r, assoc r (sl_pool sl) = assoc r (sl_pool sl').

(** Two outcomes of a call: both succeed with answers in R, or both fail with
    the same error, or neither comes back; the loaders know the same afterwards. *)
Definition same_outcome {A B} (R : A -> B -> Prop) (x : lres A) (y : lres B) : Prop :=
  match x, y with
  | LOk a sl, LOk b sl' => R a b /\ same_library sl sl'
  | LErr e sl, LErr e' sl' => e = e' /\ same_library sl sl'
  | LPanic, LPanic => True
  | LNoFuel, LNoFuel => True
  | _, _ => False
  end.
(** The same compiled schema. *)
Definition same_schema (s s' : schema) : Prop := s_heap s = s_heap s' /\ s_root s = s_root s'.

Section Additions.
  Variable w : world.
  (** AddSchema called for each pair of a URL and a loader in turn, under any map
      orders. *)
  Inductive added : sloader -> list (string * loader) -> sloader -> Prop :=
  | added_none sl : added sl [] sl
  | added_one fuel o sl url l sl1 ls sl2 : fair o -> AddSchema w fuel o url l sl = LOk tt sl1 -> added sl1 ls sl2 ->
      added sl ((url, l) :: ls) sl2.

  (** The names a document loaded by the URL base has: base, and the identifiers
      declared in it. *)
  Definition name_in (base : string) (doc : value) (r : string) : Prop :=
    r = base \/ exists p b m, position (w_parse w) (w_inherits w) base doc p b (VMap m) /\ new_scope (w_parse w) (w_inherits w) b m = Some r.
  Definition name_of (e : string * loader) (r : string) : Prop :=
    exists base doc, w_parse w (fst e) = Some base /\ fst (LoadJSON w (snd e)) = Some doc /\ name_in base doc r.
  (** No two of them have a name in common. *)
  Definition unrelated (ls : list (string * loader)) : Prop :=
    ForallOrdPairs (fun e e' => forall r, name_of e r -> ~ name_of e' r) ls.
End Additions.
