(** Specification: which checks a check makes, taking account of the value and
    of where the code stops early, and what it is for Validate to loop. *)
From Coq Require Import Relations.
From Verif Require Export SpecWhy.

Section Loop.
  Variables (env : goenv) (h : heap).

  (** [asks n v c id x d]: while deciding about v at c, the schema object n has
      the value x at d checked by cell id.  A branch of anyOf is tried only
      when the earlier ones reject, an element of an array is tried for
      contains only when the earlier ones are rejected. *)
  Inductive asks (n : node) (v : value) (c : ctx) : nat -> value -> ctx -> Prop :=
  | a_anyOf before id after : n_anyOf n = before ++ id :: after -> Forall (fun i => rejects env h i v c) before -> asks n v c id v c
  | a_oneOf id : In id (n_oneOf n) -> asks n v c id v c
  | a_allOf id : In id (n_allOf n) -> asks n v c id v c
  | a_not id : n_not n = Some id -> asks n v c id v c
  | a_if id : n_if n = Some id -> asks n v c id v c
  | a_then i id : n_if n = Some i -> n_then n = Some id -> accepts env h i v c -> asks n v c id v c
  | a_else i id : n_if n = Some i -> n_else n = Some id -> rejects env h i v c -> asks n v c id v c
  | a_dependency m k id : v = VMap m -> In k (map fst m) -> assoc k (n_dependencies n) = Some (DepSchema id) -> asks n v c id v c
  | a_items l i x id : v = VArr l -> nth_error l i = Some x -> n_items n <> [] ->
      checker (n_items_single n) (n_items n) (n_additionalItems n) i = Some id -> asks n v c id x (itoa (Z.of_nat i) :: c)
  | a_contains l i x id : v = VArr l -> nth_error l i = Some x -> n_contains n = Some id ->
      (forall j y, j < i -> nth_error l j = Some y -> rejects env h id y (itoa (Z.of_nat j) :: c)) -> asks n v c id x (itoa (Z.of_nat i) :: c)
  | a_property m id p x : v = VMap m -> In id (n_props n) -> nth_error h id = Some p -> assoc (n_property p) m = Some x ->
      asks n v c id x (n_property p :: c)
  | a_pattern m k x p id : v = VMap m -> In (k, x) m -> In (p, id) (n_patternProperties n) ->
      e_re_ok env p = true -> e_re_match env p k = true -> asks n v c id x (k :: c)
  | a_additional m k x id : v = VMap m -> In (k, x) m -> ~ has_property h n k -> matching env n k = [] ->
      n_additionalProperties n = Some (AddlSchema id) -> asks n v c id x (k :: c)
  | a_name m k x id : v = VMap m -> In (k, x) m -> n_propertyNames n = Some id -> asks n v c id (VStr k) c.

  (** The value the keywords get to see: an object of the map type of YAML
      decoders is converted first, a float64 is not looked at. *)
  Definition held (v w : value) : Prop :=
    match v with
    | VIMap _ => convertDocumentNode v = Ok w
    | VFloat _ => False
    | _ => w = v
    end.

  (** One check makes another: through a reference, or by a keyword of a schema
      object whose type the value has. *)
  Inductive makes : check -> check -> Prop :=
  | m_ref id n v c t : nth_error h id = Some n -> n_pass n = None -> n_ref n = Some t -> makes (id, v, c) (t, v, c)
  | m_asks id n v w c id' x d : nth_error h id = Some n -> n_pass n = None -> n_ref n = None ->
      type_allowed env n v -> held v w -> asks n w c id' x d -> makes (id, v, c) (id', x, d).

  (** Starting from a check, some check is made in the course of itself. *)
  Definition loops (a : check) : Prop :=
    exists b, clos_refl_trans check makes a b /\ clos_trans check makes b b.
End Loop.
