(** Specification: keywords the library accepts but does not heed, and what a schema
    says without them.  An empty list under type, enum, anyOf, oneOf or items counts
    as absent (items:[] takes additionalItems with it), and so does a numeric
    exclusive bound written with an exponent beyond the limit of big.Rat. *)
From Verif Require Export SpecSchema SpecJson.
Open Scope string_scope.
Open Scope list_scope.

Inductive unheeded (lim : Z) : string -> value -> Prop :=
| unheeded_empty k : In k ["type"; "enum"; "anyOf"; "oneOf"; "items"] -> unheeded lim k (VArr [])
| unheeded_bound k s : In k ["exclusiveMinimum"; "exclusiveMaximum"] -> ~ moderate lim s -> unheeded lim k (VNum s).
(** m' holds the keywords of m that are heeded. *)
Definition heeded (lim : Z) (m m' : list (string * value)) : Prop :=
  forall k x, assoc k m' = Some x <-> assoc k m = Some x /\ ~ unheeded lim k x.

(** As [schema_sem], for the heeded keywords. *)
Definition read_sem lim pat fmt same (V : draft -> value -> value -> Prop) (T : string -> draft -> value -> Prop)
                    (d : draft) (s v : value) : Prop :=
  match s with
  | VBool b => b = true
  | VMap m =>
      match assoc "$ref" m with
      | Some (VStr r) => exists d' s', T r d' s' /\ V d' s' v
      | _ => exists m', heeded lim m m' /\ keywords pat fmt same V d m' v
      end
  | _ => False
  end.
(** A judgement V that obeys these rules wherever the question "does v0 satisfy s0" leads. *)
Definition reading_at lim pat fmt same T (d0 : draft) (s0 v0 : value) (V : draft -> value -> value -> Prop) : Prop :=
  forall d s v, needed T d0 s0 v0 d s v -> (V d s v <-> read_sem lim pat fmt same V T d s v).
