(** Specification: what it means for an instance to satisfy a schema document,
    keyword by keyword, after the JSON Schema drafts 4, 6 and 7.  [Hybrid] is
    the library's default mode: everything of draft 7, and the boolean form of
    exclusiveMinimum/exclusiveMaximum of draft 4. *)
From Verif Require Export SpecEqual ModelPool.
Open Scope string_scope.
Open Scope list_scope.
Open Scope nat_scope.

Definition since6 (d : draft) : Prop := d <> Draft4.
Definition since7 (d : draft) : Prop := d = Draft7 \/ d = Hybrid.

(** The value is a number, resp. an integer, of that value. *)
Definition is_num (v : value) (q : Q) : Prop := exists s, v = VNum s /\ denotes s q.
Definition is_int (v : value) (n : Z) : Prop := is_num v (inject_Z n).

Definition has_type (t : string) (v : value) : Prop :=
  t = "null" /\ v = VNil \/
  t = "boolean" /\ (exists b, v = VBool b) \/
  t = "number" /\ (exists q, is_num v q) \/
  t = "integer" /\ (exists n, is_int v n) \/
  t = "string" /\ (exists s, v = VStr s) \/
  t = "array" /\ (exists l, v = VArr l) \/
  t = "object" /\ (exists m, v = VMap m).

Section Schema.
  (** [pat p s]: the regular expression p matches s.
      [fmt f v]: v has the format f.
      [same x y]: x and y are equal JSON values.
      [V d s v]: v satisfies the schema s read under draft d.
      [T r d s]: the reference r leads to the schema s, read under draft d. *)
  Variable pat : string -> string -> Prop.
  Variable fmt : string -> value -> Prop.
  Variable same : value -> value -> Prop.
  Variable V : draft -> value -> value -> Prop.
  Variable T : string -> draft -> value -> Prop.

  Variable d : draft.
  Variable m : list (string * value).     (* the schema object *)

  (** If the keyword is present, its value x satisfies P. *)
  Definition kw (key : string) (P : value -> Prop) : Prop := forall x, assoc key m = Some x -> P x.

  (** Any instance *)

  Definition s_type (v : value) : Prop := kw "type" (fun x =>
    (forall t, x = VStr t -> has_type t v) /\
    (forall ts, x = VArr ts -> exists t, In (VStr t) ts /\ has_type t v)).

  Definition s_const (v : value) : Prop := since6 d -> kw "const" (fun x => same v x).
  Definition s_enum (v : value) : Prop := kw "enum" (fun x => forall l, x = VArr l -> exists e, In e l /\ same v e).
  Definition s_format (v : value) : Prop := kw "format" (fun x => forall f, x = VStr f -> fmt f v).

  Definition s_allOf (v : value) : Prop := kw "allOf" (fun x => forall l, x = VArr l -> forall s, In s l -> V d s v).
  Definition s_anyOf (v : value) : Prop := kw "anyOf" (fun x => forall l, x = VArr l -> exists s, In s l /\ V d s v).
  Definition s_oneOf (v : value) : Prop := kw "oneOf" (fun x => forall l, x = VArr l ->
    exists i s, nth_error l i = Some s /\ V d s v /\
      forall j s', nth_error l j = Some s' -> V d s' v -> j = i).
  Definition s_not (v : value) : Prop := kw "not" (fun s => ~ V d s v).
  Definition s_if (v : value) : Prop := since7 d -> kw "if" (fun i =>
    (V d i v -> kw "then" (fun s => V d s v)) /\ (~ V d i v -> kw "else" (fun s => V d s v))).

  (** Numbers *)

  Definition s_multipleOf (v : value) : Prop := kw "multipleOf" (fun x =>
    forall q b, is_num v q -> is_num x b -> exists k : Z, (q == inject_Z k * b)%Q).
  (** In draft 4 exclusiveMaximum is a modifier of maximum. *)
  Definition strict (xkey : string) : Prop := (d = Draft4 \/ d = Hybrid) /\ assoc xkey m = Some (VBool true).
  Definition s_maximum (v : value) : Prop := kw "maximum" (fun x =>
    forall q b, is_num v q -> is_num x b -> (q <= b)%Q /\ (strict "exclusiveMaximum" -> (q < b)%Q)).
  Definition s_minimum (v : value) : Prop := kw "minimum" (fun x =>
    forall q b, is_num v q -> is_num x b -> (b <= q)%Q /\ (strict "exclusiveMinimum" -> (b < q)%Q)).
  Definition s_exclusiveMaximum (v : value) : Prop := since6 d -> kw "exclusiveMaximum" (fun x =>
    forall q b, is_num v q -> is_num x b -> (q < b)%Q).
  Definition s_exclusiveMinimum (v : value) : Prop := since6 d -> kw "exclusiveMinimum" (fun x =>
    forall q b, is_num v q -> is_num x b -> (b < q)%Q).

  (** Strings: length in code points. *)

  Definition s_maxLength (v : value) : Prop := kw "maxLength" (fun x =>
    forall n s cps, is_int x n -> v = VStr s -> text cps s -> (Z.of_nat (length cps) <= n)%Z).
  Definition s_minLength (v : value) : Prop := kw "minLength" (fun x =>
    forall n s cps, is_int x n -> v = VStr s -> text cps s -> (n <= Z.of_nat (length cps))%Z).
  Definition s_pattern (v : value) : Prop := kw "pattern" (fun x =>
    forall p s, x = VStr p -> v = VStr s -> pat p s).

  (** Arrays *)

  Definition s_items (v : value) : Prop := kw "items" (fun x => forall l, v = VArr l ->
    (forall ss, x = VArr ss -> forall i s e, nth_error ss i = Some s -> nth_error l i = Some e -> V d s e) /\
    ((forall ss, x <> VArr ss) -> forall e, In e l -> V d x e)).
  (** Elements beyond the array of item schemas. *)
  Definition s_additionalItems (v : value) : Prop := kw "additionalItems" (fun a => forall l ss,
    v = VArr l -> assoc "items" m = Some (VArr ss) ->
    forall e, In e (skipn (length ss) l) ->
    (a = VBool false -> False) /\ ((forall b, a <> VBool b) -> V d a e)).
  Definition s_maxItems (v : value) : Prop := kw "maxItems" (fun x =>
    forall n l, is_int x n -> v = VArr l -> (Z.of_nat (length l) <= n)%Z).
  Definition s_minItems (v : value) : Prop := kw "minItems" (fun x =>
    forall n l, is_int x n -> v = VArr l -> (n <= Z.of_nat (length l))%Z).
  Definition s_uniqueItems (v : value) : Prop := kw "uniqueItems" (fun x =>
    forall l, x = VBool true -> v = VArr l ->
    forall i j a b, i < j -> nth_error l i = Some a -> nth_error l j = Some b -> ~ same a b).
  Definition s_contains (v : value) : Prop := since6 d -> kw "contains" (fun s =>
    forall l, v = VArr l -> exists e, In e l /\ V d s e).

  (** Objects *)

  Definition s_maxProperties (v : value) : Prop := kw "maxProperties" (fun x =>
    forall n o, is_int x n -> v = VMap o -> (Z.of_nat (length o) <= n)%Z).
  Definition s_minProperties (v : value) : Prop := kw "minProperties" (fun x =>
    forall n o, is_int x n -> v = VMap o -> (n <= Z.of_nat (length o))%Z).
  Definition s_required (v : value) : Prop := kw "required" (fun x => forall ks o,
    x = VArr ks -> v = VMap o -> forall k, In (VStr k) ks -> In k (map fst o)).
  Definition s_properties (v : value) : Prop := kw "properties" (fun x => forall ps o,
    x = VMap ps -> v = VMap o -> forall k s e, In (k, s) ps -> In (k, e) o -> V d s e).
  Definition s_patternProperties (v : value) : Prop := kw "patternProperties" (fun x => forall ps o,
    x = VMap ps -> v = VMap o -> forall p s k e, In (p, s) ps -> In (k, e) o -> pat p k -> V d s e).
  (** Members neither named in properties nor matched by patternProperties. *)
  Definition additional (k : string) : Prop :=
    kw "properties" (fun x => forall ps, x = VMap ps -> ~ In k (map fst ps)) /\
    kw "patternProperties" (fun x => forall ps, x = VMap ps -> forall p s, In (p, s) ps -> ~ pat p k).
  Definition s_additionalProperties (v : value) : Prop := kw "additionalProperties" (fun a => forall o,
    v = VMap o -> forall k e, In (k, e) o -> additional k ->
    (a = VBool false -> False) /\ ((forall b, a <> VBool b) -> V d a e)).
  Definition s_propertyNames (v : value) : Prop := since6 d -> kw "propertyNames" (fun s => forall o,
    v = VMap o -> forall k, In k (map fst o) -> V d s (VStr k)).
  Definition s_dependencies (v : value) : Prop := kw "dependencies" (fun x => forall ds o,
    x = VMap ds -> v = VMap o -> forall k a, In (k, a) ds -> In k (map fst o) ->
    (forall ks, a = VArr ks -> forall k', In (VStr k') ks -> In k' (map fst o)) /\
    ((forall ks, a <> VArr ks) -> V d a v)).

  Definition keywords (v : value) : Prop :=
    s_type v /\ s_const v /\ s_enum v /\ s_format v /\
    s_allOf v /\ s_anyOf v /\ s_oneOf v /\ s_not v /\ s_if v /\
    s_multipleOf v /\ s_maximum v /\ s_minimum v /\ s_exclusiveMaximum v /\ s_exclusiveMinimum v /\
    s_maxLength v /\ s_minLength v /\ s_pattern v /\
    s_items v /\ s_additionalItems v /\ s_maxItems v /\ s_minItems v /\ s_uniqueItems v /\ s_contains v /\
    s_maxProperties v /\ s_minProperties v /\ s_required v /\ s_properties v /\ s_patternProperties v /\
    s_additionalProperties v /\ s_propertyNames v /\ s_dependencies v.
End Schema.

(** A schema is a boolean (from draft 6 on) or an object; a reference stands
    for the schema it leads to, whatever else the object holds. *)
Definition schema_sem pat fmt same (V : draft -> value -> value -> Prop) (T : string -> draft -> value -> Prop)
                      (d : draft) (s v : value) : Prop :=
  match s with
  | VBool b => b = true
  | VMap m =>
      match assoc "$ref" m with
      | Some (VStr r) => exists d' s', T r d' s' /\ V d' s' v
      | _ => keywords pat fmt same V d m v
      end
  | _ => False
  end.

(** The subschemas of a schema object that take effect under draft d: those
    applied to the instance itself, to its elements, to its members, and to the
    names of its members. *)
Inductive part_here (d : draft) (m : list (string * value)) : value -> Prop :=
| here_not x : assoc "not" m = Some x -> part_here d m x
| here_if k x : since7 d -> In k ["if"; "then"; "else"] -> assoc k m = Some x -> part_here d m x
| here_element k l x : In k ["allOf"; "anyOf"; "oneOf"] -> assoc k m = Some (VArr l) -> In x l -> part_here d m x
| here_dependency ds n x : assoc "dependencies" m = Some (VMap ds) -> In (n, x) ds -> part_here d m x.
Inductive part_item (d : draft) (m : list (string * value)) : value -> Prop :=
| item_value k x : In k ["items"; "additionalItems"] -> assoc k m = Some x -> part_item d m x
| item_contains x : since6 d -> assoc "contains" m = Some x -> part_item d m x
| item_element l x : assoc "items" m = Some (VArr l) -> In x l -> part_item d m x.
Inductive part_prop (m : list (string * value)) : value -> Prop :=
| prop_value x : assoc "additionalProperties" m = Some x -> part_prop m x
| prop_member k ms n x : In k ["properties"; "patternProperties"] -> assoc k m = Some (VMap ms) -> In (n, x) ms -> part_prop m x.
Definition part_name (d : draft) (m : list (string * value)) (x : value) : Prop :=
  since6 d /\ assoc "propertyNames" m = Some x.
Definition part (d : draft) (m : list (string * value)) (x : value) : Prop :=
  part_here d m x \/ part_item d m x \/ part_prop m x \/ part_name d m x.

(** Which questions "does v' satisfy s' (under d')" the meaning of a schema may
    turn on, at one level. *)
Inductive asks (T : string -> draft -> value -> Prop) : draft -> value -> value -> draft -> value -> value -> Prop :=
| ask_ref d m r v d' x : assoc "$ref" m = Some (VStr r) -> T r d' x -> asks T d (VMap m) v d' x v
| ask_here d m v x : (forall r, assoc "$ref" m <> Some (VStr r)) -> part_here d m x -> asks T d (VMap m) v d x v
| ask_item d m l x e : (forall r, assoc "$ref" m <> Some (VStr r)) -> part_item d m x -> In e l -> asks T d (VMap m) (VArr l) d x e
| ask_prop d m o x k e : (forall r, assoc "$ref" m <> Some (VStr r)) -> part_prop m x -> In (k, e) o -> asks T d (VMap m) (VMap o) d x e
| ask_name d m o x k : (forall r, assoc "$ref" m <> Some (VStr r)) -> part_name d m x ->
    In k (map fst o) -> asks T d (VMap m) (VMap o) d x (VStr k).
Inductive needed (T : string -> draft -> value -> Prop) (d0 : draft) (s0 v0 : value) : draft -> value -> value -> Prop :=
| needed_root : needed T d0 s0 v0 d0 s0 v0
| needed_step d s v d' s' v' : needed T d0 s0 v0 d s v -> asks T d s v d' s' v' -> needed T d0 s0 v0 d' s' v'.

(** The schemas that the meaning of s0, read under d0, may refer to. *)
Inductive within (T : string -> draft -> value -> Prop) (d0 : draft) (s0 : value) : draft -> value -> Prop :=
| within_root : within T d0 s0 d0 s0
| within_part d m x : within T d0 s0 d (VMap m) -> (forall r, assoc "$ref" m <> Some (VStr r)) -> part d m x -> within T d0 s0 d x
| within_ref d m r d' x : within T d0 s0 d (VMap m) -> assoc "$ref" m = Some (VStr r) -> T r d' x -> within T d0 s0 d' x.

(** A judgement V that obeys the rules of the drafts wherever the question
    "does v0 satisfy s0" leads. *)
Definition meaning_at pat fmt same T (d0 : draft) (s0 v0 : value) (V : draft -> value -> value -> Prop) : Prop :=
  forall d s v, needed T d0 s0 v0 d s v -> (V d s v <-> schema_sem pat fmt same V T d s v).
