(** Specification: a schema document in which some of the schemas have been
    exchanged for others. *)
From Verif Require Export SpecAlike.
From Coq Require Import String List.
Import ListNotations.
Open Scope string_scope.
Open Scope list_scope.

Section Swap.
  (** [E x y]: y may take the place of x. *)
  Variable E : value -> value -> Prop.

  (** The second is the first with schemas exchanged, anywhere in it. *)
  Inductive swapped : value -> value -> Prop :=
  | swap_here x y : E x y -> swapped x y
  | swap_none x : swapped x x
  | swap_in m m' :
      (forall k, In k plain_keywords -> assoc k m = assoc k m') ->
      (forall k, In k (schema_keywords ++ addl_keywords) -> both swapped (assoc k m) (assoc k m')) ->
      (forall k, In k list_keywords -> both (arr_part swapped) (assoc k m) (assoc k m')) ->
      (forall k, In k map_keywords -> both (map_part swapped) (assoc k m) (assoc k m')) ->
      both (item_part swapped) (assoc "items" m) (assoc "items" m') ->
      both (map_part (dep_part swapped)) (assoc "dependencies" m) (assoc "dependencies" m') ->
      swapped (VMap m) (VMap m').
End Swap.

(** Pairs of schemas that ask for the same thing in other words. *)
Inductive rewording : value -> value -> Prop :=
| word_const c : rewording (VMap [("const", c)]) (VMap [("enum", VArr [c])])
| word_enum l : rewording (VMap [("enum", VArr l)]) (VMap [("anyOf", VArr (map (fun c => VMap [("const", c)]) l))])
| word_types ts : rewording (VMap [("type", VArr (map VStr ts))]) (VMap [("anyOf", VArr (map (fun t => VMap [("type", VStr t)]) ts))])
| word_required ks : rewording (VMap [("required", VArr (map VStr ks))])
    (VMap [("allOf", VArr (map (fun k => VMap [("required", VArr [VStr k])]) ks))])
| word_dependency k ks : rewording (VMap [("dependencies", VMap [(k, VArr (map VStr ks))])])
    (VMap [("dependencies", VMap [(k, VMap [("required", VArr (map VStr ks))])])])
| word_properties ps : rewording (VMap [("properties", VMap ps)])
    (VMap [("allOf", VArr (map (fun e => VMap [("properties", VMap [e])]) ps))])
| word_minimum a : rewording (VMap [("minimum", VNum a); ("exclusiveMinimum", VBool true)]) (VMap [("exclusiveMinimum", VNum a)])
| word_maximum a : rewording (VMap [("maximum", VNum a); ("exclusiveMaximum", VBool true)]) (VMap [("exclusiveMaximum", VNum a)])
| word_no_items : rewording (VMap [("maxItems", VNum "0")]) (VMap [("items", VBool false)])
| word_no_members : rewording (VMap [("maxProperties", VNum "0")]) (VMap [("propertyNames", VBool false)])
| word_closed : rewording (VMap [("maxProperties", VNum "0")]) (VMap [("additionalProperties", VBool false)])
| word_true : rewording (VBool true) (VMap [])
| word_false : rewording (VBool false) (VMap [("not", VMap [])])
| word_single k x : In k ["allOf"; "anyOf"; "oneOf"] -> rewording (VMap [(k, VArr [x])]) x
| word_not_not x : rewording (VMap [("not", VMap [("not", x)])]) x
| word_neither l : rewording (VMap [("not", VMap [("anyOf", VArr l)])]) (VMap [("allOf", VArr (map (fun x => VMap [("not", x)]) l))])
| word_if x y z : rewording (VMap [("if", x); ("then", y); ("else", z)])
    (VMap [("allOf", VArr [VMap [("anyOf", VArr [VMap [("not", x)]; y])]; VMap [("anyOf", VArr [x; z])]])]).
