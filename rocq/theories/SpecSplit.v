(** Specification: the keywords of a schema object taken apart.  Some keywords
    are read together, the others each stand alone. *)
From Verif Require Export SpecShape.
From Coq Require Import List Bool.
Import ListNotations.
Open Scope string_scope.
Open Scope list_scope.
Open Scope nat_scope.

Definition bundles : list (list string) := [
  ["properties"; "patternProperties"; "additionalProperties"];
  ["items"; "additionalItems"];
  ["if"; "then"; "else"];
  ["maximum"; "exclusiveMaximum"];
  ["minimum"; "exclusiveMinimum"]].

(** The members chosen by p. *)
Definition chosen (p : string -> bool) (m : list (string * value)) : list (string * value) := filter (fun e => p (fst e)) m.
(** p takes all keywords that are read together, or none of them. *)
Definition keeps_together (p : string -> bool) : Prop :=
  forall b k k', In b bundles -> In k b -> In k' b -> p k = true -> p k' = true.
(** The choices ps leave no member of m out. *)
Definition covers (ps : list (string -> bool)) (m : list (string * value)) : Prop :=
  forall k x, In (k, x) m -> exists p, In p ps /\ p k = true.
(** The keyword k and those that are read together with it. *)
Definition with_its_bundle (k k' : string) : bool :=
  (String.eqb k k' || existsb (fun b => existsb (String.eqb k) b && existsb (String.eqb k') b) bundles)%bool.
