(** Specification: schemas combined by allOf, anyOf, oneOf, not and
    if/then/else, read as formulas of propositional logic. *)
From Verif Require Export SpecShape.
From Coq Require Import List.
Import ListNotations.
Open Scope string_scope.
Open Scope list_scope.
Open Scope nat_scope.

Inductive formula : Type :=
| Atom (i : nat)
| All (fs : list formula)
| Any (fs : list formula)
| One (fs : list formula)
| Neg (f : formula)
| Cond (f g h : formula).

(** The formula as a schema; atom i is the schema s i. *)
Fixpoint write (s : nat -> value) (f : formula) : value :=
  match f with
  | Atom i => s i
  | All fs => VMap [("allOf", VArr (map (write s) fs))]
  | Any fs => VMap [("anyOf", VArr (map (write s) fs))]
  | One fs => VMap [("oneOf", VArr (map (write s) fs))]
  | Neg f => VMap [("not", write s f)]
  | Cond f g h => VMap [("if", write s f); ("then", write s g); ("else", write s h)]
  end.

(** Its truth value. *)
Fixpoint truth (b : nat -> bool) (f : formula) : bool :=
  match f with
  | Atom i => b i
  | All fs => forallb (truth b) fs
  | Any fs => existsb (truth b) fs
  | One fs => Nat.eqb (length (filter (truth b) fs)) 1
  | Neg f => negb (truth b f)
  | Cond f g h => if truth b f then truth b g else truth b h
  end.

(** The atoms in it. *)
Fixpoint atoms (f : formula) : list nat :=
  match f with
  | Atom i => [i]
  | All fs | Any fs | One fs => flat_map atoms fs
  | Neg f => atoms f
  | Cond f g h => atoms f ++ atoms g ++ atoms h
  end.

(** The drafts demand that the lists are not empty. *)
Inductive proper : formula -> Prop :=
| proper_atom i : proper (Atom i)
| proper_all fs : fs <> [] -> Forall proper fs -> proper (All fs)
| proper_any fs : fs <> [] -> Forall proper fs -> proper (Any fs)
| proper_one fs : fs <> [] -> Forall proper fs -> proper (One fs)
| proper_neg f : proper f -> proper (Neg f)
| proper_cond f g h : proper f -> proper g -> proper h -> proper (Cond f g h).

(** A schema that says the same wherever it stands: no references, no
    identifiers, no draft of its own. *)
Definition bare (v : value) : Prop :=
  (forall m k t, inside v (VMap m) -> In k ["$ref"; "$id"; "id"] -> ~ In (k, VStr t) m) /\
  (forall m, v = VMap m -> assoc "$schema" m = None).
