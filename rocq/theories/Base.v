(** Outcomes, iteration-order oracles and small list helpers shared by the model. *)
From Coq Require Export String Ascii List ZArith NArith QArith Bool Lia Permutation.
Export ListNotations.
Open Scope string_scope.
Open Scope list_scope.
Open Scope nat_scope.

(** Outcome of running Go code: a value, a run-time panic, or "the fuel given
    to the model was not enough" (the only way the model can represent a run
    that has not returned yet). *)
Inductive out (A : Type) : Type :=
| Ok (a : A)
| Panic
| NoFuel.
Arguments Ok {A} _.
Arguments Panic {A}.
Arguments NoFuel {A}.

Definition obind {A B} (x : out A) (f : A -> out B) : out B :=
  match x with Ok a => f a | Panic => Panic | NoFuel => NoFuel end.
Notation "'do' x <- e ; f" := (obind e (fun x => f))
  (at level 200, x name, e at level 100, f at level 200, right associativity).

(** Go randomises the order of every [range] over a map (Go spec, "For
    statements with range clause").  An oracle chooses, for every position of
    the dynamic call tree (a list of numbers) an order for the list of entries
    ranged over there.  A call made at position [p] gives its [k]-th sub-call
    the oracle [shift o k], i.e. position [k :: p] seen from the root, so
    every [range] executed in a run has its own independent choice. *)
Definition oracle := list nat -> forall A : Type, list A -> list A.
Definition shift (o : oracle) (k : nat) : oracle := fun p => o (k :: p).
Definition pick (o : oracle) {A} (l : list A) : list A := o nil A l.
Definition fair (o : oracle) : Prop :=
  forall p (A : Type) (l : list A), Permutation l (o p A l).
(** The oracle that iterates in list order; used to run examples. *)
Definition in_order : oracle := fun _ _ l => l.

Lemma shift_fair o k : fair o -> fair (shift o k).
Proof. intros H p A l. apply H. Qed.
Lemma pick_perm o A (l : list A) : fair o -> Permutation l (pick o l).
Proof. intros H. apply H. Qed.
Lemma in_order_fair : fair in_order.
Proof. intros p A l. apply Permutation_refl. Qed.

(** [mapi f i l] maps [f] over [l] together with the running index. *)
Fixpoint mapi {A B} (f : nat -> A -> B) (i : nat) (l : list A) : list B :=
  match l with
  | [] => []
  | x :: l' => f i x :: mapi f (S i) l'
  end.

(** Go map lookup [m[k]] / the comma-ok form, on an association list. *)
Fixpoint assoc {B} (k : string) (m : list (string * B)) : option B :=
  match m with
  | [] => None
  | (k', v) :: m' => if String.eqb k k' then Some v else assoc k m'
  end.

(** Go map assignment [m[k] = v]: replace in place or append. *)
Fixpoint aset {B} (k : string) (v : B) (m : list (string * B)) : list (string * B) :=
  match m with
  | [] => [(k, v)]
  | (k', v') :: m' => if String.eqb k k' then (k, v) :: m' else (k', v') :: aset k v m'
  end.

(** Go [delete(m, k)]. *)
Definition adel {B} (k : string) (m : list (string * B)) : list (string * B) :=
  filter (fun e => negb (String.eqb k (fst e))) m.

(** isStringInSlice, utils.go:54-61. *)
Fixpoint isStringInSlice (s : list string) (what : string) : bool :=
  match s with
  | [] => false
  | x :: s' => if String.eqb x what then true else isStringInSlice s' what
  end.

Definition keys {B} (m : list (string * B)) : list string := map fst m.
