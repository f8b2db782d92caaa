(** Specification: structural equality of JSON values. *)
From Verif Require Export SpecFloat.

Section Equal.
  (** When two numbers count as equal. *)
  Variable eqn : value -> value -> Prop.

  (** Same kind; objects with the same names and equal values under each name,
      in whatever order; arrays element by element. *)
  Inductive equal : value -> value -> Prop :=
  | equal_nil : equal VNil VNil
  | equal_bool b : equal (VBool b) (VBool b)
  | equal_str s : equal (VStr s) (VStr s)
  | equal_num x y : eqn x y -> equal x y
  | equal_arr l l' : Forall2 equal l l' -> equal (VArr l) (VArr l')
  | equal_obj m m' :
      (forall k, assoc k m = None <-> assoc k m' = None) ->
      (forall k x y, assoc k m = Some x -> assoc k m' = Some y -> equal x y) ->
      equal (VMap m) (VMap m').
End Equal.

(** Numbers equal by value. *)
Definition same_value (x y : value) : Prop :=
  exists s t p q, x = VNum s /\ y = VNum t /\ denotes s p /\ denotes t q /\ (p == q)%Q.

(** Numbers equal once read as float64 (the sign of a zero included). *)
Definition float_of (x : value) (f : f64) : Prop :=
  (exists s, x = VNum s /\ reads_as s f) \/ (x = VFloat f /\ binary64 f).
Definition same_float (x y : value) : Prop := exists f, float_of x f /\ float_of y f.

(** Every number occurring in the value satisfies P. *)
Inductive all_numbers (P : string -> Prop) : value -> Prop :=
| an_nil : all_numbers P VNil
| an_bool b : all_numbers P (VBool b)
| an_str s : all_numbers P (VStr s)
| an_num s : P s -> all_numbers P (VNum s)
| an_float f : all_numbers P (VFloat f)
| an_arr l : Forall (all_numbers P) l -> all_numbers P (VArr l)
| an_map m : Forall (fun e => all_numbers P (snd e)) m -> all_numbers P (VMap m).

(** Within the range of float64. *)
Definition float_range (s : string) : Prop := exists q, denotes s q /\ (Qabs q < overflow_threshold)%Q.
Definition in_float_range : value -> Prop := all_numbers float_range.
