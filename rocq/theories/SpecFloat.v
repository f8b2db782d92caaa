(** Specification: IEEE 754 binary64 and rounding to nearest, ties to even. *)
From Coq Require Export Qabs.
From Verif Require Export SpecJson.

(** The finite binary64 numbers, each written in one way (zero twice, by sign):
    significand below 2^53, exponent between -1074 and 971, and a significand
    of 53 bits unless the exponent is the least. *)
Definition binary64 (f : f64) : Prop :=
  (f_man f = 0 /\ f_exp f = 0)%Z \/
  (0 < f_man f < 2 ^ 53 /\ -1074 <= f_exp f <= 971 /\ (2 ^ 52 <= f_man f \/ f_exp f = -1074))%Z.

Definition f64_value (f : f64) : Q :=
  ((if f_neg f then - inject_Z (f_man f) else inject_Z (f_man f)) * Qpower (2 # 1) (f_exp f))%Q.

(** f is at least as close to q as any other; if another is equally close then
    the significand of f is even. *)
Definition nearest_even (q : Q) (f : f64) : Prop :=
  binary64 f /\
  forall g, binary64 g ->
    (Qabs (q - f64_value f) <= Qabs (q - f64_value g))%Q /\
    ((Qabs (q - f64_value f) == Qabs (q - f64_value g))%Q ->
     (f64_value f == f64_value g)%Q \/ Z.even (f_man f) = true).

(** Half a unit in the last place above the largest finite number. *)
Definition overflow_threshold : Q := inject_Z ((2 ^ 54 - 1) * 2 ^ 970).

(** The float64 a JSON number is read as; a number written with a minus sign
    is read as a negative one, also when it is (or rounds to) zero. *)
Definition reads_as (s : string) (f : f64) : Prop :=
  exists q, denotes s q /\ (Qabs q < overflow_threshold)%Q /\ nearest_even q f /\
            f_neg f = (match s with String "-" _ => true | _ => false end).
