(** Specification: what a number shown to the user has to do with the number
    it stands for. *)
From Coq Require Import QArith Qabs.
From Verif Require Export SpecJson ModelValidate.
Open Scope Q_scope.

(** [shows s q]: s is a JSON number that differs from q by less than one part in
    2^62; it is q itself when q is an integer or has at most 18 digits. *)
Definition shows (s : string) (q : Q) : Prop :=
  exists q', denotes s q' /\ Qabs (q' - q) <= Qabs q * (1 # 2 ^ 62) /\
    (forall z, q == inject_Z z -> q' == q) /\
    (forall c k, (Z.abs c < 10 ^ 18)%Z -> q == inject_Z c * Qpower (10 # 1) k -> q' == q).

(** The messages with a number in them: their text before and after it, and the
    keyword whose value it is. *)
Definition bound_messages : list (etype * string * (node -> option Q)) :=
  [(MultipleOfError, "Must be a multiple of ", n_multipleOf);
   (NumberGTEError, "Must be greater than or equal to ", n_minimum);
   (NumberGTError, "Must be greater than ", n_exclusiveMinimum);
   (NumberLTEError, "Must be less than or equal to ", n_maximum);
   (NumberLTError, "Must be less than ", n_exclusiveMaximum)]%string.
Definition count_messages : list (etype * string * string * (node -> option Z)) :=
  [(ArrayMinItemsError, "Array must have at least ", " items", n_minItems);
   (ArrayMaxItemsError, "Array must have at most ", " items", n_maxItems);
   (ArrayMinPropertiesError, "Must have at least ", " properties", n_minProperties);
   (ArrayMaxPropertiesError, "Must have at most ", " properties", n_maxProperties);
   (StringLengthGTEError, "String length must be greater than or equal to ", "", n_minLength);
   (StringLengthLTEError, "String length must be less than or equal to ", "", n_maxLength)]%string.
