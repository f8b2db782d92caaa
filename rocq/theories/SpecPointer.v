(** Specification: RFC 6901 on values, for a given notion of array index. *)
From Verif Require Export SpecLocate.
Open Scope string_scope.
Open Scope list_scope.

Section Pointer.
  (** [index t n]: the text t names the element number n. *)
  Variable index : string -> nat -> Prop.
  (** Starting from the value, the names and indices lead to the last value. *)
  Inductive reaches : list string -> value -> value -> Prop :=
  | reaches_here v : reaches [] v v
  | reaches_member t ts m x y : assoc t m = Some x -> reaches ts x y -> reaches (t :: ts) (VMap m) y
  | reaches_element t ts l n x y : index t n -> nth_error l n = Some x -> reaches ts x y -> reaches (t :: ts) (VArr l) y.
End Pointer.

(** RFC 6901, section 4: no leading zeros, no sign.  (A Go slice has less than
    2^63 elements.) *)
Definition rfc_index (t : string) (n : nat) : Prop := int_of t (Z.of_nat n) /\ (Z.of_nat n < 2 ^ 63)%Z.
(** What strconv.Atoi reads: any number of digits, with or without a sign. *)
Definition go_index (t : string) (n : nat) : Prop := (Z.of_nat n < 2 ^ 63)%Z /\
  exists g ds k, t = append g ds /\ digit_string ds (S k) (Z.of_nat n) /\ (g = "" \/ g = "+" \/ g = "-" /\ n = 0).
(** The tokens of any text after "#": those between slashes, if it begins with
    one, otherwise none; "~0" and "~1" are decoded, another "~" stays. *)
Fixpoint plain (t : string) : Prop := match t with EmptyString => True | String c t' => c <> "/"%char /\ plain t' end.
Fixpoint slashed_text (ts : list string) : string := match ts with [] => "" | t :: ts' => String "/" (append t (slashed_text ts')) end.
Inductive decoded : string -> string -> Prop :=
| decoded_nil : decoded "" ""
| decoded_tilde s t : decoded s t -> decoded (String "~" (String "0" s)) (String "~" t)
| decoded_slash s t : decoded s t -> decoded (String "~" (String "1" s)) (String "/" t)
| decoded_other c s t : (forall r, c = "~"%char -> s <> String "0" r /\ s <> String "1" r) -> decoded s t -> decoded (String c s) (String c t).
(** [fragment_decoded f ts]: ts are the decoded tokens of the text f. *)
Definition fragment_decoded (f : string) (ts : list string) : Prop :=
  (exists raws, f = slashed_text raws /\ Forall plain raws /\ Forall2 decoded raws ts) \/ (forall r, f <> String "/" r) /\ ts = [].
