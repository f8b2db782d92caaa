(** Specification: what a reference leads to, given the documents known by URL. *)
From Verif Require Export ModelPool SpecJson.
From Coq Require Import String List.
Import ListNotations.
Open Scope string_scope.
Open Scope list_scope.

(** A "$ref" with that text occurs somewhere in the value. *)
Inductive mentions : value -> string -> Prop :=
| mentions_here m k : In ("$ref", VStr k) m -> mentions (VMap m) k
| mentions_arr l x k : In x l -> mentions x k -> mentions (VArr l) k
| mentions_map m n x k : In (n, x) m -> mentions x k -> mentions (VMap m) k.

(** JSON pointers, RFC 6901: the text of a pointer, and the value it leads to.
    (No Go slice has 2^63 elements.) *)
Fixpoint escaped (t : string) : string :=
  match t with
  | EmptyString => ""
  | String c t' =>
      if Ascii.eqb c "~" then String "~" (String "0" (escaped t'))
      else if Ascii.eqb c "/" then String "~" (String "1" (escaped t'))
      else String c (escaped t')
  end.
Fixpoint pointer_text (ts : list string) : string :=
  match ts with [] => "" | t :: ts' => String "/" (append (escaped t) (pointer_text ts')) end.
Inductive points : list string -> value -> value -> Prop :=
| points_here v : points [] v v
| points_member t ts m x y : assoc t m = Some x -> points ts x y -> points (t :: ts) (VMap m) y
| points_element t ts l n x y : int_of t (Z.of_nat n) -> (Z.of_nat n < 2 ^ 63)%Z ->
    nth_error l n = Some x -> points ts x y -> points (t :: ts) (VArr l) y.

(** References, given what each URL leads to. *)
Section Library.
  Variable ce : cenv.
  Variable loc : string -> spd -> Prop.
  (** Every reference in v leads somewhere. *)
  Definition closed_in (v : value) : Prop := forall k r, mentions v k -> u_parse ce k = Some r -> exists e, loc r e.
  (** The reference text k leads to the schema x, read under draft d; dflt for
      documents that name no draft. *)
  Definition leads_in (dflt : draft) (k : string) (d : draft) (x : value) : Prop :=
    exists r e, u_parse ce k = Some r /\ loc r e /\ x = sp_doc e /\
                d = match sp_draft e with Some d => d | None => dflt end.
End Library.

Section Locate.
  Variable ce : cenv.
  Variable p : pool.
  (** The reference r is known itself, or its URL without fragment is and the
      fragment, a JSON pointer, leads on from there. *)
  Definition locates (r : string) (e : spd) : Prop :=
    assoc r p = Some e \/
    assoc r p = None /\ exists b ts x, assoc (u_strip ce r) p = Some b /\
      u_fragment ce r = pointer_text ts /\ points ts (sp_doc b) x /\ e = Spd x (sp_draft b).
  Definition closed_refs : value -> Prop := closed_in ce locates.
  Definition leads_to : draft -> string -> draft -> value -> Prop := leads_in ce locates.
End Locate.
