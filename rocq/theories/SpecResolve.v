(** Specification: a schema document with its references made absolute, and the
    identifiers it declares. *)
From Verif Require Export Value.
From Coq Require Import String List.
Import ListNotations.
Open Scope string_scope.
Open Scope list_scope.

Section Resolve.
  (** Parsing a URL, and resolving a URL against a base (RFC 3986). *)
  Variable parse : string -> option string.
  Variable inherits : string -> string -> option string.

  (** The text of the identifier an object declares: "id", else "$id". *)
  Definition id_text (m : list (string * value)) : option string :=
    match assoc "id" m with
    | Some (VStr s) => Some s
    | Some _ => None
    | None => match assoc "$id" m with Some (VStr s) => Some s | _ => None end
    end.
  (** The absolute identifier it introduces, if any. *)
  Definition new_scope (base : string) (m : list (string * value)) : option string :=
    match id_text m with
    | Some s => match parse s with Some r => inherits base r | None => None end
    | None => None
    end.
  Definition scope (base : string) (m : list (string * value)) : string :=
    match new_scope base m with Some b => b | None => base end.

  Definition absolute (base s : string) : string :=
    match parse s with
    | Some r => match inherits base r with Some a => a | None => s end
    | None => s
    end.

  Definition is_literal (k : string) : bool := (String.eqb k "const" || String.eqb k "enum")%bool.
  Definition is_schema_map (k : string) : bool :=
    (String.eqb k "properties" || String.eqb k "dependencies" || String.eqb k "patternProperties")%bool.

  (** The document with every reference absolute. *)
  Fixpoint resolve (base : string) (v : value) : value :=
    match v with
    | VArr l => VArr (map (resolve base) l)
    | VMap m =>
        let b := scope base m in
        VMap (map (fun e =>
          (fst e,
           if is_literal (fst e) then snd e
           else if is_schema_map (fst e) then
             match snd e with
             | VMap c => VMap (map (fun e' => (fst e', resolve b (snd e'))) c)
             | _ => snd e
             end
           else
             match snd e with
             | VStr s => if String.eqb (fst e) "$ref" then VStr (absolute b s) else VStr s
             | _ => resolve b (snd e)
             end)) m)
    | _ => v
    end.

  (** The identifiers declared in it, with the (resolved) schema each names. *)
  Fixpoint ids_of (base : string) (v : value) : list (string * value) :=
    match v with
    | VArr l => flat_map (ids_of base) l
    | VMap m =>
        let b := scope base m in
        match new_scope base m with Some r => [(r, resolve base v)] | None => [] end ++
        flat_map (fun e =>
           if is_literal (fst e) then []
           else if is_schema_map (fst e) then
             match snd e with
             | VMap c => flat_map (fun e' => ids_of b (snd e')) c
             | _ => []
             end
           else ids_of b (snd e)) m
    | _ => []
    end.
End Resolve.
