(** A concrete world used by the examples: a few lines of URL handling, a
    regexp engine that looks for a literal substring, and one format. *)
From Verif Require Export Run.
Open Scope string_scope.

Fixpoint cut_hash (s : string) : string :=
  match s with
  | EmptyString => EmptyString
  | String c r => if Ascii.eqb c "#" then EmptyString else String c (cut_hash r)
  end.
Fixpoint after_hash (s : string) : string :=
  match s with
  | EmptyString => EmptyString
  | String c r => if Ascii.eqb c "#" then r else after_hash r
  end.
Fixpoint has_sub (p s : string) : bool :=
  match s with
  | EmptyString => String.eqb p ""
  | String _ r => String.prefix p s || has_sub p r
  end.
(** Up to and including the last "/". *)
Fixpoint dir_of (s : string) : string :=
  match s with
  | EmptyString => EmptyString
  | String c r =>
      if (Ascii.eqb c "/" || has_sub "/" r)%bool then String c (dir_of r) else EmptyString
  end.

Definition go0 : goenv := GoEnv 1000000 (fun p => negb (has_sub "(" p)) (fun p s => has_sub p s)
  (fun f v => match v with VStr s => negb (String.eqb f "nonempty" && String.eqb s "") | _ => true end).

(** A URL whose fragment is empty loses its "#". *)
Definition parse0 (s : string) : option string :=
  if String.prefix ":" s then None
  else Some (if String.eqb (after_hash s) "" then cut_hash s else s).
Definition inherits0 (p c : string) : option string :=
  if has_sub "://" c then Some c
  else if String.eqb (cut_hash c) "" then Some (append (cut_hash p) c)
  else Some (append (dir_of (cut_hash p)) c).
Definition file0 (r : string) : option (option string) :=
  match strip_prefix "file://" r with Some p => Some (Some p) | None => None end.

Definition world0 : world :=
  World go0 parse0 inherits0 cut_hash after_hash (fun s => has_sub "://" (cut_hash s)) file0
        (fun _ _ => None) (fun _ => None) (fun _ => "").

(** Iterate every map backwards. *)
Definition backwards : oracle := fun _ _ l => rev l.
Lemma backwards_fair : fair backwards.
Proof. intros p A l. apply Permutation_rev. Qed.

Definition FUEL := 400.
Definition loaded (s : string) : value := match decode_use_number s with Some v => v | None => VNil end.
(** The graph NewSchema(NewStringLoader(s)) builds, [] if it fails. *)
Definition graph (s : string) : heap :=
  match NewSchema world0 FUEL in_order (LString s) with LOk x _ => s_heap x | _ => [] end.
(** The outcome of NewSchema, and of Validate after it. *)
Definition validate_text (schema instance : string) : out result :=
  validateDocument go0 (graph schema) FUEL in_order 0 (loaded instance).
Definition error_names (x : out result) : list (string * string) :=
  match x with Ok r => map (fun e => (type_name (r_type e), field_of (r_ctx e))) (errors r) | _ => [("no", "result")] end.
