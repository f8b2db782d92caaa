(** Which checks a compiled node may start: the pairs (subschema, value) that
    validation.go can hand to validateRecursive while it is checking one value
    against one node. *)
From Verif Require Export ModelValidate.

Definition opt_list {A} (x : option A) : list A := match x with Some a => [a] | None => [] end.
Definition dep_ids (d : list (string * dep)) : list nat :=
  flat_map (fun e => match snd e with DepSchema id => [id] | DepKeys _ => [] end) d.
Definition addl_ids (a : option addl) : list nat :=
  match a with Some (AddlSchema id) => [id] | _ => [] end.

(** Subschemas applied to the same value, to the items of an array, and to the
    members of an object. *)
Definition same_kids (n : node) : list nat :=
  n_anyOf n ++ n_oneOf n ++ n_allOf n ++ opt_list (n_not n) ++ dep_ids (n_dependencies n) ++
  opt_list (n_if n) ++ opt_list (n_then n) ++ opt_list (n_else n).
Definition item_kids (n : node) : list nat :=
  n_items n ++ addl_ids (n_additionalItems n) ++ opt_list (n_contains n).
Definition member_kids (n : node) : list nat :=
  n_props n ++ map snd (n_patternProperties n) ++ addl_ids (n_additionalProperties n).

Definition same_instance (n : node) : list nat :=
  match n_pass n with
  | Some _ => []
  | None => match n_ref n with Some id => [id] | None => same_kids n end
  end.

(** Every heap cell the node points to. *)
Definition kids (n : node) : list nat :=
  opt_list (n_ref n) ++ same_kids n ++ item_kids n ++ member_kids n ++ opt_list (n_propertyNames n).

(** The cells a check against the node can come to: siblings of a reference and
    of a boolean schema are not looked at. *)
Definition used (n : node) : list nat :=
  match n_pass n with
  | Some _ => []
  | None => match n_ref n with Some id => [id] | None => kids n end
  end.

Inductive calls (n : node) : value -> nat -> value -> Prop :=
| call_same v id : In id (same_kids n) -> calls n v id v
| call_item l id x : In id (item_kids n) -> In x l -> calls n (VArr l) id x
| call_member m id k x : In id (member_kids n) -> In (k, x) m -> calls n (VMap m) id x
| call_name m id k x : n_propertyNames n = Some id -> In (k, x) m -> calls n (VMap m) id (VStr k).

Definition steps (n : node) (v : value) (id : nat) (v' : value) : Prop :=
  n_pass n = None /\
  match n_ref n with Some r => id = r /\ v' = v | None => calls n v id v' end.

(** Everything a run of validateRecursive on (id, v) can be asked to check. *)
Inductive visits (h : heap) (id0 : nat) (v0 : value) : nat -> value -> Prop :=
| visit_here : visits h id0 v0 id0 v0
| visit_step id v n id' v' :
    visits h id0 v0 id v -> nth_error h id = Some n -> steps n v id' v' -> visits h id0 v0 id' v'.

Lemma steps_kid n v id v' : steps n v id v' -> In id (kids n).
Proof.
  intros [_ H]. unfold kids. destruct (n_ref n) as [r|].
  - destruct H as [-> _]. left; auto.
  - simpl. destruct H; rewrite !in_app_iff; auto.
    right; right; right. rewrite H. left; auto.
Qed.
Lemma steps_used n v id v' : steps n v id v' -> In id (used n).
Proof.
  intros H. pose proof (steps_kid _ _ _ _ H) as K. destruct H as [Hp H]. unfold used. rewrite Hp.
  destruct (n_ref n); [destruct H as [-> _]; left; auto|auto].
Qed.
