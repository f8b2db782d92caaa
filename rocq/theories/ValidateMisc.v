(** Keywords of one type against values of another (C17), context strings
    (C37), AddError (C43). *)
From Verif Require Export JsonDecode ModelTemplate.

(** ** Keywords of one type leave values of the other types alone *)

(** [n] with its numeric, string, array and object keywords replaced. *)
Definition with_numeric (n : node) (mo mx xmx mn xmn : option Q) : node :=
  Node (n_property n) (n_pass n) (n_types n) (n_ref n) (n_items n) (n_items_single n) (n_props n)
    mo mx xmx mn xmn
    (n_minLength n) (n_maxLength n) (n_pattern n) (n_format n) (n_minProperties n) (n_maxProperties n)
    (n_required n) (n_dependencies n) (n_additionalProperties n) (n_patternProperties n) (n_propertyNames n)
    (n_minItems n) (n_maxItems n) (n_uniqueItems n) (n_contains n) (n_additionalItems n)
    (n_const n) (n_enum n) (n_oneOf n) (n_anyOf n) (n_allOf n) (n_not n) (n_if n) (n_then n) (n_else n).

Definition with_string (n : node) (mn mx : option Z) (p : option string) : node :=
  Node (n_property n) (n_pass n) (n_types n) (n_ref n) (n_items n) (n_items_single n) (n_props n)
    (n_multipleOf n) (n_maximum n) (n_exclusiveMaximum n) (n_minimum n) (n_exclusiveMinimum n)
    mn mx p (n_format n) (n_minProperties n) (n_maxProperties n)
    (n_required n) (n_dependencies n) (n_additionalProperties n) (n_patternProperties n) (n_propertyNames n)
    (n_minItems n) (n_maxItems n) (n_uniqueItems n) (n_contains n) (n_additionalItems n)
    (n_const n) (n_enum n) (n_oneOf n) (n_anyOf n) (n_allOf n) (n_not n) (n_if n) (n_then n) (n_else n).

Definition with_array (n : node) (items : list nat) (single : bool) (mn mx : option Z) (u : bool)
                      (ct : option nat) (ai : option addl) : node :=
  Node (n_property n) (n_pass n) (n_types n) (n_ref n) items single (n_props n)
    (n_multipleOf n) (n_maximum n) (n_exclusiveMaximum n) (n_minimum n) (n_exclusiveMinimum n)
    (n_minLength n) (n_maxLength n) (n_pattern n) (n_format n) (n_minProperties n) (n_maxProperties n)
    (n_required n) (n_dependencies n) (n_additionalProperties n) (n_patternProperties n) (n_propertyNames n)
    mn mx u ct ai
    (n_const n) (n_enum n) (n_oneOf n) (n_anyOf n) (n_allOf n) (n_not n) (n_if n) (n_then n) (n_else n).

Definition with_object (n : node) (props : list nat) (mn mx : option Z) (rq : list string)
                       (dp : list (string * dep)) (ap : option addl) (pp : list (string * nat))
                       (pn : option nat) : node :=
  Node (n_property n) (n_pass n) (n_types n) (n_ref n) (n_items n) (n_items_single n) props
    (n_multipleOf n) (n_maximum n) (n_exclusiveMaximum n) (n_minimum n) (n_exclusiveMinimum n)
    (n_minLength n) (n_maxLength n) (n_pattern n) (n_format n) mn mx
    rq dp ap pp pn
    (n_minItems n) (n_maxItems n) (n_uniqueItems n) (n_contains n) (n_additionalItems n)
    (n_const n) (n_enum n) (n_oneOf n) (n_anyOf n) (n_allOf n) (n_not n) (n_if n) (n_then n) (n_else n).

Definition is_num (v : value) : Prop := match v with VNum _ => True | _ => False end.
Definition is_str (v : value) : Prop := match v with VStr _ => True | _ => False end.
Definition is_arr (v : value) : Prop := match v with VArr _ => True | _ => False end.
Definition is_obj (v : value) : Prop := match v with VMap _ | VIMap _ => True | _ => False end.

Section Isolation.
  Variable env : goenv.
  Variable h : heap.
  Variable rec : oracle -> nat -> value -> ctx -> out result.

  Lemma numeric_isolated o n a b c d e v x : ~ is_num v ->
    validateNode env h rec o (with_numeric n a b c d e) v x = validateNode env h rec o n v x.
  Proof. intros H. destruct v; try (exfalso; apply H; exact I); reflexivity. Qed.

  Lemma string_isolated o n a b c v x : ~ is_str v ->
    validateNode env h rec o (with_string n a b c) v x = validateNode env h rec o n v x.
  Proof. intros H. destruct v; try (exfalso; apply H; exact I); reflexivity. Qed.

  Lemma array_isolated o n a b c d e f g v x : ~ is_arr v ->
    validateNode env h rec o (with_array n a b c d e f g) v x = validateNode env h rec o n v x.
  Proof. intros H. destruct v; try (exfalso; apply H; exact I); reflexivity. Qed.

  (** "dependencies" makes the library evaluate numbers (isKind, utils.go:37),
      so a number has to be within the exponent limit of big.Rat. *)
  Lemma object_isolated o n a b c d e f g i v x : ~ is_obj v ->
    (forall s, v = VNum s -> rat_of (e_ratlim env) s <> None) ->
    validateNode env h rec o (with_object n a b c d e f g i) v x = validateNode env h rec o n v x.
  Proof.
    intros H Hr.
    assert (Hd : forall o' n', v_dependencies env rec o' n' v x = Ok new_result).
    { intros o' n'. unfold v_dependencies. destruct (n_dependencies n'); auto.
      destruct v; try (exfalso; apply H; exact I); auto.
      simpl. match goal with |- context [rat_of _ ?q] => specialize (Hr q eq_refl) end.
      destruct (rat_of _ _); [reflexivity|congruence]. }
    destruct v; try (exfalso; apply H; exact I); unfold validateNode, scalar_checks, validateSchema;
      rewrite ?Hd; reflexivity.
  Qed.
End Isolation.

(** ** Context strings *)


Lemma concat_app_one del l x : l <> [] ->
  String.concat del (l ++ [x]) = append (String.concat del l) (append del x).
Proof.
  induction l as [|a l IH]; [tauto|]. intros _. destruct l as [|b l].
  - reflexivity.
  - change ((a :: b :: l) ++ [x]) with (a :: ((b :: l) ++ [x])).
    assert (E : String.concat del (a :: (b :: l) ++ [x]) =
                append a (append del (String.concat del ((b :: l) ++ [x])))) by reflexivity.
    rewrite E, IH by discriminate.
    change (String.concat del (a :: b :: l)) with (append a (append del (String.concat del (b :: l)))).
    rewrite !append_assoc. reflexivity.
Qed.

Lemma ctx_write_concat del c : ctx_write del c = String.concat del (rev c).
Proof.
  induction c as [|x c IH]; [reflexivity|]. destruct c as [|y c]; [reflexivity|].
  change (ctx_write del (x :: y :: c)) with (append (ctx_write del (y :: c)) (append del x)).
  rewrite IH. change (rev (x :: y :: c)) with (rev (y :: c) ++ [x]).
  rewrite concat_app_one; auto. simpl. destruct (rev c); discriminate.
Qed.

Lemma strip_prefix_append p s : strip_prefix p (append p s) = Some s.
Proof. induction p; simpl; auto. rewrite Ascii.eqb_refl. auto. Qed.

(** Field() of a path below the root is the path without "(root)."; of the root
    itself it is "(root)". *)
Lemma field_of_path p path :
  field_of (rev (STRING_CONTEXT_ROOT :: p :: path)) = String.concat "." (p :: path).
Proof.
  unfold field_of, ctx_string, trim_prefix. rewrite ctx_write_concat, rev_involutive.
  change (String.concat "." (STRING_CONTEXT_ROOT :: p :: path)) with
    (append STRING_CONTEXT_ROOT (append "." (String.concat "." (p :: path)))).
  rewrite append_assoc.
  change (append STRING_CONTEXT_ROOT ".") with (append STRING_ROOT_SCHEMA_PROPERTY ".").
  rewrite strip_prefix_append. reflexivity.
Qed.

(** ** AddError, result.go:195-204 *)

Lemma AddError_appends show es e m :
  exists d', AddError show es e (Some m) = Ok (es ++ [Described e (render show (ue_format e) d')]) /\
    (forall k, k <> "context" -> assoc k d' = assoc k m) /\
    assoc "context" d' = match assoc "context" m, ue_ctx e with
                         | None, Some c => Some (DStr (ctx_string [] c))
                         | x, _ => x
                         end.
Proof.
  unfold AddError. simpl. destruct (assoc "context" m) eqn:Em.
  - exists m. simpl. auto.
  - destruct (ue_ctx e) as [c|].
    + exists (aset "context" (DStr (ctx_string [] c)) m). split; [reflexivity|].
      rewrite assoc_aset. split; auto. intros k Hk. rewrite assoc_aset. destruct (String.eqb_spec k "context"); congruence.
    + exists m. auto.
Qed.
