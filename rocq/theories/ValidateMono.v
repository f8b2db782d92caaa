(** More fuel never changes an outcome: validateRecursive is monotone. *)
From Verif Require Export ModelValidate.

Definition le_out {A} (x y : out A) : Prop := x = NoFuel \/ x = y.

Lemma le_out_refl {A} (x : out A) : le_out x x.
Proof. right; reflexivity. Qed.
#[export] Hint Resolve le_out_refl : le_out.

Lemma le_bind {A B} (x y : out A) (f g : A -> out B) :
  le_out x y -> (forall a, le_out (f a) (g a)) -> le_out (obind x f) (obind y g).
Proof.
  intros [-> | ->] H; [left; reflexivity|].
  destruct y; simpl; auto using le_out_refl.
Qed.

Lemma le_run_all l1 l2 : Forall2 le_out l1 l2 -> le_out (run_all l1) (run_all l2).
Proof.
  induction 1; simpl; auto with le_out.
  apply le_bind; auto. intros r. apply le_bind; auto with le_out.
Qed.

Lemma le_first_valid l1 l2 : Forall2 le_out l1 l2 ->
  forall b, le_out (first_valid b l1) (first_valid b l2).
Proof.
  induction 1; intros b; simpl; auto with le_out.
  apply le_bind; auto. intros r. destruct (Valid r); auto with le_out.
Qed.

Lemma le_count_valid l1 l2 : Forall2 le_out l1 l2 ->
  forall n b, le_out (count_valid n b l1) (count_valid n b l2).
Proof.
  induction 1; intros n b; simpl; auto with le_out.
  apply le_bind; auto. intros r. destruct (Valid r); auto with le_out.
Qed.

Lemma le_merge_all l1 l2 : Forall2 le_out l1 l2 -> le_out (merge_all l1) (merge_all l2).
Proof.
  induction 1; simpl; auto with le_out.
  apply le_bind; auto. intros r. apply le_bind; auto with le_out.
Qed.

Lemma le_mapi {A} (f g : nat -> A -> out result) l :
  (forall i a, le_out (f i a) (g i a)) -> forall i, Forall2 le_out (mapi f i l) (mapi g i l).
Proof. intros H. induction l; intros i; simpl; constructor; auto. Qed.

Lemma le_map {A} (f g : A -> out result) l :
  (forall a, le_out (f a) (g a)) -> Forall2 le_out (map f l) (map g l).
Proof. intros H. induction l; simpl; constructor; auto. Qed.

Ltac le_step :=
  match goal with
  | |- le_out ?x ?x => apply le_out_refl
  | H : _ |- _ => apply H
  | |- le_out (obind _ _) (obind _ _) => apply le_bind; [|intros ?]
  | |- le_out (run_all _) (run_all _) => apply le_run_all
  | |- le_out (first_valid _ _) (first_valid _ _) => apply le_first_valid
  | |- le_out (count_valid _ _ _) (count_valid _ _ _) => apply le_count_valid
  | |- le_out (merge_all _) (merge_all _) => apply le_merge_all
  | |- Forall2 _ (mapi _ _ _) (mapi _ _ _) => apply le_mapi; intros ? ?
  | |- Forall2 _ (map _ _) (map _ _) => apply le_map; intros ?
  | |- Forall2 _ (_ :: _) (_ :: _) => constructor
  | |- Forall2 _ [] [] => constructor
  | |- le_out (when ?b _) (when ?b _) => unfold when
  | |- le_out (if ?b then _ else _) (if ?b then _ else _) => destruct b
  | |- le_out (match ?x with _ => _ end) (match ?x with _ => _ end) => destruct x
  end.
Ltac le_auto := repeat le_step.

Section Mono.
  Variable env : goenv.
  Variable h : heap.
  Variables rec1 rec2 : oracle -> nat -> value -> ctx -> out result.
  Hypothesis Hrec : forall o id v c, le_out (rec1 o id v c) (rec2 o id v c).

  Lemma le_validateSchema o n v c :
    le_out (validateSchema env rec1 o n v c) (validateSchema env rec2 o n v c).
  Proof.
    unfold validateSchema, v_anyOf, v_oneOf, v_allOf, v_not, v_dependencies, v_dependency, v_if.
    le_auto.
  Qed.

  Lemma le_v_items_zip o c ids : forall i l,
    Forall2 le_out (v_items_zip rec1 o c i ids l) (v_items_zip rec2 o c i ids l).
  Proof.
    induction ids as [|id ids IH]; intros i [|x l]; simpl; constructor; auto.
    apply Hrec.
  Qed.

  Lemma le_validateArray o n l c :
    le_out (validateArray rec1 o n l c) (validateArray rec2 o n l c).
  Proof.
    unfold validateArray, v_items, v_contains.
    unfold v_item. le_auto; apply le_v_items_zip.
  Qed.

  Lemma le_validatePatternProperty o n k v c :
    le_out (validatePatternProperty env rec1 o n k v c) (validatePatternProperty env rec2 o n k v c).
  Proof. unfold validatePatternProperty. le_auto. Qed.

  Lemma le_validateObject o n m c :
    le_out (validateObject env h rec1 o n m c) (validateObject env h rec2 o n m c).
  Proof.
    unfold validateObject, v_members, v_propertyNames, v_member.
    le_auto; apply le_validatePatternProperty.
  Qed.

  Lemma le_scalar_checks o n v c :
    le_out (scalar_checks env rec1 o n v c) (scalar_checks env rec2 o n v c).
  Proof. unfold scalar_checks. le_auto; apply le_validateSchema. Qed.

  Lemma le_object_checks o n m c :
    le_out (object_checks env h rec1 o n m c) (object_checks env h rec2 o n m c).
  Proof.
    unfold object_checks, v_property.
    le_auto; auto using le_validateSchema, le_validateObject with le_out.
  Qed.

  Lemma le_validateNode o n v c :
    le_out (validateNode env h rec1 o n v c) (validateNode env h rec2 o n v c).
  Proof.
    unfold validateNode.
    le_auto; auto using le_validateSchema, le_validateArray, le_scalar_checks, le_object_checks with le_out.
  Qed.
End Mono.

Lemma validateRecursive_mono env h k : forall k' o id v c,
  k <= k' -> le_out (validateRecursive env h k o id v c) (validateRecursive env h k' o id v c).
Proof.
  induction k as [|k IH]; intros k' o id v c Hle; [left; reflexivity|].
  destruct k' as [|k']; [lia|]. simpl.
  destruct (nth_error h id); auto with le_out.
  apply le_validateNode. intros. apply IH. lia.
Qed.

(** An outcome other than NoFuel is the outcome for every larger fuel. *)
Lemma validateRecursive_stable env h k k' o id v c x :
  k <= k' -> validateRecursive env h k o id v c = x -> x <> NoFuel ->
  validateRecursive env h k' o id v c = x.
Proof.
  intros Hle Hx Hn. destruct (validateRecursive_mono env h k k' o id v c Hle) as [E|E]; congruence.
Qed.
