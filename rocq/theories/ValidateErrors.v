(** Every error produced by validateRecursive points into the value it was
    raised for, and its details are complete. *)
From Verif Require Export ModelTemplate ValidateOrder.

(** [sub_at c v c' w]: starting from value [v] at path [c], following items and
    members leads to value [w] at path [c'].  A YAML map stands for its
    conversion. *)
Inductive sub_at (c : ctx) (v : value) : ctx -> value -> Prop :=
| sub_here : sub_at c v c v
| sub_item c' l i x : sub_at c v c' (VArr l) -> nth_error l i = Some x ->
                      sub_at c v (itoa (Z.of_nat i) :: c') x
| sub_member c' m k x : sub_at c v c' (VMap m) -> In (k, x) m -> sub_at c v (k :: c') x
| sub_conv c' m w : sub_at c v c' (VIMap m) -> convertDocumentNode (VIMap m) = Ok w -> sub_at c v c' w.

(** Where an error may point: the value at its path; the named member of the
    object at its path; or the name of a member of that object. *)
Definition located (c : ctx) (v : value) (e : rerror) : Prop :=
  sub_at c v (r_ctx e) (r_value e)
  \/ (r_type e = AdditionalPropertyNotAllowedError /\
      exists m k, sub_at c v (r_ctx e) (VMap m) /\ In (k, r_value e) m /\
                  assoc "property" (r_details e) = Some (DStr k))
  \/ (exists m k x, sub_at c v (r_ctx e) (VMap m) /\ In (k, x) m /\ r_value e = VStr k).

(** Details are complete for the description. *)
Definition complete (e : rerror) : Prop :=
  assoc "field" (r_details e) = Some (DStr (field_of (r_ctx e))) /\
  assoc "context" (r_details e) = Some (DStr (ctx_string [] (r_ctx e))) /\
  forall x, In x (tvars (default_format (r_type e))) -> assoc x (r_details e) <> None.

Definition fine (c : ctx) (v : value) (e : rerror) : Prop :=
  located c v e /\ complete e /\ r_type e <> InternalError.

Lemma sub_at_trans c v c1 v1 c2 v2 : sub_at c v c1 v1 -> sub_at c1 v1 c2 v2 -> sub_at c v c2 v2.
Proof.
  intros H1 H2. induction H2; auto.
  - eapply sub_item; eauto.
  - eapply sub_member; eauto.
  - eapply sub_conv; eauto.
Qed.

Lemma located_trans c v c1 v1 e : sub_at c v c1 v1 -> located c1 v1 e -> located c v e.
Proof.
  intros H [H1|[(H1 & m & k & H2 & H3)|(m & k & x & H2 & H3)]].
  - left. eapply sub_at_trans; eauto.
  - right; left. split; auto. exists m, k. split; auto. eapply sub_at_trans; eauto.
  - right; right. exists m, k, x. split; auto. eapply sub_at_trans; eauto.
Qed.

Lemma fine_trans c v c1 v1 e : sub_at c v c1 v1 -> fine c1 v1 e -> fine c v e.
Proof. intros H (H1 & H2). split; auto. eapply located_trans; eauto. Qed.

Lemma sub_at_str c k c' w : sub_at c (VStr k) c' w -> c' = c /\ w = VStr k.
Proof.
  induction 1; auto; destruct IHsub_at as [_ E]; discriminate.
Qed.

(** ** Lifting to results *)

Definition all_errors (x : out result) (P : rerror -> Prop) : Prop :=
  forall r, x = Ok r -> Forall P (errors r).

Lemma ae_ok r (P : rerror -> Prop) : Forall P (errors r) -> all_errors (Ok r) P.
Proof. intros H r' [= <-]. auto. Qed.
Lemma ae_new P : all_errors (Ok new_result) P.
Proof. apply ae_ok. constructor. Qed.
Lemma ae_inc P : all_errors (Ok inc) P.
Proof. apply ae_ok. constructor. Qed.
Lemma ae_panic P : all_errors Panic P.
Proof. intros r; discriminate. Qed.
Lemma ae_emit t c v d (P : rerror -> Prop) : P (newError t c v d) -> all_errors (Ok (emit t c v d)) P.
Proof. intros H. apply ae_ok. constructor; auto. Qed.
Lemma ae_run_all l P : Forall (fun x => all_errors x P) l -> all_errors (run_all l) P.
Proof.
  induction 1; simpl; [apply ae_new|]. intros r E.
  destruct x as [a| |]; simpl in E; try discriminate.
  destruct (run_all l) as [b| |]; simpl in E; try discriminate. injection E as <-. simpl.
  apply Forall_app. split; [apply H; auto|apply IHForall; auto].
Qed.
Lemma ae_when b x P : all_errors x P -> all_errors (when b x) P.
Proof. destruct b; auto. intros _. apply ae_new. Qed.
Lemma ae_bind {A} (x : out A) f P : (forall a, x = Ok a -> all_errors (f a) P) -> all_errors (obind x f) P.
Proof. intros H r E. destruct x as [a| |]; simpl in E; try discriminate. exact (H a eq_refl r E). Qed.
Lemma ae_impl x (P Q : rerror -> Prop) : (forall e, P e -> Q e) -> all_errors x P -> all_errors x Q.
Proof. intros H Hx r E. eapply Forall_impl; eauto. Qed.

Lemma ae_mapi {A} (f : nat -> A -> out result) (P : rerror -> Prop) l :
  (forall i a, In a l -> all_errors (f i a) P) -> forall i, Forall (fun x => all_errors x P) (mapi f i l).
Proof.
  induction l; intros H i; simpl; constructor; [apply H; left; auto|].
  apply IHl. intros. apply H. right; auto.
Qed.

Lemma ae_mapi_nth {A} (f : nat -> A -> out result) (P : rerror -> Prop) l :
  forall i, (forall j a, nth_error l j = Some a -> all_errors (f (i + j) a) P) ->
  Forall (fun x => all_errors x P) (mapi f i l).
Proof.
  induction l; intros i H; simpl; constructor.
  - replace i with (i + 0) by lia. apply H. auto.
  - apply IHl. intros j b Hb. replace (S i + j) with (i + S j) by lia. apply H. auto.
Qed.

Lemma ae_map {A} (f : A -> out result) (P : rerror -> Prop) l :
  (forall a, all_errors (f a) P) -> Forall (fun x => all_errors x P) (map f l).
Proof. intros H. induction l; simpl; constructor; auto. Qed.

Lemma ae_first_valid P l : Forall (fun x => all_errors x P) l -> forall b p,
  (forall r, b = Some r -> Forall P (errors r)) -> first_valid b l = Ok p ->
  forall r, snd p = Some r -> Forall P (errors r).
Proof.
  induction 1; intros b p Hb; simpl.
  - intros [= <-]. auto.
  - destruct x as [a| |]; simpl; try discriminate. destruct (Valid a).
    + intros [= <-]. auto.
    + apply IHForall. intros r. destruct b as [b|]; [destruct (_ <? _)%Z|];
        intros [= <-]; auto; apply H; auto.
Qed.

Lemma ae_count_valid P l : Forall (fun x => all_errors x P) l -> forall n b p,
  (forall r, b = Some r -> Forall P (errors r)) -> count_valid n b l = Ok p ->
  forall r, snd p = Some r -> Forall P (errors r).
Proof.
  induction 1; intros n b p Hb; simpl.
  - intros [= <-]. auto.
  - destruct x as [a| |]; simpl; try discriminate. destruct (Valid a).
    + apply IHForall; auto.
    + apply IHForall. intros r. destruct (Nat.eqb n 0); auto. destruct b as [b|]; [destruct (_ <? _)%Z|];
        intros [= <-]; auto; apply H; auto.
Qed.

Lemma ae_merge_all P l : Forall (fun x => all_errors x P) l -> forall p, merge_all l = Ok p ->
  Forall P (errors (snd p)).
Proof.
  induction 1; intros p; simpl.
  - intros [= <-]. constructor.
  - destruct x as [a| |]; simpl; try discriminate.
    destruct (merge_all l) as [q| |] eqn:E; simpl; try discriminate. intros [= <-]. simpl.
    apply Forall_app. split; [apply H; auto|apply IHForall; auto].
Qed.

Section NodeErrors.
  Variable env : goenv.
  Variable h : heap.
  Variable rec : oracle -> nat -> value -> ctx -> out result.
  Hypothesis Hrec : forall o id v c, fair o -> all_errors (rec o id v c) (fine c v).

  Hint Resolve shift_fair ae_new ae_inc ae_panic ae_when ae_emit : ae.

  (** An error raised for the value at hand. *)
  Definition details_ok (t : etype) (d : details) : bool :=
    negb (existsb (fun e => String.eqb (fst e) "context" || String.eqb (fst e) "field") d) &&
    forallb (fun x => String.eqb x "field" || String.eqb x "context" || existsb (fun e => String.eqb x (fst e)) d)
            (tvars (default_format t)) &&
    match t with InternalError => false | _ => true end.

  Lemma assoc_aset_same {A} k (x : A) m : assoc k (aset k x m) = Some x.
  Proof.
    induction m as [|[k' y] m IH]; simpl; [rewrite String.eqb_refl; auto|].
    destruct (String.eqb k k') eqn:E; simpl; [rewrite String.eqb_refl; auto|rewrite E; auto].
  Qed.
  Lemma assoc_aset_other {A} k k' (x : A) m : k <> k' -> assoc k (aset k' x m) = assoc k m.
  Proof.
    intros Hk. induction m as [|[k2 y] m IH]; simpl.
    - destruct (String.eqb_spec k k'); congruence.
    - destruct (String.eqb_spec k' k2); simpl.
      + subst. destruct (String.eqb_spec k k2); congruence.
      + rewrite IH. auto.
  Qed.

  Lemma assoc_None_existsb {A} k (d : list (string * A)) :
    existsb (fun e => String.eqb k (fst e)) d = true -> assoc k d <> None.
  Proof.
    induction d as [|[k' y] d IH]; simpl; [discriminate|].
    destruct (String.eqb k k'); [discriminate|]. auto.
  Qed.

  Lemma newError_complete t c v d : details_ok t d = true ->
    complete (newError t c v d) /\ r_type (newError t c v d) <> InternalError.
  Proof.
    unfold details_ok. rewrite !andb_true_iff, negb_true_iff. intros ((H1 & H2) & H3).
    assert (Hc : assoc "context" d = None).
    { clear - H1. induction d as [|[k y] d IH]; auto. cbn [existsb fst] in H1. apply orb_false_iff in H1.
      destruct H1 as [H1 H2]. apply orb_false_iff in H1. destruct H1 as [H1 _]. cbn [assoc].
      rewrite String.eqb_sym, H1. auto. }
    split; [|destruct t; simpl in *; discriminate || congruence].
    unfold complete, newError. rewrite (assoc_aset_other "context" "field") by discriminate.
    rewrite Hc. cbn [r_details r_ctx r_type].
    rewrite (assoc_aset_other "field" "context") by discriminate.
    rewrite !assoc_aset_same. split; auto. split; auto.
    intros x Hx. rewrite forallb_forall in H2. specialize (H2 x Hx).
    rewrite !orb_true_iff in H2.
    destruct (String.eqb_spec x "context"); [subst; rewrite assoc_aset_same; discriminate|].
    rewrite assoc_aset_other by auto.
    destruct (String.eqb_spec x "field"); [subst; rewrite assoc_aset_same; discriminate|].
    rewrite assoc_aset_other by auto.
    destruct H2 as [[H2|H2]|H2]; try discriminate. apply assoc_None_existsb; auto.
  Qed.

  Lemma here t c v d : details_ok t d = true -> fine c v (newError t c v d).
  Proof. intros H. split; [left; constructor|apply newError_complete; auto]. Qed.

  Lemma ae_here t c v d : details_ok t d = true -> all_errors (Ok (emit t c v d)) (fine c v).
  Proof. intros H. apply ae_emit, here; auto. Qed.

  (** details_ok does not depend on the values, only on the keys. *)
  Ltac here := apply ae_here; reflexivity.

  Lemma ae_sub o id v c c' x : fair o -> sub_at c v c' x -> all_errors (rec o id x c') (fine c v).
  Proof. intros F H. eapply ae_impl; [|apply Hrec; auto]. intros e. apply fine_trans; auto. Qed.

  Lemma ae_anyOf o n v c : fair o -> all_errors (v_anyOf rec o n v c) (fine c v).
  Proof.
    intros F. unfold v_anyOf. destruct (n_anyOf n) as [|i l] eqn:En; auto with ae.
    apply ae_bind. intros p Ep. destruct (fst p); auto with ae.
    apply ae_run_all. constructor; [here|]. constructor; [|constructor].
    unfold merge_best_opt. destruct (snd p) eqn:Es; auto with ae.
    apply ae_ok. eapply ae_first_valid; [| |exact Ep|exact Es]; [|discriminate].
    apply ae_mapi. intros. apply Hrec; auto with ae.
  Qed.

  Lemma ae_oneOf o n v c : fair o -> all_errors (v_oneOf rec o n v c) (fine c v).
  Proof.
    intros F. unfold v_oneOf. destruct (n_oneOf n) as [|i l] eqn:En; auto with ae.
    apply ae_bind. intros p Ep. destruct (Nat.eqb (fst p) 1); auto with ae.
    apply ae_run_all. constructor; [here|]. constructor; [|constructor]. apply ae_when.
    unfold merge_best. destruct (snd p) eqn:Es; auto with ae.
    apply ae_ok. eapply ae_count_valid; [| |exact Ep|exact Es]; [|discriminate].
    apply ae_mapi. intros. apply Hrec; auto with ae.
  Qed.

  Lemma ae_allOf o n v c : fair o -> all_errors (v_allOf rec o n v c) (fine c v).
  Proof.
    intros F. unfold v_allOf. destruct (n_allOf n) as [|i l] eqn:En; auto with ae.
    apply ae_bind. intros p Ep. apply ae_run_all.
    constructor; [|constructor; [apply ae_when; here|constructor]].
    apply ae_ok. eapply ae_merge_all; [|exact Ep].
    apply ae_mapi. intros. apply Hrec; auto with ae.
  Qed.

  Lemma ae_dependencies o n v c : fair o -> all_errors (v_dependencies env rec o n v c) (fine c v).
  Proof.
    intros F. unfold v_dependencies. destruct (n_dependencies n) as [|i l] eqn:En; auto with ae.
    apply ae_bind. intros [|] Ep; auto with ae. destruct v; auto with ae.
    apply ae_run_all, ae_mapi. intros j e _. unfold v_dependency.
    destruct (assoc _ _) as [[ks|id]|]; auto with ae.
    apply ae_run_all, ae_map. intros k. destruct (assoc k m); auto with ae. here.
  Qed.

  Lemma ae_if o n v c : fair o -> all_errors (v_if rec o n v c) (fine c v).
  Proof.
    intros F. unfold v_if. destruct (n_if n); auto with ae.
    apply ae_bind. intros r Er. apply ae_run_all.
    assert (H : forall k t et, details_ok et [] = true -> all_errors
      (do rt <- rec (shift o k) t v c;
       when (negb (Valid rt)) (run_all [Ok (emit et c v []); Ok rt])) (fine c v)).
    { intros k t et Het. apply ae_bind. intros rt Et. apply ae_when, ae_run_all.
      constructor; [apply ae_here; auto|]. constructor; [|constructor].
      apply ae_ok. eapply (Hrec _ _ _ _ (shift_fair _ k F)); eauto. }
    constructor; [|constructor; [|constructor]].
    - destruct (n_then n); [apply ae_when, H; reflexivity|apply ae_new].
    - destruct (n_else n); [apply ae_when, H; reflexivity|apply ae_new].
  Qed.

  Lemma ae_not o n v c : all_errors (v_not rec o n v c) (fine c v).
  Proof. unfold v_not. destruct (n_not n); auto with ae. apply ae_bind. intros r _. apply ae_when. here. Qed.

  Lemma ae_validateSchema o n v c : fair o -> all_errors (validateSchema env rec o n v c) (fine c v).
  Proof.
    intros F. unfold validateSchema. apply ae_run_all.
    repeat (constructor; [auto using ae_anyOf, ae_oneOf, ae_allOf, ae_not, ae_dependencies, ae_if with ae|]).
    constructor.
  Qed.

  Lemma ae_validateCommon n v c : all_errors (validateCommon env n v c) (fine c v).
  Proof.
    unfold validateCommon. apply ae_run_all.
    constructor; [|constructor; [|constructor; [|constructor; [auto with ae|constructor]]]].
    - unfold v_const. destruct (n_const n); auto with ae.
      destruct (marshalWithoutNumber v); auto with ae. apply ae_when. here.
    - unfold v_enum. destruct (n_enum n); auto with ae.
      destruct (marshalWithoutNumber v); auto with ae. apply ae_when. here.
    - unfold v_format. destruct (String.eqb _ _); auto with ae. apply ae_when. here.
  Qed.

  Lemma ae_item o c l id i x : fair o -> nth_error l i = Some x ->
    all_errors (v_item rec o c id i x) (fine c (VArr l)).
  Proof.
    intros F H. unfold v_item. apply ae_sub; auto with ae.
    eapply sub_item; [constructor|auto].
  Qed.

  Lemma ae_items_zip o c whole ids : forall l i, fair o ->
    (forall j x, nth_error l j = Some x -> nth_error whole (i + j) = Some x) ->
    Forall (fun x => all_errors x (fine c (VArr whole))) (v_items_zip rec o c i ids l).
  Proof.
    induction ids as [|id ids IH]; intros [|x l] i F H; simpl; constructor.
    - apply ae_item; auto. replace i with (i + 0) by lia. apply H. auto.
    - apply IH; auto. intros j y Hy. replace (S i + j) with (i + S j) by lia. apply H. auto.
  Qed.

  Lemma ae_unique c w : forall l seen j, all_errors (unique_loop c w seen j l) (fine c w).
  Proof.
    induction l as [|x l IH]; intros seen j; simpl; auto with ae.
    destruct (marshalWithoutNumber x); auto with ae.
    apply ae_bind. intros r Er. apply ae_ok. simpl. apply Forall_app. split; [|eapply IH; eauto].
    destruct (assoc s seen); simpl; [|constructor]. constructor; [|constructor]. apply here. reflexivity.
  Qed.

  Lemma nth_error_skipn {A} (l : list A) k j : nth_error (skipn k l) j = nth_error l (k + j).
  Proof. revert l. induction k; intros [|x l]; simpl; auto. destruct j; auto. Qed.

  Lemma ae_validateArray o n l c : fair o -> all_errors (validateArray rec o n l c) (fine c (VArr l)).
  Proof.
    intros F. unfold validateArray. apply ae_run_all.
    constructor; [|constructor; [|constructor; [|constructor; [|constructor; [|constructor; [auto with ae|constructor]]]]]].
    - unfold v_items. destruct (n_items_single n).
      + destruct (n_items n); [destruct l; auto with ae|].
        apply ae_run_all, ae_mapi_nth. intros. apply ae_item; auto with ae.
      + destruct (n_items n); auto with ae. apply ae_run_all.
        constructor; [|constructor; [|constructor]].
        * apply ae_run_all, ae_items_zip; auto with ae.
        * apply ae_when. destruct (n_additionalItems n) as [[[|]|id]|]; auto with ae; [here|].
          apply ae_run_all, ae_mapi_nth. intros j a Ha. apply ae_item; auto with ae.
          rewrite nth_error_skipn in Ha. auto.
    - unfold v_minItems. destruct (n_minItems n); auto with ae. apply ae_when. here.
    - unfold v_maxItems. destruct (n_maxItems n); auto with ae. apply ae_when. here.
    - unfold v_uniqueItems. apply ae_when, ae_unique.
    - unfold v_contains. destruct (n_contains n); auto with ae.
      apply ae_bind. intros p Ep. destruct (fst p); auto with ae.
      apply ae_run_all. constructor; [here|]. constructor; [|constructor].
      unfold merge_best_opt. destruct (snd p) eqn:Es; auto with ae.
      apply ae_ok. eapply ae_first_valid; [| |exact Ep|exact Es]; [|discriminate].
      apply ae_mapi_nth. intros. apply ae_item; auto with ae.
  Qed.

  Lemma ae_pattern o n k x c m p : fair o -> In (k, x) m ->
    validatePatternProperty env rec o n k x c = Ok p -> Forall (fine c (VMap m)) (errors (snd p)).
  Proof.
    intros F Hin. unfold validatePatternProperty. set (hits := filter _ _).
    destruct (run_all _) as [r| |] eqn:Er; simpl; try discriminate.
    assert (Hr : Forall (fine c (VMap m)) (errors r)).
    { refine (ae_run_all _ _ (ae_mapi _ _ _ _ 0) r Er). intros i e _. apply ae_sub; auto with ae.
      eapply sub_member; [constructor|eauto]. }
    destruct hits; intros [= <-]; simpl; auto. rewrite app_nil_r. auto.
  Qed.

  Lemma ae_member o n c m k x : fair o -> In (k, x) m ->
    all_errors (v_member env h rec o n c (k, x)) (fine c (VMap m)).
  Proof.
    intros F Hin. unfold v_member. apply ae_bind. intros found _. apply ae_bind. intros p Ep.
    apply ae_bind. intros r Er. apply ae_ok. simpl. apply Forall_app. split.
    - eapply ae_pattern; [|exact Hin|exact Ep]. auto with ae.
    - destruct (_ && _)%bool; [|injection Er as <-; constructor].
      destruct (n_additionalProperties n) as [[[|]|id]|]; try (injection Er as <-; constructor; fail).
      + injection Er as <-. constructor; [|constructor]. split; [|apply newError_complete; reflexivity].
        right; left. split; auto. exists m, k. split; [constructor|]. split; auto.
      + refine (ae_sub _ _ _ _ _ _ (shift_fair _ 1 F) _ r Er).
        eapply sub_member; [constructor|eauto].
  Qed.

  Lemma ae_validateObject o n m c : fair o -> all_errors (validateObject env h rec o n m c) (fine c (VMap m)).
  Proof.
    intros F. unfold validateObject. apply ae_run_all.
    assert (Hpick : forall o' e, fair o' -> In e (pick o' m) -> In e m).
    { intros o' e F' H. eapply Permutation_in; [symmetry; apply pick_perm; eauto|auto]. }
    constructor; [|constructor; [|constructor; [|constructor; [|constructor; [|constructor; [auto with ae|constructor]]]]]].
    - unfold v_minProperties. destruct (n_minProperties n); auto with ae. apply ae_when. here.
    - unfold v_maxProperties. destruct (n_maxProperties n); auto with ae. apply ae_when. here.
    - unfold v_required. apply ae_run_all, ae_map. intros k. destruct (assoc k m); auto with ae. here.
    - unfold v_members. apply ae_run_all, ae_mapi. intros i [k x] Hin. apply ae_member; auto with ae.
      eapply Hpick; [|eauto]; auto with ae.
    - unfold v_propertyNames. destruct (n_propertyNames n) as [id|]; auto with ae.
      apply ae_run_all, ae_mapi. intros i [k x] Hin. apply Hpick in Hin; auto with ae. simpl fst.
      apply ae_bind. intros r Er. apply ae_when, ae_run_all. constructor; [here|].
      constructor; [|constructor]. apply ae_ok.
      eapply Forall_impl; [|eapply (Hrec _ _ _ _ (shift_fair _ (S i) (shift_fair _ 1 F))); eauto].
      simpl. intros e (L & C). split; auto.
      destruct L as [H1|[(H1 & m' & k' & H2 & H3)|(m' & k' & x' & H2 & H3)]];
        apply sub_at_str in H1 || apply sub_at_str in H2.
      + destruct H1 as [E1 E2]. right; right. exists m, k, x. rewrite E1, E2. split; [constructor|auto].
      + destruct H2; discriminate.
      + destruct H2; discriminate.
  Qed.

  Lemma ae_validateNumber n v c : all_errors (validateNumber env n v c) (fine c v).
  Proof.
    unfold validateNumber. destruct v; auto with ae.
    apply ae_run_all. repeat (constructor; [unfold v_multipleOf, v_bound|]); try constructor; auto with ae.
    - destruct (n_multipleOf n); auto with ae. destruct (rat_of _ _); auto with ae.
      destruct (Qeq_bool _ _); auto with ae. apply ae_when. here.
    - destruct (n_maximum n); auto with ae. destruct (rat_of _ _); auto with ae. apply ae_when; here.
    - destruct (n_exclusiveMaximum n); auto with ae. destruct (rat_of _ _); auto with ae. apply ae_when; here.
    - destruct (n_minimum n); auto with ae. destruct (rat_of _ _); auto with ae. apply ae_when; here.
    - destruct (n_exclusiveMinimum n); auto with ae. destruct (rat_of _ _); auto with ae. apply ae_when; here.
  Qed.

  Lemma ae_validateString n v c : all_errors (validateString env n v c) (fine c v).
  Proof.
    unfold validateString. destruct v; simpl; auto with ae.
    unfold v_string_checks. apply ae_run_all.
    constructor; [|constructor; [|constructor; [|constructor; [auto with ae|constructor]]]].
    - destruct (n_minLength n); auto with ae. apply ae_when; here.
    - destruct (n_maxLength n); auto with ae. apply ae_when; here.
    - destruct (n_pattern n); auto with ae. apply ae_when; here.
  Qed.

  Lemma ae_scalar o n v c : fair o -> all_errors (scalar_checks env rec o n v c) (fine c v).
  Proof.
    intros F. unfold scalar_checks. apply ae_run_all.
    repeat (constructor; [auto using ae_validateSchema, ae_validateNumber, ae_validateCommon, ae_validateString with ae|]).
    constructor.
  Qed.

  Lemma ae_object_checks o n m c : fair o -> all_errors (object_checks env h rec o n m c) (fine c (VMap m)).
  Proof.
    intros F. unfold object_checks. apply ae_run_all.
    constructor; [auto using ae_validateSchema with ae|].
    constructor; [auto using ae_validateObject with ae|].
    constructor; [auto using ae_validateCommon with ae|].
    constructor; [|constructor; [auto with ae|constructor]].
    apply ae_run_all, ae_mapi. intros i id _. unfold v_property.
    apply ae_bind. intros p _. destruct (assoc p m) eqn:Ea; auto with ae.
    apply ae_sub; auto with ae. eapply sub_member; [constructor|]. apply assoc_In; auto.
  Qed.

  Lemma ae_type_error n v c g : all_errors (type_error n v c g) (fine c v).
  Proof. unfold type_error. here. Qed.

  Lemma ae_validateNode o n v c : fair o -> all_errors (validateNode env h rec o n v c) (fine c v).
  Proof.
    intros F. unfold validateNode.
    destruct (n_pass n) as [[|]|]; auto with ae; [here|].
    destruct (n_ref n); auto.
    destruct v; cbn [IsTyped];
      try (destruct (_ && _)%bool; [apply ae_type_error|]); auto using ae_scalar with ae.
    - apply ae_run_all. repeat (constructor; [auto using ae_validateSchema, ae_validateCommon with ae|]). constructor.
    - apply ae_run_all. repeat (constructor; [auto using ae_validateSchema, ae_validateCommon, ae_validateArray with ae|]). constructor.
    - apply ae_object_checks; auto.
    - apply ae_bind. intros w Ew. destruct w; auto with ae.
      eapply ae_impl; [|apply ae_object_checks; auto]. intros e. apply fine_trans.
      eapply sub_conv; [constructor|eauto].
  Qed.
End NodeErrors.

Theorem validateRecursive_fine env h : forall k o id v c, fair o ->
  all_errors (validateRecursive env h k o id v c) (fine c v).
Proof.
  induction k as [|k IH]; intros o id v c F; simpl.
  - intros r; discriminate.
  - destruct (nth_error h id); [|apply ae_panic]. apply ae_validateNode; auto.
Qed.
