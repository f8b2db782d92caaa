(** When validation cannot panic. *)
From Verif Require Export ValidateTerm.

(** What the compiled node needs to be well formed: every pointer it follows
    leads to a cell, "items" given as one schema really has one, and
    multipleOf is not zero. *)
Definition node_ok (h : heap) (n : node) : Prop :=
  Forall (fun id => id < length h) (kids n) /\
  (n_items_single n = true -> n_items n <> []) /\
  (forall m, n_multipleOf n = Some m -> ~ (m == 0)%Q).
Definition heap_ok (h : heap) : Prop := Forall (node_ok h) h.

(** What the node needs of the value it looks at. *)
Definition marshals (v : value) : Prop := marshalWithoutNumber v <> None.
Definition readable (env : goenv) (v : value) : Prop :=
  match v with VNum s => rat_of (e_ratlim env) s <> None | _ => True end.
Definition has_bounds (n : node) : Prop :=
  n_multipleOf n <> None \/ n_maximum n <> None \/ n_exclusiveMaximum n <> None \/
  n_minimum n <> None \/ n_exclusiveMinimum n <> None.
Definition demands (env : goenv) (n : node) (v : value) : Prop :=
  (n_const n <> None \/ n_enum n <> [] -> marshals v) /\
  (has_bounds n \/ n_dependencies n <> [] -> readable env v) /\
  match v with
  | VArr l => n_uniqueItems n = true -> Forall marshals l
  | VIMap _ => False
  | _ => True
  end.

Definition np {A} (x : out A) : Prop := x <> Panic.

Lemma np_ok {A} (a : A) : np (Ok a).
Proof. discriminate. Qed.
Lemma np_bind {A B} (x : out A) (f : A -> out B) :
  np x -> (forall a, x = Ok a -> np (f a)) -> np (obind x f).
Proof.
  intros Hx Hf. destruct x; simpl; [apply Hf; auto|exfalso; apply Hx; auto|discriminate].
Qed.
Lemma np_run_all l : Forall np l -> np (run_all l).
Proof.
  induction 1; simpl; [discriminate|]. apply np_bind; auto. intros r _.
  apply np_bind; auto. discriminate.
Qed.
Lemma np_when b x : (b = true -> np x) -> np (when b x).
Proof. destruct b; simpl; auto. discriminate. Qed.
Lemma np_first_valid l : Forall np l -> forall b, np (first_valid b l).
Proof.
  induction 1; intros b; simpl; [discriminate|]. apply np_bind; auto. intros r _.
  destruct (Valid r); auto. discriminate.
Qed.
Lemma np_count_valid l : Forall np l -> forall n b, np (count_valid n b l).
Proof.
  induction 1; intros n b; simpl; [discriminate|]. apply np_bind; auto. intros r _.
  destruct (Valid r); auto.
Qed.
Lemma np_merge_all l : Forall np l -> np (merge_all l).
Proof.
  induction 1; simpl; [discriminate|]. apply np_bind; auto. intros r _.
  apply np_bind; auto. discriminate.
Qed.
Lemma np_mapi {A B} (f : nat -> A -> out B) l :
  (forall i a, In a l -> np (f i a)) -> forall i, Forall np (mapi f i l).
Proof.
  induction l; intros H i; simpl; constructor; [apply H; left; auto|].
  apply IHl. intros. apply H. right; auto.
Qed.
Lemma np_map {A B} (f : A -> out B) l : (forall a, In a l -> np (f a)) -> Forall np (map f l).
Proof.
  induction l; intros H; simpl; constructor; [apply H; left; auto|].
  apply IHl. intros. apply H. right; auto.
Qed.

(** oneOf dereferences the best result only when no branch was valid; there is
    then at least one. *)
Lemma count_valid_best l : forall n b p, count_valid n b l = Ok p -> fst p = 0 ->
  (b <> None \/ l <> []) -> snd p <> None.
Proof.
  induction l as [|x l IH]; intros n b p E E0 H; simpl in E.
  - injection E as <-. simpl in *. destruct H; tauto.
  - destruct x as [r| |]; simpl in E; try discriminate. destruct (Valid r).
    + exfalso. assert (Hn : forall m b' q, count_valid (S m) b' l = Ok q -> fst q <> 0).
      { clear. induction l as [|y l IH]; intros m b' q E; simpl in E.
        - injection E as <-. simpl. lia.
        - destruct y as [r| |]; simpl in E; try discriminate. destruct (Valid r); eauto. }
      eapply Hn; eauto.
    + eapply IH; eauto. left.
      assert (Hn : n = 0).
      { assert (Hm : forall l m b' q, count_valid m b' l = Ok q -> m <= fst q).
        { clear. induction l as [|y l IH]; intros m b' q E; simpl in E.
          - injection E as <-. simpl. lia.
          - destruct y as [r| |]; simpl in E; try discriminate. destruct (Valid r); apply IH in E; lia. }
        apply Hm in E. lia. }
      subst n. simpl. destruct b; [destruct (_ <? _)%Z|]; discriminate.
Qed.

Section NodePanic.
  Variable env : goenv.
  Variable h : heap.
  Variable rec : oracle -> nat -> value -> ctx -> out result.
  Variable D : nat -> value -> Prop.
  Hypothesis Hrec : forall o id v c, fair o -> D id v -> np (rec o id v c).
  #[local] Hint Resolve shift_fair : core.

  Variable n : node.
  Hypothesis Hn : node_ok h n.

  Definition good (v : value) : Prop := demands env n v /\ forall id v', calls n v id v' -> D id v'.

  Ltac nps :=
    repeat match goal with
    | |- np (Ok _) => apply np_ok
    | |- np (run_all _) => apply np_run_all
    | |- np (when _ _) => apply np_when; intros ?
    | |- np (obind _ _) => apply np_bind; [|intros ? ?]
    | |- np (first_valid _ _) => apply np_first_valid
    | |- np (count_valid _ _ _) => apply np_count_valid
    | |- np (merge_all _) => apply np_merge_all
    | |- Forall np (mapi _ _ _) => apply np_mapi; intros ? ? ?
    | |- Forall np (map _ _) => apply np_map; intros ? ?
    | |- Forall np (_ :: _) => constructor
    | |- Forall np [] => constructor
    | |- np (match ?x with _ => _ end) => destruct x eqn:?
    | |- np (if ?x then _ else _) => destruct x eqn:?
    end.

  Lemma np_same o id v c : fair o -> good v -> In id (same_kids n) -> np (rec o id v c).
  Proof. intros F [_ G] H. apply Hrec; auto. apply G. constructor; auto. Qed.

  Lemma np_isKind v : good v -> n_dependencies n <> [] -> np (isKind_map env v).
  Proof.
    intros [(_ & R & _) _] Hd. unfold isKind_map. destruct v; nps.
    exfalso. apply R; auto.
  Qed.

  Lemma np_anyOf o v c : fair o -> good v -> np (v_anyOf rec o n v c).
  Proof.
    intros F G. unfold v_anyOf. destruct (n_anyOf n) eqn:E; [discriminate|]. rewrite <- E.
    unfold merge_best_opt. nps. apply np_same; auto. unfold same_kids. rewrite in_app_iff. auto.
  Qed.

  Lemma np_oneOf o v c : fair o -> good v -> np (v_oneOf rec o n v c).
  Proof.
    intros F G. unfold v_oneOf. destruct (n_oneOf n) eqn:E; [discriminate|]. rewrite <- E.
    apply np_bind.
    - nps. apply np_same; auto. unfold same_kids. rewrite !in_app_iff. auto.
    - intros p Ep. nps. unfold merge_best. apply Nat.eqb_eq in H.
      pose proof (count_valid_best _ _ _ _ Ep H) as Hb.
      destruct (snd p); [discriminate|]. exfalso. apply Hb; auto. right. rewrite E. simpl. discriminate.
  Qed.

  Lemma np_dependencies o v c : fair o -> good v -> np (v_dependencies env rec o n v c).
  Proof.
    intros F G. unfold v_dependencies. destruct (n_dependencies n) as [|d l] eqn:E; [discriminate|].
    apply np_bind; [apply np_isKind; auto; rewrite E; discriminate|].
    intros b Eb. destruct b; [|discriminate]. destruct v; simpl in Eb; try discriminate.
    - exfalso. destruct (rat_of _ _); discriminate.
    - unfold v_dependency. nps. apply np_same; auto. unfold same_kids. rewrite !in_app_iff.
      do 4 right. left. apply in_flat_map. apply assoc_In in Heqo0.
      eexists. split; [exact Heqo0|]. simpl. auto.
    - destruct G as [(_ & _ & []) _].
  Qed.

  Lemma np_validateSchema o v c : fair o -> good v -> np (validateSchema env rec o n v c).
  Proof.
    intros F G. unfold validateSchema.
    apply np_run_all. repeat constructor; try discriminate; auto using np_anyOf, np_oneOf, np_dependencies.
    - unfold v_allOf. nps. apply np_same; auto. unfold same_kids. rewrite !in_app_iff. rewrite Heql. auto.
    - unfold v_not. nps. apply np_same; auto. unfold same_kids. rewrite !in_app_iff. rewrite Heqo0. simpl. tauto.
    - unfold v_if. nps; apply np_same; auto; unfold same_kids; rewrite !in_app_iff;
      match goal with |- context [In ?x _] => match goal with H : _ = Some x |- _ => rewrite H end end; simpl; tauto.
  Qed.

  Lemma np_validateCommon v c : good v -> np (validateCommon env n v c).
  Proof.
    intros [(M & _) _]. unfold validateCommon, v_const, v_enum, v_format. nps.
    - exfalso. apply M; auto. left. congruence.
    - exfalso. apply M; auto. right. congruence.
  Qed.

  Lemma np_unique c w : forall l seen j, Forall marshals l -> np (unique_loop c w seen j l).
  Proof.
    induction l; intros seen j H; simpl; nps; inversion H; subst; auto.
    exfalso. unfold marshals in *. congruence.
  Qed.

  Lemma np_item o c l id i x : fair o -> good (VArr l) -> In id (item_kids n) -> In x l ->
    np (v_item rec o c id i x).
  Proof. intros F [_ G] H Hx. apply Hrec; auto. apply G. constructor; auto. Qed.

  Lemma np_items_zip o c whole ids : forall l i, fair o -> good (VArr whole) ->
    incl ids (item_kids n) -> incl l whole -> Forall np (v_items_zip rec o c i ids l).
  Proof.
    induction ids as [|id ids IH]; intros [|x l] i F G H1 H2; simpl; constructor.
    - eapply np_item; eauto with datatypes.
    - apply IH; auto; intros y Hy; [apply H1|apply H2]; right; auto.
  Qed.

  Lemma np_validateArray o l c : fair o -> good (VArr l) -> np (validateArray rec o n l c).
  Proof.
    intros F G. destruct Hn as (K & I & _).
    assert (Hi : incl (n_items n) (item_kids n)) by (intros x Hx; unfold item_kids; rewrite in_app_iff; auto).
    unfold validateArray. apply np_run_all. repeat constructor; try discriminate.
    - unfold v_items. destruct (n_items_single n).
      + destruct (n_items n) as [|id ids]; [exfalso; apply I; auto|].
        nps. eapply np_item; eauto with datatypes.
      + destruct (n_items n) as [|id ids]; [discriminate|].
        nps; [eapply np_items_zip; eauto; apply incl_refl|].
        eapply np_item; eauto.
        * unfold item_kids. rewrite Heqo0, !in_app_iff. simpl. auto.
        * match goal with H : In ?a (skipn ?k l) |- _ =>
            rewrite <- (firstn_skipn k l); apply in_or_app; auto end.
    - unfold v_minItems. nps.
    - unfold v_maxItems. nps.
    - unfold v_uniqueItems. nps. apply np_unique. destruct G as [(_ & _ & U) _]. auto.
    - unfold v_contains, merge_best_opt. nps. eapply np_item; eauto.
      unfold item_kids. rewrite Heqo0, !in_app_iff. simpl. auto.
  Qed.

  Lemma np_prop_name id : In id (n_props n) -> np (prop_name h id).
  Proof.
    intros H. destruct Hn as (K & _ & _). unfold prop_name.
    rewrite Forall_forall in K. specialize (K id).
    assert (Hk : id < length h).
    { apply K. unfold kids, member_kids. rewrite !in_app_iff. tauto. }
    apply nth_error_Some in Hk. destruct (nth_error h id); [discriminate|congruence].
  Qed.

  Lemma np_described k ids : incl ids (n_props n) -> np (described h k ids).
  Proof.
    induction ids; intros H; simpl; nps.
    - apply np_prop_name. apply H; left; auto.
    - apply IHids. intros x Hx. apply H. right; auto.
  Qed.

  Lemma np_member_kid o id m k x c : fair o -> good (VMap m) -> In (k, x) m -> In id (member_kids n) ->
    np (rec o id x c).
  Proof. intros F [_ G] H1 H2. apply Hrec; auto. eapply G. econstructor; eauto. Qed.

  Lemma np_validateObject o m c : fair o -> good (VMap m) -> np (validateObject env h rec o n m c).
  Proof.
    intros F G.
    assert (Hpick : forall A (l : list A) o' e, fair o' -> In e (pick o' l) -> In e l).
    { intros A l o' e F' H. eapply Permutation_in; [symmetry; apply pick_perm; eauto|auto]. }
    unfold validateObject, v_minProperties, v_maxProperties, v_required, v_members, v_propertyNames, v_member.
    nps.
    - apply np_described, incl_refl.
    - unfold validatePatternProperty. nps. apply Hpick in H; auto using shift_fair.
      eapply np_member_kid; eauto. unfold member_kids. rewrite !in_app_iff. right; left.
      apply in_map. apply filter_In in H1. destruct H1 as [H1 _]. eapply Hpick; [|exact H1]. auto.
    - apply Hpick in H; auto using shift_fair.
      eapply np_member_kid; eauto. unfold member_kids. rewrite !in_app_iff. rewrite Heqo0. simpl. auto.
    - destruct a as [k x]. apply Hpick in H; auto using shift_fair. destruct G as [_ G].
      apply Hrec; auto. eapply G. eapply call_name; eauto.
  Qed.

  Lemma np_validateNumber v c : good v -> np (validateNumber env n v c).
  Proof.
    intros [(_ & R & _) _]. unfold validateNumber. destruct v; try discriminate.
    destruct Hn as (_ & _ & M0). unfold readable in R. unfold has_bounds in R.
    unfold v_multipleOf, v_bound. nps.
    - exfalso. apply (M0 q); auto. apply Qeq_bool_iff; auto.
    - exfalso. apply R; auto. left. left. congruence.
    - exfalso. apply R; auto. left. right; left. congruence.
    - exfalso. apply R; auto. left. do 2 right; left. congruence.
    - exfalso. apply R; auto. left. do 3 right; left. congruence.
    - exfalso. apply R; auto. left. do 4 right. congruence.
  Qed.

  Lemma np_validateString v c : np (validateString env n v c).
  Proof.
    unfold validateString, v_string_checks. destruct v; simpl; nps; discriminate.
  Qed.

  Lemma np_scalar o v c : fair o -> good v -> np (scalar_checks env rec o n v c).
  Proof.
    intros F G. unfold scalar_checks. nps;
      auto using np_validateSchema, np_validateNumber, np_validateString, np_validateCommon.
  Qed.

  Lemma np_object_checks o m c : fair o -> good (VMap m) -> np (object_checks env h rec o n m c).
  Proof.
    intros F G. unfold object_checks, v_property. nps;
      auto using np_validateSchema, np_validateObject, np_validateCommon, shift_fair.
    - apply np_prop_name; auto.
    - apply assoc_In in Heqo0. eapply np_member_kid; eauto.
      unfold member_kids. rewrite in_app_iff. auto.
  Qed.

  Lemma np_validateNode o v c : fair o -> (n_pass n = None -> n_ref n = None -> demands env n v) -> (forall id v', steps n v id v' -> D id v') ->
    np (validateNode env h rec o n v c).
  Proof.
    intros F Dm0 S. unfold validateNode.
    destruct (n_pass n) as [[|]|] eqn:Hp; try discriminate.
    destruct (n_ref n) as [id|] eqn:Hr.
    { apply Hrec; auto. apply S. split; auto. rewrite Hr. auto. }
    pose proof (Dm0 eq_refl eq_refl) as Dm. assert (G : good v). { split; auto. intros id v' H. apply S. split; auto. rewrite Hr. auto. }
    unfold type_error. destruct v; nps;
      auto using np_validateSchema, np_validateCommon, np_scalar, np_validateArray, np_object_checks, shift_fair.
    all: destruct Dm as (_ & _ & []).
  Qed.
End NodePanic.

(** No panic on a domain the run does not leave. *)
Theorem validateRecursive_no_panic_on env h (D : nat -> value -> Prop) :
  (forall id v, D id v -> exists n, nth_error h id = Some n /\ node_ok h n /\ (n_pass n = None -> n_ref n = None -> demands env n v)) ->
  (forall id n v id' v', nth_error h id = Some n -> D id v -> steps n v id' v' -> D id' v') ->
  forall k o id v c, fair o -> D id v -> np (validateRecursive env h k o id v c).
Proof.
  intros HD HS. induction k as [|k IH]; intros o id v c F P; simpl; [discriminate|].
  destruct (HD id v P) as (n & En & Ok & Dm). rewrite En.
  apply np_validateNode with (D := D); auto.
  intros id' v' H. eapply HS; eauto.
Qed.

(** The same with the domain of the run itself. *)
Theorem validateRecursive_no_panic env h id0 v0 :
  heap_ok h -> id0 < length h ->
  (forall id n v, nth_error h id = Some n -> visits h id0 v0 id v -> demands env n v) ->
  forall k o c, fair o -> np (validateRecursive env h k o id0 v0 c).
Proof.
  intros Hh H0 HD k o c F.
  apply validateRecursive_no_panic_on with (D := fun id v => visits h id0 v0 id v /\ id < length h); auto.
  - intros id v [Hv Hid]. apply nth_error_Some in Hid.
    destruct (nth_error h id) as [n|] eqn:En; [|congruence]. exists n. split; auto. split; eauto.
    eapply Forall_forall; [exact Hh|]. eapply nth_error_In; eauto.
  - intros id n v id' v' En [Hv _] Hs. split; [eapply visit_step; eauto|].
    assert (Ho : node_ok h n) by (eapply Forall_forall; [exact Hh|eapply nth_error_In; eauto]).
    destruct Ho as (K & _). rewrite Forall_forall in K. apply K. eapply steps_kid; eauto.
  - split; [constructor|auto].
Qed.
