(** Termination: validation returns whenever the schema graph has no cycle of
    edges that keep the instance; and a cycle of such edges never returns. *)
From Verif Require Export ValidateEq Calls.

Definition edge (h : heap) (a b : nat) : Prop :=
  exists n, nth_error h a = Some n /\ In b (same_instance n).

(** Cells a run starting at [root] can come to. *)
Inductive reach (h : heap) (root : nat) : nat -> Prop :=
| reach_root : reach h root root
| reach_kid a n b : reach h root a -> nth_error h a = Some n -> In b (used n) -> reach h root b.

Lemma same_instance_used n id : In id (same_instance n) -> In id (used n).
Proof.
  unfold same_instance, used. destruct (n_pass n); auto. destruct (n_ref n); auto. unfold kids. rewrite !in_app_iff. tauto.
Qed.

(** [height h B id]: every chain of edges starting at id has fewer than B edges. *)
Fixpoint height (h : heap) (B : nat) (id : nat) : Prop :=
  match B with
  | O => False
  | S b => forall id', edge h id id' -> height h b id'
  end.

Lemma height_mono h : forall B B' id, B <= B' -> height h B id -> height h B' id.
Proof.
  induction B as [|b IH]; intros [|b'] id Hle H; simpl in *; try tauto; try lia.
  intros id' E. apply IH; auto; lia.
Qed.

(** ** "does not run out of fuel" *)
Definition nf {A} (x : out A) : Prop := x <> NoFuel.

Lemma nf_ok {A} (a : A) : nf (Ok a).
Proof. discriminate. Qed.
Lemma nf_panic {A} : nf (@Panic A).
Proof. discriminate. Qed.
Lemma nf_bind {A B} (x : out A) (f : A -> out B) :
  nf x -> (forall a, x = Ok a -> nf (f a)) -> nf (obind x f).
Proof.
  intros Hx Hf. destruct x; simpl; [apply Hf; auto|discriminate|exfalso; apply Hx; auto].
Qed.
Lemma nf_run_all l : Forall nf l -> nf (run_all l).
Proof.
  induction 1; simpl; [discriminate|]. apply nf_bind; auto. intros r _.
  apply nf_bind; auto. discriminate.
Qed.
Lemma nf_when b x : nf x -> nf (when b x).
Proof. destruct b; simpl; auto. discriminate. Qed.
Lemma nf_first_valid l : Forall nf l -> forall b, nf (first_valid b l).
Proof.
  induction 1; intros b; simpl; [discriminate|]. apply nf_bind; auto. intros r _.
  destruct (Valid r); auto. discriminate.
Qed.
Lemma nf_count_valid l : Forall nf l -> forall n b, nf (count_valid n b l).
Proof.
  induction 1; intros n b; simpl; [discriminate|]. apply nf_bind; auto. intros r _.
  destruct (Valid r); auto.
Qed.
Lemma nf_merge_all l : Forall nf l -> nf (merge_all l).
Proof.
  induction 1; simpl; [discriminate|]. apply nf_bind; auto. intros r _.
  apply nf_bind; auto. discriminate.
Qed.
Lemma nf_mapi {A B} (f : nat -> A -> out B) l :
  (forall i a, In a l -> nf (f i a)) -> forall i, Forall nf (mapi f i l).
Proof.
  induction l; intros H i; simpl; constructor; [apply H; left; auto|].
  apply IHl. intros. apply H. right; auto.
Qed.
Lemma nf_map {A B} (f : A -> out B) l : (forall a, In a l -> nf (f a)) -> Forall nf (map f l).
Proof.
  induction l; intros H; simpl; constructor; [apply H; left; auto|].
  apply IHl. intros. apply H. right; auto.
Qed.

Lemma nf_convert v : nf (convertDocumentNode v).
Proof.
  induction v using value_ind'; try discriminate.
  - rewrite convert_arr. apply nf_bind; [|discriminate].
    induction H; simpl; [discriminate|]. apply nf_bind; auto. intros y _. apply nf_bind; auto. discriminate.
  - rewrite convert_imap. apply nf_bind; [|discriminate].
    induction H as [|[[k|] x] m Hx _ IH]; simpl; try discriminate.
    apply nf_bind; auto. intros y _. apply nf_bind; auto. discriminate.
Qed.

Lemma vsize_convert v : forall w, convertDocumentNode v = Ok w -> vsize w = vsize v.
Proof.
  induction v using value_ind'; intros w E; try (injection E as <-; auto; fail).
  - rewrite convert_arr in E. destruct (conv_list l) as [l'| |] eqn:El; simpl in E; try discriminate.
    injection E as <-. apply conv_list_Ok in El. simpl. f_equal.
    induction El; simpl; auto. inversion H; subst. f_equal; auto.
  - rewrite convert_imap in E. destruct (conv_map m) as [m'| |] eqn:El; simpl in E; try discriminate.
    injection E as <-. apply conv_map_Ok in El. simpl. f_equal.
    induction El as [|a b l l' [H1 H2] _ IH]; simpl; auto. inversion H; subst. f_equal; auto.
Qed.

Lemma vsize_item l x : In x l -> vsize x < vsize (VArr l).
Proof.
  intros H. simpl. induction l as [|y l IH]; simpl in *; [tauto|]. destruct H as [-> | H]; [lia|].
  specialize (IH H). lia.
Qed.
Lemma vsize_member m k x : In (k, x) m -> vsize x < vsize (VMap m) /\ 1 < vsize (VMap m).
Proof.
  intros H. simpl. induction m as [|y m IH]; simpl in *; [tauto|]. destruct H as [-> | H]; simpl; [lia|].
  specialize (IH H). lia.
Qed.
Lemma vsize_pos v : 0 < vsize v.
Proof. destruct v; simpl; lia. Qed.

Section NodeTerm.
  Variable env : goenv.
  Variable h : heap.
  Variable rec : oracle -> nat -> value -> ctx -> out result.
  (** Values of size at most [s] can be checked by the subschemas in [P],
      smaller values by any subschema in [K]. *)
  Variable s : nat.
  Variable P : nat -> Prop.
  (** Subschemas the node may use at all. *)
  Variable K : nat -> Prop.
  #[local] Hint Resolve shift_fair : core.
  Hypothesis Hsame : forall o id v c, fair o -> P id -> vsize v <= s -> nf (rec o id v c).
  Hypothesis Hless : forall o id v c, fair o -> K id -> vsize v < s -> nf (rec o id v c).

  Ltac nfs :=
    repeat match goal with
    | |- nf (Ok _) => apply nf_ok
    | |- nf Panic => apply nf_panic
    | |- nf (run_all _) => apply nf_run_all
    | |- nf (when _ _) => apply nf_when
    | |- nf (obind _ _) => apply nf_bind; [|intros ? ?]
    | |- nf (first_valid _ _) => apply nf_first_valid
    | |- nf (count_valid _ _ _) => apply nf_count_valid
    | |- nf (merge_all _) => apply nf_merge_all
    | |- Forall nf (mapi _ _ _) => apply nf_mapi; intros ? ? ?
    | |- Forall nf (map _ _) => apply nf_map; intros ? ?
    | |- Forall nf (_ :: _) => constructor
    | |- Forall nf [] => constructor
    | |- nf (match ?x with _ => _ end) => destruct x eqn:?
    | |- nf (if ?x then _ else _) => destruct x eqn:?
    end.

  Lemma nf_isKind v : nf (isKind_map env v).
  Proof. unfold isKind_map. destruct v; nfs. Qed.

  Lemma nf_validateSchema o n v c : fair o -> Forall P (same_instance n) ->
    n_pass n = None -> n_ref n = None -> vsize v <= s -> nf (validateSchema env rec o n v c).
  Proof.
    intros F HP Hp Hr Hs. unfold same_instance in HP. rewrite Hp, Hr in HP. unfold same_kids in HP.
    rewrite !Forall_app in HP. destruct HP as (P1 & P2 & P3 & P4 & P5 & P6 & P7 & P8).
    rewrite Forall_forall in *.
    unfold validateSchema, v_anyOf, v_oneOf, v_allOf, v_not, v_dependencies, v_dependency, v_if, merge_best_opt, merge_best.
    nfs; try (apply Hsame; auto; fail); try (apply Hsame; auto; simpl in *; auto with datatypes; fail).
    all: try (apply Hsame; auto; first [apply P4|apply P6|apply P7|apply P8];
              match goal with H : _ = Some _ |- _ => rewrite H; simpl; auto end; fail).
    all: try apply nf_isKind.
    all: apply Hsame; auto; apply P5.
    all: match goal with H : assoc _ _ = Some _ |- _ => apply assoc_In in H;
           apply in_flat_map; eexists; split; [exact H|simpl; auto] end.
  Qed.

  Lemma nf_validateCommon n v c : nf (validateCommon env n v c).
  Proof. unfold validateCommon, v_const, v_enum, v_format. nfs. Qed.

  Lemma nf_item o c l id i x : fair o -> K id -> vsize (VArr l) <= s -> In x l -> nf (v_item rec o c id i x).
  Proof. intros F Hid Hs Hin. apply Hless; auto. pose proof (vsize_item _ _ Hin). lia. Qed.

  Lemma nf_items_zip o c whole ids : Forall K ids -> forall l i, fair o -> vsize (VArr whole) <= s -> (forall x, In x l -> In x whole) ->
    Forall nf (v_items_zip rec o c i ids l).
  Proof.
    induction 1 as [|id ids Hid Hids IH]; intros [|x l] i F Hs H; simpl; constructor.
    - eapply nf_item; eauto. apply H. left; auto.
    - apply IH; auto. intros y Hy. apply H. right; auto.
  Qed.

  Lemma nf_unique c w : forall l seen j, nf (unique_loop c w seen j l).
  Proof. induction l; intros; simpl; nfs. auto. Qed.

  Lemma nf_validateArray o n l c : fair o -> Forall K (kids n) -> vsize (VArr l) <= s ->
    nf (validateArray rec o n l c).
  Proof.
    intros F HK Hs.
    assert (HK' : Forall K (item_kids n)).
    { unfold kids in HK. rewrite !Forall_app in HK. tauto. }
    unfold item_kids in HK'. rewrite !Forall_app in HK'. destruct HK' as (K1 & K2 & K3).
    unfold validateArray, v_items, v_minItems, v_maxItems, v_uniqueItems, v_contains, merge_best_opt.
    nfs; try apply nf_unique; try (eapply nf_items_zip; eauto; fail);
      try (eapply nf_item; eauto; inversion K1; inversion K3; subst; simpl in *; auto; fail).
    eapply nf_item; eauto; [inversion K2; auto|].
    match goal with H : In ?a (skipn ?k l) |- _ =>
      rewrite <- (firstn_skipn k l); apply in_or_app; auto end.
  Qed.

  Lemma nf_described k ids : nf (described h k ids).
  Proof. induction ids; simpl; nfs. unfold prop_name. nfs. auto. Qed.

  Lemma nf_pattern o n k x c : fair o -> Forall K (map snd (n_patternProperties n)) -> vsize x < s ->
    nf (validatePatternProperty env rec o n k x c).
  Proof.
    intros F HK Hs. unfold validatePatternProperty. nfs. apply Hless; auto.
    rewrite Forall_forall in HK. apply HK. apply in_map. apply filter_In in H. destruct H as [H _].
    eapply Permutation_in; [symmetry; apply pick_perm; apply shift_fair; exact F|exact H].
  Qed.

  Lemma nf_validateObject o n m c : fair o -> Forall K (kids n) -> vsize (VMap m) <= s ->
    nf (validateObject env h rec o n m c).
  Proof.
    intros F HK Hs.
    assert (HK' : Forall K (member_kids n) /\ Forall K (opt_list (n_propertyNames n))).
    { unfold kids in HK. rewrite !Forall_app in HK. tauto. }
    destruct HK' as [HK' HK2]. unfold member_kids in HK'. rewrite !Forall_app in HK'. destruct HK' as (K1 & K2 & K3).
    assert (Hpick : forall o' e, fair o' -> In e (pick o' m) -> In e m).
    { intros o' e F' H. eapply Permutation_in; [symmetry; apply pick_perm; eauto|auto]. }
    unfold validateObject, v_minProperties, v_maxProperties, v_required, v_members, v_propertyNames, v_member.
    nfs; try apply nf_described.
    - apply nf_pattern; auto. apply Hpick in H; [|auto using shift_fair].
      apply vsize_member in H. lia.
    - apply Hless; auto; [inversion K3; auto|].
      apply Hpick in H; [|auto using shift_fair]. apply vsize_member in H. lia.
    - apply Hless; auto; [inversion HK2; auto|]. apply Hpick in H; [|auto using shift_fair]. destruct a as [k x].
      apply vsize_member in H. simpl. simpl in H, Hs. lia.
  Qed.

  Lemma nf_validateNumber n v c : nf (validateNumber env n v c).
  Proof. unfold validateNumber, v_multipleOf, v_bound. nfs. Qed.
  Lemma nf_validateString n v c : nf (validateString env n v c).
  Proof. unfold validateString, v_string_checks. nfs; unfold isKind_string; nfs. Qed.

  Lemma nf_scalar o n v c : fair o -> Forall P (same_instance n) -> n_pass n = None -> n_ref n = None ->
    vsize v <= s -> nf (scalar_checks env rec o n v c).
  Proof.
    intros. unfold scalar_checks. nfs;
      auto using nf_validateSchema, nf_validateNumber, nf_validateString, nf_validateCommon.
  Qed.

  Lemma nf_object_checks o n m c : fair o -> Forall P (same_instance n) -> Forall K (kids n) -> n_pass n = None -> n_ref n = None ->
    vsize (VMap m) <= s -> nf (object_checks env h rec o n m c).
  Proof.
    intros F HP HK Hp Hr Hs. unfold object_checks, v_property. nfs;
      auto using nf_validateSchema, nf_validateObject, nf_validateCommon, shift_fair.
    - unfold prop_name. nfs.
    - apply Hless; auto.
      { rewrite Forall_forall in HK. apply HK. unfold kids, member_kids. rewrite !in_app_iff. tauto. }
      match goal with H : assoc _ m = Some _ |- _ => apply assoc_In, vsize_member in H end. lia.
  Qed.

  Lemma nf_validateNode o n v c : fair o -> Forall P (same_instance n) -> Forall K (used n) -> vsize v <= s ->
    nf (validateNode env h rec o n v c).
  Proof.
    intros F HP HK Hs. unfold validateNode. unfold used in HK.
    destruct (n_pass n) as [[|]|] eqn:Hp; try discriminate.
    destruct (n_ref n) as [id|] eqn:Hr.
    { apply Hsame; auto. unfold same_instance in HP. rewrite Hp, Hr in HP. inversion HP; auto. }
    unfold type_error. nfs;
      auto using nf_validateSchema, nf_validateCommon, nf_scalar, nf_validateArray, nf_object_checks, shift_fair.
    - apply nf_convert.
    - apply nf_object_checks; auto. apply vsize_convert in H. rewrite H. auto.
  Qed.
End NodeTerm.

(** Enough fuel for a value of size [s] when all heights are at most [M]. *)
Definition enough (M : nat) (s B : nat) : nat := s * S M + B.

Lemma validateRecursive_nf env h M (K : nat -> Prop) :
  (forall id, K id -> height h M id) ->
  (forall id n, K id -> nth_error h id = Some n -> Forall K (used n)) ->
  forall s B k o id v c, fair o -> K id -> vsize v <= s -> B <= M -> height h B id -> enough M s B <= k ->
  nf (validateRecursive env h k o id v c).
Proof.
  intros HM HK. induction s as [|s IHs].
  - intros B k o id v c _ _ Hs. pose proof (vsize_pos v). lia.
  - induction B as [|B IHB]; intros k o id v c F Hid Hs HB Hh Hk; [destruct Hh|].
    unfold enough in *. destruct k as [|k]; [lia|]. simpl.
    destruct (nth_error h id) as [n|] eqn:En; [|discriminate].
    apply nf_validateNode with (s := S s) (P := fun i => height h B i /\ K i) (K := K); eauto.
    + intros o' id' v' c' F' [Hh' Hid'] Hv. apply IHB; auto; lia.
    + intros o' id' v' c' F' Hid' Hv. apply IHs with (B := M); auto; lia.
    + apply Forall_forall. intros id' Hin. split; [apply Hh; exists n; auto|].
      specialize (HK id n Hid En). rewrite Forall_forall in HK. apply HK, same_instance_used, Hin.
Qed.

(** ** Acyclic graphs have bounded height *)

Inductive path (h : heap) : list nat -> Prop :=
| path_one a : path h [a]
| path_cons a b l : edge h a b -> path h (b :: l) -> path h (a :: b :: l).

Inductive chain (h : heap) : nat -> nat -> Prop :=
| chain_one a b : edge h a b -> chain h a b
| chain_cons a b c : edge h a b -> chain h b c -> chain h a c.

Lemma path_or_height h : forall B id, height h B id \/ exists l, path h (id :: l) /\ length l = B.
Proof.
  induction B as [|B IH]; intros id.
  - right. exists []. split; [constructor|auto].
  - destruct (nth_error h id) as [n|] eqn:En.
    + assert (H : Forall (height h B) (same_instance n) \/
                  exists id', In id' (same_instance n) /\ exists l, path h (id' :: l) /\ length l = B).
      { induction (same_instance n) as [|a l IHl]; [left; constructor|].
        destruct (IH a) as [Ha|Ha]; [|right; exists a; split; [left; auto|auto]].
        destruct IHl as [Hl|(b & Hb & Hp)]; [left; constructor; auto|right; exists b; split; [right; auto|auto]]. }
      destruct H as [H|(id' & Hin & l & Hp & Hl)].
      * left. intros id' (n' & E & Hin). rewrite En in E. injection E as <-.
        rewrite Forall_forall in H. auto.
      * right. exists (id' :: l). split; [|simpl; lia]. constructor; auto. exists n. auto.
    + left. intros id' (n & E & _). congruence.
Qed.

Lemma path_chain h l2 : forall a l1 b, path h (a :: l1 ++ b :: l2) -> chain h a b.
Proof.
  intros a l1. revert a. induction l1 as [|x l1 IH]; intros a b H; simpl in H; inversion H; subst.
  - constructor; auto.
  - eapply chain_cons; eauto.
Qed.

Lemma path_app h l1 : forall l2, l2 <> [] -> path h (l1 ++ l2) -> path h l2.
Proof.
  induction l1 as [|a l1 IH]; intros l2 Hn H; auto.
  apply IH; auto. simpl in H. inversion H; subst; auto.
  destruct l1; simpl in *; [congruence|discriminate].
Qed.

Lemma nodup_or_repeat (l : list nat) : NoDup l \/ exists l1 a l2 l3, l = l1 ++ a :: l2 ++ a :: l3.
Proof.
  induction l as [|x l IH]; [left; constructor|].
  destruct (in_dec Nat.eq_dec x l) as [Hin|Hn].
  - right. apply in_split in Hin. destruct Hin as (l2 & l3 & ->). exists [], x, l2, l3. auto.
  - destruct IH as [H|(l1 & a & l2 & l3 & ->)]; [left; constructor; auto|].
    right. exists (x :: l1), a, l2, l3. auto.
Qed.

(** All vertices of a path but the last one are cells of the heap. *)
Lemma path_in_heap h : forall l a, path h (a :: l) -> forall x, In x (removelast (a :: l)) -> x < length h.
Proof.
  induction l as [|b l IH]; intros a H x Hx; [destruct Hx|].
  inversion H; subst. change (removelast (a :: b :: l)) with (a :: removelast (b :: l)) in Hx.
  destruct Hx as [<- | Hx]; [|eauto]. destruct H2 as (n & En & _). apply nth_error_Some. congruence.
Qed.

Lemma path_reach h root : forall l a, path h (a :: l) -> reach h root a -> forall x, In x (a :: l) -> reach h root x.
Proof.
  induction l as [|b l IH]; intros a H Ha x [<- | Hx]; auto; [destruct Hx|].
  inversion H; subst. apply (IH b); auto. destruct H2 as (n & En & Hb).
  eapply reach_kid; eauto. apply same_instance_used; auto.
Qed.

Lemma acyclic_height h root : (forall a, reach h root a -> ~ chain h a a) ->
  forall id, reach h root id -> height h (S (length h)) id.
Proof.
  intros Hac id Hid. destruct (path_or_height h (S (length h)) id) as [H|(l & Hp & Hl)]; auto. exfalso.
  pose proof (path_in_heap h l id Hp) as Hin.
  set (p := removelast (id :: l)) in *.
  assert (Elen : length p = S (length h)).
  { unfold p. assert (E : id :: l = removelast (id :: l) ++ [last (id :: l) 0])
      by (apply app_removelast_last; discriminate).
    apply (f_equal (@length nat)) in E. rewrite app_length in E. simpl in E. simpl. lia. }
  destruct (nodup_or_repeat p) as [Hn|(l1 & a & l2 & l3 & E)].
  - assert (length p <= length (seq 0 (length h))).
    { apply NoDup_incl_length; auto. intros x Hx. apply in_seq. specialize (Hin x Hx). lia. }
    rewrite seq_length in H. lia.
  - assert (E2 : id :: l = l1 ++ a :: l2 ++ a :: (l3 ++ [last (id :: l) 0])).
    { rewrite (app_removelast_last 0 (l := id :: l)) at 1 by discriminate. fold p. rewrite E.
      rewrite <- app_assoc. simpl. rewrite <- app_assoc. reflexivity. }
    assert (Ha : reach h root a).
    { apply (path_reach h root l id Hp Hid). rewrite E2. apply in_or_app. right. left. auto. }
    rewrite E2 in Hp. apply path_app in Hp; [|discriminate]. apply path_chain in Hp. exact (Hac a Ha Hp).
Qed.

(** Termination with an explicit bound on the depth of the call stack. *)
Theorem validateRecursive_terminates env h root :
  (forall a, reach h root a -> ~ chain h a a) ->
  forall o v c k, fair o -> vsize v * S (S (length h)) + S (length h) <= k ->
  nf (validateRecursive env h k o root v c).
Proof.
  intros Hac o v c k F Hk.
  apply validateRecursive_nf with (M := S (length h)) (s := vsize v) (B := S (length h)) (K := reach h root); auto.
  - apply acyclic_height; auto.
  - intros id n Hid En. apply Forall_forall. intros b Hb. eapply reach_kid; eauto.
  - constructor.
  - apply acyclic_height with (root := root); auto. constructor.
Qed.

(** ** Cycles of references never return *)

(** [ref_cycle]: following $ref pointers from [id] never ends. *)
Definition ref_of (h : heap) (id id' : nat) : Prop :=
  exists n, nth_error h id = Some n /\ n_pass n = None /\ n_ref n = Some id'.

Theorem ref_cycle_diverges env h (S : nat -> Prop) :
  (forall id, S id -> exists id', ref_of h id id' /\ S id') ->
  forall k o id v c, S id -> validateRecursive env h k o id v c = NoFuel.
Proof.
  intros HS. induction k as [|k IH]; intros o id v c Hid; simpl; auto.
  destruct (HS id Hid) as (id' & (n & En & Ep & Er) & Hid'). rewrite En.
  unfold validateNode. rewrite Ep, Er. auto.
Qed.
