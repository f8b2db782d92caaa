(** Existence and uniqueness of the predicate "v satisfies the schema at cell
    id" wherever checking is well founded. *)
From Verif Require Export ValidateSem ValidateTerm.

Lemma Forall_iff_in {A} (P Q : A -> Prop) l : (forall x, In x l -> (P x <-> Q x)) -> (Forall P l <-> Forall Q l).
Proof. intros H. rewrite !Forall_forall. split; intros H' x Hx; apply (H x Hx); auto. Qed.
Lemma Exists_iff_in {A} (P Q : A -> Prop) l : (forall x, In x l -> (P x <-> Q x)) -> (Exists P l <-> Exists Q l).
Proof. intros H. rewrite !Exists_exists. split; intros (x & Hx & Hp); exists x; split; auto; apply (H x Hx); auto. Qed.
Lemma one_of_iff_in (P Q : nat -> Prop) l : (forall x, In x l -> (P x <-> Q x)) -> (one_of P l <-> one_of Q l).
Proof.
  intros H. unfold one_of.
  split; intros (l1 & x & l2 & -> & Hx & F1 & F2); exists l1, x, l2; split; auto.
  - repeat split.
    + apply H; auto. rewrite in_app_iff; simpl; auto.
    + rewrite Forall_forall in *. intros y Hy Hq. apply (F1 y Hy). apply H; auto. rewrite in_app_iff; auto.
    + rewrite Forall_forall in *. intros y Hy Hq. apply (F2 y Hy). apply H; auto. rewrite in_app_iff; simpl; auto.
  - repeat split.
    + apply H; auto. rewrite in_app_iff; simpl; auto.
    + rewrite Forall_forall in *. intros y Hy Hq. apply (F1 y Hy). apply H; auto. rewrite in_app_iff; auto.
    + rewrite Forall_forall in *. intros y Hy Hq. apply (F2 y Hy). apply H; auto. rewrite in_app_iff; simpl; auto.
Qed.

Lemma and_iff (A B C D : Prop) : (A <-> C) -> (B <-> D) -> (A /\ B <-> C /\ D).
Proof. tauto. Qed.

Section Ext.
  Variable env : goenv.
  Variable h : heap.
  Variables V W : nat -> value -> Prop.

  Lemma comb_sem_ext n v : (forall id, In id (same_kids n) -> (V id v <-> W id v)) ->
    (comb_sem V n v <-> comb_sem W n v).
  Proof.
    intros H. unfold comb_sem.
    assert (H1 : forall id, In id (n_anyOf n) -> (V id v <-> W id v)).
    { intros; apply H; unfold same_kids; rewrite !in_app_iff; tauto. }
    assert (H2 : forall id, In id (n_oneOf n) -> (V id v <-> W id v)).
    { intros; apply H; unfold same_kids; rewrite !in_app_iff; tauto. }
    assert (H3 : forall id, In id (n_allOf n) -> (V id v <-> W id v)).
    { intros; apply H; unfold same_kids; rewrite !in_app_iff; tauto. }
    repeat apply and_iff.
    - rewrite (Exists_iff_in _ (fun id => W id v) _ H1). tauto.
    - rewrite (one_of_iff_in _ (fun id => W id v) _ H2). tauto.
    - apply Forall_iff_in; auto.
    - destruct (n_not n) eqn:E; [|tauto]. rewrite H; [tauto|].
      unfold same_kids; rewrite E, !in_app_iff; simpl; tauto.
    - destruct v; try tauto. apply Forall_iff_in. intros [k x] _. unfold dep_sem. simpl.
      destruct (assoc k (n_dependencies n)) as [[|id]|] eqn:E; try tauto. apply H.
      unfold same_kids. rewrite !in_app_iff. do 4 right; left. apply in_flat_map.
      apply assoc_In in E. eexists; split; [exact E|simpl; auto].
    - destruct (n_if n) eqn:Ei; [|tauto].
      assert (Hi : V n0 v <-> W n0 v) by (apply H; unfold same_kids; rewrite Ei, !in_app_iff; simpl; tauto).
      apply and_iff.
      + destruct (n_then n) eqn:E; [|tauto]. rewrite Hi, H; [tauto|].
        unfold same_kids; rewrite E, !in_app_iff; simpl; tauto.
      + destruct (n_else n) eqn:E; [|tauto]. rewrite Hi, H; [tauto|].
        unfold same_kids; rewrite E, !in_app_iff; simpl; tauto.
  Qed.

  Lemma arr_sem_ext n l : (forall id x, In id (item_kids n) -> In x l -> (V id x <-> W id x)) ->
    (arr_sem V n l <-> arr_sem W n l).
  Proof.
    intros H. unfold arr_sem. apply and_iff; [|repeat apply and_iff; try tauto].
    - assert (Hi : forall id x, In id (n_items n) -> In x l -> (V id x <-> W id x)).
      { intros; apply H; unfold item_kids; rewrite ?in_app_iff; auto. }
      unfold items_sem. destruct (n_items_single n).
      + destruct (n_items n) as [|id ids]; [tauto|]. apply Forall_iff_in. intros x Hx. apply Hi; simpl; auto.
      + destruct (n_items n) as [|id ids]; [tauto|]. apply and_iff.
        * split; intros Hv i id' x E1 E2.
          -- apply (Hi id' x); eauto using nth_error_In.
          -- apply (Hi id' x); eauto using nth_error_In.
        * destruct (n_additionalItems n) as [[[]|a]|] eqn:E; try tauto.
          apply Forall_iff_in. intros x Hx. apply H.
          -- unfold item_kids; rewrite E, ?in_app_iff; simpl; auto.
          -- rewrite <- (firstn_skipn (length (id :: ids)) l). apply in_or_app; auto.
    - destruct (n_contains n) eqn:E; [|tauto]. apply Exists_iff_in. intros x Hx. apply H; auto.
      unfold item_kids; rewrite E, ?in_app_iff; simpl; auto.
  Qed.

  Lemma obj_sem_ext n m : (forall id k x, In id (member_kids n) -> In (k, x) m -> (V id x <-> W id x)) ->
    (forall id k x, n_propertyNames n = Some id -> In (k, x) m -> (V id (VStr k) <-> W id (VStr k))) ->
    (obj_sem env h V n m <-> obj_sem env h W n m).
  Proof.
    intros H Hn. unfold obj_sem. repeat apply and_iff; try tauto.
    - apply Forall_iff_in. intros [k x] Hx. simpl. unfold member_sem. apply and_iff.
      + apply Forall_iff_in. intros [p id] Hp. simpl. rewrite (H id k x); auto; [tauto|].
        unfold member_kids. rewrite !in_app_iff. right; left. apply in_map_iff. exists (p, id). auto.
      + destruct (n_additionalProperties n) as [[[]|a]|] eqn:E; try tauto.
        rewrite (H a k x); auto; [tauto|]. unfold member_kids. rewrite E, !in_app_iff. simpl. auto.
    - destruct (n_propertyNames n) as [id|] eqn:E; [|tauto].
      apply Forall_iff_in. intros [k x] Hx. simpl. eapply Hn; eauto.
    - apply Forall_iff_in. intros id Hid. split; intros Hv p x Hp Hx.
      + apply (H id p x); eauto using assoc_In. unfold member_kids; rewrite in_app_iff; auto.
      + apply (H id p x); eauto using assoc_In. unfold member_kids; rewrite in_app_iff; auto.
  Qed.

  (** node_sem looks at V only at the checks the node starts. *)
  Lemma node_sem_ext n v : (forall id v', steps n v id v' -> (V id v' <-> W id v')) ->
    (node_sem env h V n v <-> node_sem env h W n v).
  Proof.
    intros H. unfold node_sem. destruct (n_pass n) eqn:Ep; [tauto|].
    destruct (n_ref n) as [r|] eqn:Er.
    { apply H. split; auto. rewrite Er. auto. }
    assert (Hc : forall id v', calls n v id v' -> (V id v' <-> W id v')).
    { intros id v' Hs. apply H. split; auto. rewrite Er. auto. }
    apply and_iff; [tauto|]. apply and_iff; [|apply and_iff; [tauto|]].
    - apply comb_sem_ext. intros id Hid. apply Hc. constructor; auto.
    - destruct v; simpl; try tauto.
      + apply arr_sem_ext. intros. apply Hc. constructor; auto.
      + apply obj_sem_ext; intros; apply Hc; [econstructor; eauto|eapply call_name; eauto].
  Qed.
End Ext.

(** ** The semantics where checking is well founded *)

Definition check := (nat * value)%type.
Definition starts (h : heap) (q p : check) : Prop :=
  exists n, nth_error h (fst p) = Some n /\ steps n (snd p) (fst q) (snd q).

Section Den.
  Variable env : goenv.
  Variable h : heap.

  Fixpoint den (p : check) (a : Acc (starts h) p) {struct a} : Prop :=
    exists n, nth_error h (fst p) = Some n /\
      node_sem env h (fun id' v' => exists s : starts h (id', v') p, den (id', v') (Acc_inv a s)) n (snd p).

  Lemma den_irrel p (a : Acc (starts h) p) : forall b, den p a <-> den p b.
  Proof.
    induction a as [p f IH] using Acc_inv_dep. intros [g]. simpl.
    assert (Hs : forall n, nth_error h (fst p) = Some n -> forall id v', steps n (snd p) id v' ->
       ((exists s : starts h (id, v') p, den (id, v') (f (id, v') s)) <->
        (exists s : starts h (id, v') p, den (id, v') (g (id, v') s)))).
    { intros n En id v' _. split; intros (s & Hs); exists s; apply (IH _ s (g _ s)); auto. }
    split; intros (n & En & H); exists n; split; auto;
      apply (node_sem_ext env h _ _ n (snd p) (Hs n En)); auto.
  Qed.

  Definition sat (id : nat) (v : value) : Prop := exists a, den (id, v) a.

  Lemma sat_eq id v n : Acc (starts h) (id, v) -> nth_error h id = Some n ->
    (sat id v <-> node_sem env h sat n v).
  Proof.
    intros a En.
    assert (H : sat id v <-> den (id, v) a).
    { split; [intros [b Hb]; apply (den_irrel _ b a); auto|exists a; auto]. }
    rewrite H. destruct a as [f]. simpl.
    assert (Hext : node_sem env h (fun id' v' => exists s : starts h (id', v') (id, v), den (id', v') (f (id', v') s)) n v
                   <-> node_sem env h sat n v).
    { apply node_sem_ext. intros id' v' S.
      assert (s : starts h (id', v') (id, v)) by (exists n; auto).
      split; [intros (s' & Hs); exists (f _ s'); auto|].
      intros (b & Hb). exists s. apply (den_irrel _ b); auto. }
    split.
    - intros (n' & En' & Hn). rewrite En in En'. injection En' as <-. apply Hext; auto.
    - intros Hn. exists n. split; auto. apply Hext; auto.
  Qed.

  (** Any two predicates satisfying the equations agree there. *)
  Lemma sat_unique (V W : nat -> value -> Prop) p : Acc (starts h) p ->
    (forall id v n, nth_error h id = Some n -> (V id v <-> node_sem env h V n v)) ->
    (forall id v n, nth_error h id = Some n -> (W id v <-> node_sem env h W n v)) ->
    fst p < length h ->
    (forall n, In n h -> Forall (fun id => id < length h) (kids n)) ->
    (V (fst p) (snd p) <-> W (fst p) (snd p)).
  Proof.
    intros a HV HW Hl Hk. induction a as [[id v] _ IH]. simpl in *.
    apply nth_error_Some in Hl. destruct (nth_error h id) as [n|] eqn:En; [|congruence].
    rewrite (HV id v n En), (HW id v n En). apply node_sem_ext.
    intros id' v' S. apply (IH (id', v')); [exists n; auto|]. simpl.
    specialize (Hk n (nth_error_In _ _ En)). rewrite Forall_forall in Hk. apply Hk. eapply steps_kid; eauto.
  Qed.
End Den.

(** Graphs without same-instance cycles are well founded at every value. *)
Lemma steps_size n v id v' : steps n v id v' ->
  (v' = v /\ In id (same_instance n)) \/ vsize v' < vsize v.
Proof.
  intros [Hp H]. unfold same_instance. rewrite Hp. destruct (n_ref n).
  - destruct H as [-> ->]. left. simpl. auto.
  - destruct H.
    + left; auto.
    + right. apply vsize_item; auto.
    + right. eapply vsize_member; eauto.
    + right. simpl vsize at 1. eapply vsize_member; eauto.
Qed.

Lemma acyclic_acc h root : (forall a, reach h root a -> ~ chain h a a) -> forall v, Acc (starts h) (root, v).
Proof.
  intros Hac v.
  assert (H : forall s B id v, reach h root id -> vsize v <= s -> height h B id -> Acc (starts h) (id, v)).
  { induction s as [|s IHs]; [intros; pose proof (vsize_pos v0); lia|].
    induction B as [|B IHB]; intros id' v' Hr Hs Hh; [destruct Hh|].
    constructor. intros [id2 v2] (n & En & S). simpl in *.
    assert (Hr2 : reach h root id2) by (eapply reach_kid; eauto using steps_used).
    destruct (steps_size _ _ _ _ S) as [[-> Hin]|Hlt].
    - apply IHB; auto. apply Hh. exists n. auto.
    - apply IHs with (B := Datatypes.S (length h)); [auto|lia|]. apply acyclic_height with (root := root); auto. }
  eapply H; [constructor|apply le_n|]. apply acyclic_height with (root := root); auto. constructor.
Qed.
