(** anyOf, oneOf and contains report the closest branch (C19); uniqueItems
    reports exactly the repeated elements (C16). *)
From Verif Require Export ValidateSem.

(** [closest rs b]: [b] is the first result of [rs] with the greatest score. *)
Definition closest (rs : list result) (b : result) : Prop :=
  exists l1 l2, rs = l1 ++ b :: l2 /\
    Forall (fun r => (score r < score b)%Z) l1 /\ Forall (fun r => (score r <= score b)%Z) l2.

Definition keep (b : option result) (r : result) : option result :=
  match b with None => Some r | Some x => if (score x <? score r)%Z then Some r else b end.

Lemma keep_closest l : forall done b, closest done b ->
  exists b', fold_left keep l (Some b) = Some b' /\ closest (done ++ l) b'.
Proof.
  induction l as [|r l IH]; intros done b H; simpl.
  - exists b. rewrite app_nil_r. auto.
  - destruct H as (l1 & l2 & -> & H1 & H2).
    destruct (Z.ltb_spec (score b) (score r)) as [Hlt|Hge].
    + destruct (IH ((l1 ++ b :: l2) ++ [r]) r) as (b' & E & C).
      * exists (l1 ++ b :: l2), []. repeat split; auto. apply Forall_app. split.
        -- eapply Forall_impl; [|exact H1]. simpl. intros; lia.
        -- constructor; auto. eapply Forall_impl; [|exact H2]. simpl. intros; lia.
      * exists b'. split; auto. rewrite <- app_assoc in C. exact C.
    + destruct (IH ((l1 ++ b :: l2) ++ [r]) b) as (b' & E & C).
      * exists l1, (l2 ++ [r]). rewrite <- app_assoc. repeat split; auto.
        apply Forall_app. split; auto.
      * exists b'. split; auto. rewrite <- app_assoc in C. exact C.
Qed.

Lemma keep_closest_none l : l <> [] -> exists b, fold_left keep l None = Some b /\ closest l b.
Proof.
  destruct l as [|r l]; [tauto|]. intros _. simpl.
  destruct (keep_closest l [r] r) as (b & E & C); [exists [], []; auto|]. eauto.
Qed.

Lemma first_valid_all_invalid rs : Forall (fun r => Valid r = false) rs ->
  forall b, first_valid b (map Ok rs) = Ok (false, fold_left keep rs b).
Proof.
  induction 1 as [|r rs Hr _ IH]; intros b; simpl; auto. rewrite Hr. apply IH.
Qed.

Lemma count_valid_all_invalid rs : Forall (fun r => Valid r = false) rs ->
  forall b, count_valid 0 b (map Ok rs) = Ok (0, fold_left keep rs b).
Proof.
  induction 1 as [|r rs Hr _ IH]; intros b; simpl; auto. rewrite Hr. apply IH.
Qed.

Lemma first_valid_some l : forall b, (exists r l1 l2, l = l1 ++ Ok r :: l2 /\ Valid r = true /\
    Forall (fun x => exists r, x = Ok r) l1) ->
  exists b', first_valid b l = Ok (true, b').
Proof.
  induction l as [|x l IH]; intros b (r & l1 & l2 & E & Hr & H1).
  - destruct l1; discriminate.
  - destruct l1 as [|y l1]; simpl in E; injection E as -> ->; simpl.
    + rewrite Hr. eauto.
    + inversion H1 as [|? ? (r0 & ->) H1']; subst. simpl. destruct (Valid r0); [eauto|].
      apply IH. exists r, l1, l2. auto.
Qed.

Fixpoint valid_count (rs : list result) : nat :=
  match rs with [] => 0 | r :: rs' => (if Valid r then 1 else 0) + valid_count rs' end.

Lemma count_valid_count rs : forall n b, exists b',
  count_valid n b (map Ok rs) = Ok (n + valid_count rs, b').
Proof.
  induction rs as [|r rs IH]; intros n b; simpl; [exists b; rewrite Nat.add_0_r; auto|].
  destruct (Valid r).
  - destruct (IH (S n) b) as (b' & ->). exists b'. f_equal. f_equal. lia.
  - destruct (IH n (if Nat.eqb n 0 then match b with None => Some r | Some x => if (score x <? score r)%Z then Some r else b end else b)) as (b' & ->).
    exists b'. reflexivity.
Qed.

Section Branches.
  Variable rec : oracle -> nat -> value -> ctx -> out result.

  (** The results of the branches, run one after the other at oracle [o]. *)
  Definition branch_results (o : oracle) (v : value) (c : ctx) (ids : list nat) (rs : list result) : Prop :=
    mapi (fun i id => rec (shift o i) id v c) 0 ids = map Ok rs.

  Lemma anyOf_none o n v c rs : n_anyOf n <> [] ->
    branch_results o v c (n_anyOf n) rs -> Forall (fun r => Valid r = false) rs ->
    exists b, closest rs b /\
      v_anyOf rec o n v c = Ok (radd (emit NumberAnyOfError c v []) b).
  Proof.
    intros Hn Hb Hi. unfold v_anyOf. destruct (n_anyOf n) as [|i l] eqn:En; [tauto|].
    unfold branch_results in Hb. rewrite Hb, (first_valid_all_invalid rs Hi).
    assert (Hr : rs <> []). { intros ->. simpl in Hb. discriminate. }
    destruct (keep_closest_none rs Hr) as (b & E & C). exists b. split; auto.
    simpl. rewrite E. unfold merge_best_opt. simpl. f_equal.
    unfold radd. simpl. rewrite app_nil_r, Z.add_0_r. reflexivity.
  Qed.

  Lemma anyOf_some o n v c rs : branch_results o v c (n_anyOf n) rs ->
    Exists (fun r => Valid r = true) rs -> v_anyOf rec o n v c = Ok new_result.
  Proof.
    intros Hb Hi. unfold v_anyOf. destruct (n_anyOf n) as [|i l] eqn:En; auto.
    unfold branch_results in Hb. rewrite Hb. apply Exists_exists in Hi. destruct Hi as (r & Hr & Hv).
    apply in_split in Hr. destruct Hr as (l1 & l2 & ->).
    destruct (first_valid_some (map Ok (l1 ++ r :: l2)) None) as (b' & ->); auto.
    exists r, (map Ok l1), (map Ok l2). rewrite map_app. repeat split; auto.
    apply Forall_forall. intros x Hx. apply in_map_iff in Hx. destruct Hx as (y & <- & _). eauto.
  Qed.

  Lemma oneOf_none o n v c rs : n_oneOf n <> [] ->
    branch_results o v c (n_oneOf n) rs -> Forall (fun r => Valid r = false) rs ->
    exists b, closest rs b /\
      v_oneOf rec o n v c = Ok (radd (emit NumberOneOfError c v []) b).
  Proof.
    intros Hn Hb Hi. unfold v_oneOf. destruct (n_oneOf n) as [|i l] eqn:En; [tauto|].
    unfold branch_results in Hb. rewrite Hb, (count_valid_all_invalid rs Hi).
    assert (Hr : rs <> []). { intros ->. simpl in Hb. discriminate. }
    destruct (keep_closest_none rs Hr) as (b & E & C). exists b. split; auto.
    simpl. rewrite E. unfold merge_best. simpl. f_equal.
    unfold radd. simpl. rewrite app_nil_r, Z.add_0_r. reflexivity.
  Qed.

  Lemma oneOf_one o n v c rs : branch_results o v c (n_oneOf n) rs ->
    valid_count rs = 1 -> v_oneOf rec o n v c = Ok new_result.
  Proof.
    intros Hb Hi. unfold v_oneOf. destruct (n_oneOf n) as [|i l] eqn:En; auto.
    unfold branch_results in Hb. rewrite Hb.
    destruct (count_valid_count rs 0 None) as (b' & ->). simpl. rewrite Hi. reflexivity.
  Qed.

  Lemma oneOf_many o n v c rs : branch_results o v c (n_oneOf n) rs -> n_oneOf n <> [] ->
    2 <= valid_count rs -> v_oneOf rec o n v c = Ok (emit NumberOneOfError c v []).
  Proof.
    intros Hb Hn Hi. unfold v_oneOf. destruct (n_oneOf n) as [|i l] eqn:En; [tauto|].
    unfold branch_results in Hb. rewrite Hb.
    destruct (count_valid_count rs 0 None) as (b' & ->). simpl.
    destruct (valid_count rs) as [|[|k]]; try lia. reflexivity.
  Qed.

  Lemma not_result o n v c id r : n_not n = Some id -> rec o id v c = Ok r ->
    v_not rec o n v c = Ok (if Valid r then emit NumberNotError c v [] else new_result).
  Proof. intros E Er. unfold v_not. rewrite E, Er. simpl. destruct (Valid r); reflexivity. Qed.

  Lemma contains_none o n l c id rs : n_contains n = Some id ->
    mapi (v_item rec o c id) 0 l = map Ok rs -> Forall (fun r => Valid r = false) rs -> l <> [] ->
    exists b, closest rs b /\
      v_contains rec o n l c = Ok (radd (emit ArrayContainsError c (VArr l) []) b).
  Proof.
    intros En Hb Hi Hl. unfold v_contains. rewrite En, Hb, (first_valid_all_invalid rs Hi).
    assert (Hr : rs <> []). { intros ->. destruct l; [tauto|discriminate]. }
    destruct (keep_closest_none rs Hr) as (b & E & C). exists b. split; auto.
    simpl. rewrite E. unfold merge_best_opt. simpl. f_equal.
    unfold radd. simpl. rewrite app_nil_r, Z.add_0_r. reflexivity.
  Qed.
End Branches.

(** ** uniqueItems *)

(** Index of the last element of [l] equal to [x], counting from [i]. *)
Fixpoint last_index (x : string) (i : nat) (l : list string) : option nat :=
  match l with
  | [] => None
  | y :: l' =>
      match last_index x (S i) l' with
      | Some j => Some j
      | None => if String.eqb x y then Some i else None
      end
  end.

Lemma last_index_spec x l : forall i,
  match last_index x i l with
  | Some j => exists k, j = i + k /\ nth_error l k = Some x /\
                forall k', k < k' -> nth_error l k' <> Some x
  | None => ~ In x l
  end.
Proof.
  induction l as [|y l IH]; intros i; simpl; [tauto|].
  specialize (IH (S i)). destruct (last_index x (S i) l) as [j|].
  - destruct IH as (k & -> & E & H). exists (S k). split; [lia|]. split; auto.
    intros [|k'] Hk; [lia|]. apply H. lia.
  - destruct (String.eqb_spec x y).
    + subst. exists 0. split; [lia|]. split; auto. intros [|k'] Hk; [lia|]. simpl.
      intros E. apply IH. eapply nth_error_In; eauto.
    + intros [H|H]; [congruence|tauto].
Qed.

(** The pairs (i, j) to report: [j] repeats an earlier element, and [i] is the
    latest index before [j] holding an equal one. *)
Definition repeats (ts : list string) (p : nat * nat) : Prop :=
  fst p < snd p /\ (exists x, nth_error ts (fst p) = Some x /\ nth_error ts (snd p) = Some x /\
    forall k, fst p < k -> k < snd p -> nth_error ts k <> Some x).

Definition unique_error (c : ctx) (w : value) (p : nat * nat) : rerror :=
  newError ItemsMustBeUniqueError c w
    [("type", DStr TYPE_ARRAY); ("i", DInt (Z.of_nat (fst p))); ("j", DInt (Z.of_nat (snd p)))].

Fixpoint pairs (seen : list string) (l : list string) : list (nat * nat) :=
  match l with
  | [] => []
  | x :: l' =>
      match last_index x 0 seen with
      | Some i => [(i, length seen)]
      | None => []
      end ++ pairs (seen ++ [x]) l'
  end.

Lemma last_index_app x y l : forall i,
  last_index x i (l ++ [y]) = if String.eqb x y then Some (i + length l) else last_index x i l.
Proof.
  induction l as [|z l IH]; intros i; simpl.
  - rewrite Nat.add_0_r. reflexivity.
  - rewrite IH. replace (i + S (length l)) with (S i + length l) by lia.
    destruct (String.eqb x y); auto.
Qed.

Lemma assoc_aset {B} k k' (v : B) m : assoc k (aset k' v m) = if String.eqb k k' then Some v else assoc k m.
Proof.
  induction m as [|[k1 v1] m IH]; simpl; auto.
  destruct (String.eqb_spec k' k1); simpl.
  - subst. destruct (String.eqb k k1); auto.
  - rewrite IH. destruct (String.eqb_spec k k1), (String.eqb_spec k k'); subst; auto; congruence.
Qed.

Lemma unique_loop_errors c w : forall l ts seen before,
  map marshalWithoutNumber l = map Some ts ->
  (forall x, assoc x seen = last_index x 0 before) ->
  exists r, unique_loop c w seen (length before) l = Ok r /\
            errors r = map (unique_error c w) (pairs before ts).
Proof.
  induction l as [|v l IH]; intros [|t ts] seen before E Hs; simpl in E; try discriminate.
  - exists new_result. auto.
  - injection E as E1 E2. simpl. rewrite E1.
    destruct (IH ts (aset t (length before) seen) (before ++ [t]) E2) as (r & Er & Hr).
    { intros x. rewrite assoc_aset, last_index_app, Nat.add_0_l, Hs. reflexivity. }
    rewrite app_length in Er. simpl in Er. rewrite Nat.add_1_r in Er. rewrite Er. simpl.
    eexists. split; [reflexivity|]. simpl. rewrite Hr, Hs.
    destruct (last_index t 0 before); reflexivity.
Qed.

Lemma pairs_spec : forall l before p,
  In p (pairs before l) <-> (repeats (before ++ l) p /\ length before <= snd p).
Proof.
  induction l as [|x l IH]; intros before p; simpl.
  - split; [tauto|]. intros [(H1 & y & H2 & H3 & _) H]. rewrite app_nil_r in *.
    assert (nth_error before (snd p) <> None) by congruence. apply nth_error_Some in H0. lia.
  - rewrite in_app_iff, IH, app_length, <- app_assoc. simpl.
    assert (Hx : nth_error (before ++ x :: l) (length before) = Some x)
      by (rewrite nth_error_app2, Nat.sub_diag; auto).
    assert (Hfst : In p (match last_index x 0 before with Some i => [(i, length before)] | None => [] end) <->
                   repeats (before ++ x :: l) p /\ snd p = length before).
    { pose proof (last_index_spec x before 0) as Hl. destruct (last_index x 0 before) as [i|].
      - destruct Hl as (k & -> & Ek & Hk). simpl.
        assert (Hlt : k < length before) by (apply nth_error_Some; congruence).
        split.
        + intros [<- | []]. split; auto. split; [simpl; auto|]. exists x. simpl.
          split; [rewrite nth_error_app1; auto|]. split; auto.
          intros k' H1 H2. rewrite nth_error_app1; auto.
        + intros [(H1 & y & H2 & H3 & H4) E]. left. destruct p as [i j]. simpl in *. subst j.
          rewrite Hx in H3. injection H3 as <-. f_equal.
          rewrite nth_error_app1 in H2 by auto.
          destruct (Nat.lt_trichotomy k i) as [Hki|[Hki|Hki]]; auto.
          * exfalso. apply (Hk i); auto.
          * exfalso. apply (H4 k); auto. rewrite nth_error_app1; auto.
      - split; [intros []|]. intros [(H1 & y & H2 & H3 & H4) E]. rewrite E in *.
        rewrite Hx in H3. injection H3 as <-. rewrite nth_error_app1 in H2 by auto.
        apply Hl. eapply nth_error_In; eauto. }
    rewrite Hfst. split; [intros [[H1 H2]|[H1 H2]]|intros [H1 H2]].
    + split; auto. lia.
    + split; auto. lia.
    + destruct (Nat.eq_dec (snd p) (length before)); [left|right]; split; auto. lia.
Qed.

Lemma pairs_snd_increasing : forall l before, NoDup (map snd (pairs before l)) /\
  Forall (fun p => length before <= snd p) (pairs before l).
Proof.
  induction l as [|x l IH]; intros before; simpl; [split; constructor|].
  destruct (IH (before ++ [x])) as [H1 H2]. rewrite app_length in H2. simpl in H2.
  assert (H2' : Forall (fun p => length before <= snd p) (pairs (before ++ [x]) l)).
  { eapply Forall_impl; [|exact H2]. simpl. intros; lia. }
  destruct (last_index x 0 before); simpl; split; auto.
  constructor; auto. intros Hin. apply in_map_iff in Hin. destruct Hin as (p & E & Hp).
  rewrite Forall_forall in H2. specialize (H2 p Hp). lia.
Qed.
