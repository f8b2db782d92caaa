(** The document pool only grows: what is registered stays. *)
From Verif Require Export ModelPool ValidateBranch.
Open Scope nat_scope.

Definition pool_le (p p' : pool) : Prop := forall r e, assoc r p = Some e -> assoc r p' = Some e.

Lemma pool_le_refl p : pool_le p p.
Proof. intros r e H. exact H. Qed.
Lemma pool_le_trans p q r : pool_le p q -> pool_le q r -> pool_le p r.
Proof. intros H1 H2 k e H. auto. Qed.
Lemma pool_le_add p q r e : assoc r p = None -> pool_le p q -> pool_le p (aset r e q).
Proof.
  intros Hn H k x E. rewrite assoc_aset. destruct (String.eqb_spec k r) as [->|_]; [congruence|auto].
Qed.
#[global] Hint Resolve pool_le_refl : core.

Lemma obind_ok {A B} (x : out A) (f : A -> out B) b : obind x f = Ok b -> exists a, x = Ok a /\ f a = Ok b.
Proof. destruct x; simpl; try discriminate. eauto. Qed.

Section Grow.
  Variable ce : cenv.
  Variable rec : oracle -> value -> string -> option draft -> pool -> out prr.
  Hypothesis Hrec : forall o v b d p r, rec o v b d p = Ok r -> pool_le p (pr_pool r).

  Lemma prr_list_le o i b d l : forall p q, prr_list rec o i b d l p = Ok q -> pool_le p (snd q).
  Proof.
    revert i. induction l as [|x l IH]; intros i p q E; cbn [prr_list] in E.
    - injection E as <-. auto.
    - apply obind_ok in E. destruct E as (r & Er & E). apply obind_ok in E. destruct E as (q' & Eq & E). injection E as <-. simpl.
      eapply pool_le_trans; [eapply Hrec; eauto|eapply IH; eauto].
  Qed.
  Lemma prr_map_le o b d es : forall i m p q, prr_map rec o i b d es m p = Ok q -> pool_le p (snd q).
  Proof.
    induction es as [|[k x] es IH]; intros i m p q E; cbn [prr_map] in E.
    - injection E as <-. auto.
    - apply obind_ok in E. destruct E as (r & Er & E). apply IH in E. eapply pool_le_trans; [eapply Hrec; eauto|auto].
  Qed.
  Lemma prr_member_le o b d k x p q : prr_member rec o b d k x p = Ok q -> pool_le p (snd q).
  Proof.
    unfold prr_member. destruct (literal_key k); [intros [= <-]; auto|]. destruct (map_key k).
    - destruct x; try (intros [= <-]; auto; fail). intros E. apply obind_ok in E. destruct E as (r & Er & E). injection E as <-.
      eapply prr_map_le; eauto.
    - intros E. apply obind_ok in E. destruct E as (r & Er & E). injection E as <-. eapply Hrec; eauto.
  Qed.
  Lemma prr_members_le o b d es : forall i m p q, prr_members rec o i b d es m p = Ok q -> pool_le p (snd q).
  Proof.
    induction es as [|[k x] es IH]; intros i m p q E; cbn [prr_members] in E.
    - injection E as <-. auto.
    - apply obind_ok in E. destruct E as (r & Er & E). apply IH in E. eapply pool_le_trans; [eapply prr_member_le; eauto|auto].
  Qed.
  Lemma parseReferencesNode_le o v b d p r : parseReferencesNode ce rec o v b d p = Ok r -> pool_le p (pr_pool r).
  Proof.
    unfold parseReferencesNode. destruct v; try (intros [= <-]; simpl; auto; fail).
    - intros E. apply obind_ok in E. destruct E as (q & Eq & E). injection E as <-. eapply prr_list_le; eauto.
    - intros E. apply obind_ok in E. destruct E as (lid & Ei & E). destruct lid as [id|].
      + destruct (assoc id p) eqn:Ep; [injection E as <-; simpl; auto|].
        apply obind_ok in E. destruct E as (m1 & Em & E). apply obind_ok in E. destruct E as (q & Eq & E). injection E as <-. simpl.
        apply pool_le_add; auto. eapply pool_le_trans; [|eapply prr_members_le; eauto]. apply pool_le_add; auto.
      + apply obind_ok in E. destruct E as (m1 & Em & E). apply obind_ok in E. destruct E as (q & Eq & E). injection E as <-. simpl.
        eapply prr_members_le; eauto.
  Qed.
End Grow.

Lemma parseReferencesRecursive_le ce k : forall o v b d p r,
  parseReferencesRecursive ce k o v b d p = Ok r -> pool_le p (pr_pool r).
Proof.
  induction k as [|k IH]; intros o v b d p r E; [discriminate|]. cbn [parseReferencesRecursive] in E.
  eapply parseReferencesNode_le; eauto.
Qed.

Lemma parseReferences_le ce o doc ref pooled p r : parseReferences ce o doc ref pooled p = Ok r -> pool_le p (pr_pool r).
Proof.
  unfold parseReferences. destruct (pooled && _)%bool eqn:Ep; [intros [= <-]; simpl; auto|].
  intros E. apply obind_ok in E. destruct E as ([e|d] & Ed & E); [injection E as <-; simpl; auto|].
  apply obind_ok in E. destruct E as (q & Eq & E). apply parseReferencesRecursive_le in Eq.
  destruct pooled; injection E as <-; simpl; auto. apply pool_le_add; auto.
  simpl in Ep. destruct (assoc ref p); [discriminate|reflexivity].
Qed.

Lemma cbind_ok {A B} (x : comp A) (f : A -> comp B) s b s' : cbind x f s = COk b s' ->
  exists a s1, x s = COk a s1 /\ f a s1 = COk b s'.
Proof. unfold cbind. destruct (x s); try discriminate. eauto. Qed.
Lemma lift_ok {A} (x : out A) s a s' : lift_out x s = COk a s' -> x = Ok a /\ s' = s.
Proof. destruct x; simpl; try discriminate. unfold cret. intros [= <- <-]. auto. Qed.

(** GetDocument touches nothing but the pool, which grows. *)
Lemma GetDocument_le ce o ref s dsp s' : GetDocument ce o ref s = COk dsp s' ->
  st_heap s' = st_heap s /\ st_src s' = st_src s /\ st_refs s' = st_refs s /\ pool_le (st_pool s) (st_pool s').
Proof.
  unfold GetDocument. intros E. apply cbind_ok in E. destruct E as (p & s1 & E1 & E). unfold get_pool in E1. injection E1 as <- <-.
  destruct (assoc ref (st_pool s)) as [d|] eqn:Er; [injection E as <- <-; auto|].
  destruct (assoc (u_strip ce ref) (st_pool s)) as [d|] eqn:Eb.
  - destruct (pointer_get _ _) as [x|]; [|discriminate]. apply cbind_ok in E. destruct E as ([] & s2 & E2 & E). injection E2 as <-. injection E as <- <-.
    simpl. repeat split; auto. apply pool_le_add; auto.
  - destruct (negb (u_canonical ce ref)); [discriminate|]. destruct (c_fetch ce ref) as [doc|]; [|discriminate].
    apply cbind_ok in E. destruct E as (r & s2 & E2 & E). apply lift_ok in E2. destruct E2 as [E2 ->].
    apply cbind_ok in E. destruct E as ([] & s3 & E3 & E). injection E3 as <-.
    apply cbind_ok in E. destruct E as (su & s4 & E4 & E). apply lift_ok in E4. destruct E4 as [E4 ->].
    destruct (pointer_get _ _) as [x|]; [|discriminate]. injection E as <- <-. simpl. repeat split; auto.
    eapply parseReferences_le; eauto.
Qed.
