(** Validate fails to return exactly when a check is made in the course of
    itself (SpecLoop.v). *)
From Coq Require Import Relations.
From Verif Require Import ValidateKeywords ValidateTerm WhyProps SpecLoop.

(** ** Two runs agree on acceptance *)
Lemma verdict_unique env h k k' o o' id v c r r' : fair o -> fair o' -> wf_value v ->
  validateRecursive env h k o id v c = Ok r -> validateRecursive env h k' o' id v c = Ok r' -> Valid r = Valid r'.
Proof.
  intros F F' W E E'.
  assert (E1 : validateRecursive env h (k + k') o id v c = Ok r) by (eapply validateRecursive_stable; [|exact E|discriminate]; lia).
  assert (E2 : validateRecursive env h (k + k') o' id v c = Ok r') by (eapply validateRecursive_stable; [|exact E'|discriminate]; lia).
  destruct (validateRecursive_rel env h _ (same_value_rel env) (k + k') o o' id v v c F F' (conj eq_refl W) r E1) as (r2 & E3 & _ & He).
  rewrite E2 in E3. injection E3 as <-. eapply errs_rel_Valid; eauto.
Qed.

(** ** No loop: the run ends *)
Section Ends.
  Variables (env : goenv) (h : heap) (k0 : nat) (L : Prop).
  Notation rec := (validateRecursive env h k0).
  Definition ends {A} (x : out A) : Prop := nf x \/ L.

  Lemma ends_nf {A} (x : out A) : nf x -> ends x.
  Proof. left. auto. Qed.
  Lemma ends_bind {A B} (x : out A) (f : A -> out B) : ends x -> (forall a, x = Ok a -> ends (f a)) -> ends (obind x f).
  Proof. intros [Hx|Hx] Hf; [|right; auto]. destruct x; simpl; [apply Hf; auto|left; discriminate|destruct Hx; auto]. Qed.
  Lemma ends_when b x : (b = true -> ends x) -> ends (when b x).
  Proof. destruct b; simpl; auto. left. discriminate. Qed.
  Lemma ends_run_all l : Forall ends l -> ends (run_all l).
  Proof.
    induction 1; simpl; [left; discriminate|]. apply ends_bind; auto. intros r _. apply ends_bind; auto. left. discriminate.
  Qed.
  Lemma ends_count_valid l : Forall ends l -> forall i b, ends (count_valid i b l).
  Proof. induction 1; intros i b; simpl; [left; discriminate|]. apply ends_bind; auto. intros r _. destruct (Valid r); auto. Qed.
  Lemma ends_merge_all l : Forall ends l -> ends (merge_all l).
  Proof.
    induction 1; simpl; [left; discriminate|]. apply ends_bind; auto. intros r _. apply ends_bind; auto. left. discriminate.
  Qed.
  (** An element is run only after the earlier ones were not valid. *)
  Lemma ends_first_valid l : forall b,
    (forall l1 x l2, l = l1 ++ x :: l2 -> Forall (fun y => exists r, y = Ok r /\ Valid r = false) l1 -> ends x) -> ends (first_valid b l).
  Proof.
    induction l as [|x l IH]; intros b H; simpl; [left; discriminate|]. apply ends_bind; [apply (H [] x l); auto|]. intros r E.
    destruct (Valid r) eqn:V; [left; discriminate|]. apply IH. intros l1 y l2 -> Hl. apply (H (x :: l1) y l2); auto. constructor; eauto.
  Qed.
  Lemma ends_mapi {A B} (f : nat -> A -> out B) l : (forall i a, nth_error l i = Some a -> ends (f i a)) -> Forall ends (mapi f 0 l).
  Proof.
    assert (G : forall j, (forall i a, nth_error l i = Some a -> ends (f (j + i) a)) -> Forall ends (mapi f j l)).
    { induction l as [|a l IH]; intros j H; simpl; constructor.
      - specialize (H 0 a eq_refl). rewrite Nat.add_0_r in H. exact H.
      - apply IH. intros i b Hb. replace (S j + i) with (j + S i) by lia. apply H. exact Hb. }
    apply (G 0).
  Qed.

  Variable n : node.
  Hint Resolve shift_fair ends_nf nf_ok nf_panic ends_when : ends.

  Ltac alls := repeat first [apply Forall_nil | apply Forall_cons]; auto with ends.

  Section Value.
    Variables (v : value) (c : ctx).
    Hypothesis Hrec : forall o id x d, fair o -> asks env h n v c id x d -> ends (rec o id x d).

    Lemma mapi_split {A B} (f : nat -> A -> B) l : forall i l1 x l2, mapi f i l = l1 ++ x :: l2 ->
      exists a1 a a2, l = a1 ++ a :: a2 /\ l1 = mapi f i a1 /\ x = f (i + length a1) a.
    Proof.
      induction l as [|a l IH]; intros i [|y l1] x l2 E; simpl in E; try discriminate E.
      - injection E as <- _. exists [], a, l. rewrite Nat.add_0_r. auto.
      - injection E as <- E. destruct (IH _ _ _ _ E) as (a1 & b & a2 & -> & -> & ->). exists (a :: a1), b, a2. split; auto. split; auto. simpl. f_equal. lia.
    Qed.
    Lemma rejected o ids : fair o -> forall i, Forall (fun y => exists r, y = Ok r /\ Valid r = false) (mapi (fun i id => rec (shift o i) id v c) i ids) ->
      Forall (fun i => rejects env h i v c) ids.
    Proof.
      intros F. induction ids as [|a ids IH]; intros i H; simpl in H; inversion H as [|? ? (r & E & V) H2]; subst; constructor; eauto.
      exists r. split; auto. exists k0, (shift o i). auto with ends.
    Qed.
    Lemma ends_anyOf o : fair o -> ends (v_anyOf rec o n v c).
    Proof.
      intros F. unfold v_anyOf. destruct (n_anyOf n) as [|a l] eqn:En; auto with ends. rewrite <- En.
      apply ends_bind.
      - apply ends_first_valid. intros l1 x l2 E Hl. destruct (mapi_split _ _ _ _ _ _ E) as (a1 & b & a2 & E2 & -> & ->).
        apply Hrec; auto with ends. eapply a_anyOf; eauto. eapply rejected; eauto.
      - intros p _. destruct (fst p); auto with ends. apply ends_run_all. alls. unfold merge_best_opt. destruct (snd p); auto with ends.
    Qed.
    Lemma ends_oneOf o : fair o -> ends (v_oneOf rec o n v c).
    Proof.
      intros F. unfold v_oneOf. destruct (n_oneOf n) as [|a l] eqn:En; auto with ends. rewrite <- En.
      apply ends_bind.
      - apply ends_count_valid, ends_mapi. intros i b Hb. apply Hrec; auto with ends. apply a_oneOf. eapply nth_error_In; eauto.
      - intros p _. destruct (Nat.eqb (fst p) 1); auto with ends. apply ends_run_all. alls. apply ends_when. intros _. unfold merge_best. destruct (snd p); auto with ends.
    Qed.
    Lemma ends_allOf o : fair o -> ends (v_allOf rec o n v c).
    Proof.
      intros F. unfold v_allOf. destruct (n_allOf n) as [|a l] eqn:En; auto with ends. rewrite <- En.
      apply ends_bind.
      - apply ends_merge_all, ends_mapi. intros i b Hb. apply Hrec; auto with ends. apply a_allOf. eapply nth_error_In; eauto.
      - intros p _. apply ends_run_all. alls.
    Qed.
    Lemma ends_not o : fair o -> ends (v_not rec o n v c).
    Proof.
      intros F. unfold v_not. destruct (n_not n) as [a|] eqn:En; auto with ends. apply ends_bind; auto with ends. apply Hrec; auto. apply a_not; auto.
    Qed.
    Lemma ends_dependencies o : fair o -> ends (v_dependencies env rec o n v c).
    Proof.
      intros F. unfold v_dependencies. destruct (n_dependencies n) as [|i0 l0] eqn:En; auto with ends.
      apply ends_bind; [apply ends_nf, nf_isKind|]. intros [|] Ep; auto with ends. destruct v as [| | | | | |m|] eqn:Ev; auto with ends. rewrite <- Ev in *.
      apply ends_run_all, ends_mapi. intros j [k x] Hin. apply nth_error_In in Hin. apply (in_pick (shift o 0)) in Hin; [|auto with ends]. unfold v_dependency. cbn [fst].
      destruct (assoc k _) as [[ks|t]|] eqn:Ea; auto with ends.
      - apply ends_run_all. apply Forall_map, Forall_forall. intros k' Hk'. destruct (assoc k' m) eqn:Em; auto with ends.
      - apply Hrec; auto with ends. eapply a_dependency; eauto. apply in_map_iff. exists (k, x). auto.
    Qed.
    Lemma ends_if o : fair o -> ends (v_if rec o n v c).
    Proof.
      intros F. unfold v_if. destruct (n_if n) as [i|] eqn:Ei; auto with ends.
      apply ends_bind; [apply Hrec; auto with ends; apply a_if; auto|]. intros r Er. pose proof (ran env h k0 _ _ _ _ _ (shift_fair _ 0 F) Er) as HV.
      apply ends_run_all. constructor; [|constructor; [|constructor]].
      - destruct (n_then n) as [t|] eqn:Et; auto with ends. apply ends_when. intros B. rewrite B in HV. apply ends_bind; [apply Hrec; auto with ends; eapply a_then; eauto|].
        intros rt _. apply ends_when. intros _. apply ends_run_all. alls.
      - destruct (n_else n) as [t|] eqn:Et; auto with ends. apply ends_when. intros B. apply negb_true_iff in B. rewrite B in HV. apply ends_bind; [apply Hrec; auto with ends; eapply a_else; eauto|].
        intros rt _. apply ends_when. intros _. apply ends_run_all. alls.
    Qed.
    Lemma ends_schema o : fair o -> ends (validateSchema env rec o n v c).
    Proof.
      intros F. unfold validateSchema. apply ends_run_all.
      repeat (constructor; [auto using ends_anyOf, ends_oneOf, ends_allOf, ends_not, ends_dependencies, ends_if with ends|]). constructor.
    Qed.
    Lemma ends_item o id i x : fair o -> asks env h n v c id x (itoa (Z.of_nat i) :: c) -> ends (v_item rec o c id i x).
    Proof. intros F H. unfold v_item. apply Hrec; auto with ends. Qed.
    Lemma ends_zip o ids : forall l' i, fair o ->
      (forall j x id', nth_error ids j = Some id' -> nth_error l' j = Some x -> asks env h n v c id' x (itoa (Z.of_nat (i + j)) :: c)) ->
      Forall ends (v_items_zip rec o c i ids l').
    Proof.
      induction ids as [|a ids IH]; intros [|x l'] i F H; simpl; constructor.
      - apply ends_item; auto. specialize (H 0 x a eq_refl eq_refl). rewrite Nat.add_0_r in H. exact H.
      - apply IH; auto. intros j y b Hb Hy. replace (S i + j) with (i + S j) by lia. apply H; auto.
    Qed.
    Lemma ends_mapi_from {A B} (f : nat -> A -> out B) l j : (forall i a, nth_error l i = Some a -> ends (f (j + i) a)) -> Forall ends (mapi f j l).
    Proof.
      revert j. induction l as [|a l IH]; intros j H; simpl; constructor.
      - specialize (H 0 a eq_refl). rewrite Nat.add_0_r in H. exact H.
      - apply IH. intros i b Hb. replace (S j + i) with (j + S i) by lia. apply H. exact Hb.
    Qed.
    Lemma ends_array o l : v = VArr l -> fair o -> ends (validateArray rec o n l c).
    Proof.
      intros Hv F. unfold validateArray. apply ends_run_all.
      constructor; [|constructor; [|constructor; [|constructor; [|constructor; [|constructor; [auto with ends|constructor]]]]]].
      - unfold v_items. destruct (n_items_single n) eqn:Es.
        + destruct (n_items n) as [|a ids] eqn:Ei; [destruct l; auto with ends|].
          apply ends_run_all, ends_mapi. intros j x Hx. apply ends_item; auto with ends. eapply a_items; eauto; [congruence|]. rewrite Es, Ei. reflexivity.
        + destruct (n_items n) as [|a ids] eqn:Ei; auto with ends. rewrite <- Ei.
          assert (Hi : n_items n <> []) by congruence. apply ends_run_all. constructor; [|constructor; [|constructor]].
          * apply ends_run_all, ends_zip; auto with ends. intros j x b Hb Hx. eapply a_items; eauto. rewrite Es. unfold checker. cbn [Nat.add]. rewrite Hb. reflexivity.
          * apply ends_when. intros B. destruct (n_additionalItems n) as [[[|]|b]|] eqn:Ea; auto with ends.
            apply ends_run_all, ends_mapi_from. intros j x Hx. apply ends_item; auto with ends. rewrite nth_error_skipn in Hx. eapply a_items; eauto.
            rewrite Es, Ea. unfold checker. rewrite (proj2 (nth_error_None (n_items n) (length (n_items n) + j))) by lia. reflexivity.
      - unfold v_minItems. destruct (n_minItems n); auto with ends.
      - unfold v_maxItems. destruct (n_maxItems n); auto with ends.
      - unfold v_uniqueItems. apply ends_when. intros _. apply ends_nf, nf_unique.
      - unfold v_contains. destruct (n_contains n) as [a|] eqn:Ec; auto with ends. apply ends_bind.
        + apply ends_first_valid. intros l1 x l2 E Hl. destruct (mapi_split _ _ _ _ _ _ E) as (a1 & b & a2 & E2 & -> & ->). cbn [Nat.add].
          apply ends_item; auto with ends. eapply a_contains; eauto.
          * rewrite E2, nth_error_app2, Nat.sub_diag by lia. reflexivity.
          * intros j y Hj Hy. rewrite E2, nth_error_app1 in Hy by lia.
            assert (Hm : nth_error (mapi (v_item rec (shift o 1) c a) 0 a1) j = Some (v_item rec (shift o 1) c a j y)).
            { rewrite mapi_nth, Hy. reflexivity. }
            rewrite Forall_forall in Hl. destruct (Hl _ (nth_error_In _ _ Hm)) as (r & Er & Vr). exists r. split; auto. exists k0, (shift (shift o 1) j). split; auto with ends.
        + intros p _. destruct (fst p); auto with ends. apply ends_run_all. alls. unfold merge_best_opt. destruct (snd p); auto with ends.
    Qed.
    Lemma ends_member o m k x : v = VMap m -> fair o -> In (k, x) m -> ends (v_member env h rec o n c (k, x)).
    Proof.
      intros Hv F Hin. unfold v_member. apply ends_bind; [apply ends_nf, nf_described|]. intros found Ed. pose proof (described_has h _ _ _ Ed) as Hd.
      unfold validatePatternProperty. set (hits := filter _ _).
      assert (Hh : forall q, In q hits <-> In q (matching env n k)).
      { intros q. unfold hits, matching, re_matches. rewrite !filter_In. split; intros [H1 H2]; split; auto.
        - eapply in_pick; [|eauto]. auto with ends.
        - eapply Permutation_in; [apply pick_perm|auto]. auto with ends. }
      apply ends_bind.
      { apply ends_bind; [|intros r _; destruct hits; auto with ends]. apply ends_run_all, ends_mapi. intros i [q a] Hq. apply nth_error_In, Hh, filter_In in Hq. destruct Hq as [H1 H2]. apply andb_true_iff in H2. destruct H2.
        apply Hrec; auto with ends. eapply a_pattern; eauto. }
      intros p Ep. apply ends_bind; [|auto with ends].
      destruct found; cbn [negb andb]; auto with ends.
      destruct (fst p) eqn:Ef; cbn [negb]; auto with ends.
      destruct (n_additionalProperties n) as [[[|]|a]|] eqn:Ea; auto with ends.
      apply Hrec; auto with ends. eapply a_additional; eauto.
      - intros H. apply Hd in H. discriminate H.
      - destruct (run_all _) in Ep; simpl in Ep; try discriminate Ep. destruct hits as [|q hs] eqn:Eh; [|injection Ep as <-; discriminate Ef].
        destruct (matching env n k) as [|q qs]; auto. destruct (proj2 (Hh q)). left. auto.
    Qed.
    Lemma ends_object o m : v = VMap m -> fair o -> ends (validateObject env h rec o n m c).
    Proof.
      intros Hv F. unfold validateObject. apply ends_run_all.
      constructor; [|constructor; [|constructor; [|constructor; [|constructor; [|constructor; [auto with ends|constructor]]]]]].
      - unfold v_minProperties. destruct (n_minProperties n); auto with ends.
      - unfold v_maxProperties. destruct (n_maxProperties n); auto with ends.
      - unfold v_required. apply ends_run_all. apply Forall_map, Forall_forall. intros k _. destruct (assoc k m); auto with ends.
      - unfold v_members. apply ends_run_all, ends_mapi. intros i [k x] Hin. apply nth_error_In, in_pick in Hin; auto with ends. eapply ends_member; eauto with ends.
      - unfold v_propertyNames. destruct (n_propertyNames n) as [a|] eqn:Ea; auto with ends.
        apply ends_run_all, ends_mapi. intros i [k x] Hin. apply nth_error_In, in_pick in Hin; auto with ends. cbn [fst].
        apply ends_bind; [apply Hrec; auto with ends; eapply a_name; eauto|]. intros r _. apply ends_when. intros _. apply ends_run_all. alls.
    Qed.
    Lemma ends_scalar o : fair o -> ends (scalar_checks env rec o n v c).
    Proof.
      intros F. unfold scalar_checks. apply ends_run_all.
      repeat (constructor; [auto using ends_schema, nf_validateNumber, nf_validateCommon, nf_validateString with ends|]). constructor.
    Qed.
    Lemma ends_object_checks o m : v = VMap m -> fair o -> ends (object_checks env h rec o n m c).
    Proof.
      intros Hv F. unfold object_checks. rewrite <- Hv. apply ends_run_all.
      constructor; [auto using ends_schema with ends|]. constructor; [apply ends_object; auto with ends|]. constructor; [auto using nf_validateCommon with ends|].
      constructor; [|constructor; [auto with ends|constructor]].
      apply ends_run_all, ends_mapi. intros i a Ha. apply nth_error_In in Ha. unfold v_property, prop_name.
      destruct (nth_error h a) as [p|] eqn:Ep; cbn [obind]; auto with ends. destruct (assoc (n_property p) m) as [x|] eqn:Ex; auto with ends.
      apply Hrec; auto with ends. eapply a_property; eauto.
    Qed.
  End Value.

  Lemma typed_ok ok v : (ok = true <-> exists t, In t (value_types env v) /\ In t (n_types n)) ->
    ((IsTyped (n_types n) && negb ok)%bool = false <-> type_allowed env n v).
  Proof.
    intros Hok. unfold type_allowed. rewrite <- Hok. destruct (n_types n) as [|t ts]; cbn; [tauto|].
    destruct ok; cbn; split; auto; try discriminate; intros [H|H]; discriminate H.
  Qed.

  Lemma ends_cell o v c : fair o -> n_pass n = None -> n_ref n = None ->
    (type_allowed env n v -> forall w, held v w -> forall o' id x d, fair o' -> asks env h n w c id x d -> ends (rec o' id x d)) ->
    ends (validateNode env h rec o n v c).
  Proof.
    intros F Hpass Href Hrec. unfold validateNode. rewrite Hpass, Href. destruct v as [|b|s|f|s|l|m|m]; cbv zeta; auto with ends;
      match goal with |- ends (if (_ && negb ?b)%bool then _ else _) => set (ok := b) end;
      match goal with |- ends (if ?b then _ else _) => destruct b eqn:Eb end; unfold type_error; auto with ends.
    all: match goal with Hrec : type_allowed env n ?v -> _ |- _ =>
      assert (Hok : ok = true <-> exists t, In t (value_types env v) /\ In t (n_types n))
        by (first [apply contains_one | apply contains_number]) end.
    all: apply (typed_ok _ _ Hok) in Eb; specialize (Hrec Eb).
    all: try (specialize (Hrec _ eq_refl); auto using ends_scalar; fail).
    - specialize (Hrec _ eq_refl). apply ends_run_all. repeat (constructor; [auto using ends_schema, nf_validateCommon with ends|]). constructor.
    - specialize (Hrec _ eq_refl). apply ends_run_all. constructor; [auto using ends_schema with ends|]. constructor; [eapply ends_array; eauto with ends|].
      constructor; [auto using nf_validateCommon with ends|]. alls.
    - specialize (Hrec _ eq_refl). eapply ends_object_checks; eauto.
    - apply ends_bind; [apply ends_nf, nf_convert|]. intros w Ew. destruct w as [| | | | | |m'|]; auto with ends. eapply ends_object_checks; eauto.
  Qed.
End Ends.

(** Size of a value; the map type of YAML decoders counts as larger than the
    object it is converted to. *)
Definition load (v : value) : nat := 2 * vsize v + match v with VIMap _ => 1 | _ => 0 end.

Lemma held_load v w : held v w -> w = v \/ (load w < load v /\ vsize w = vsize v).
Proof.
  destruct v as [| | | | | | |m]; cbn [held]; intros H; try (left; exact H); [contradiction|].
  right. pose proof (vsize_convert _ _ H) as Hs. split; auto. unfold load. rewrite Hs.
  rewrite convert_imap in H. destruct (conv_map m); cbn in H; try discriminate H. injection H as <-. lia.
Qed.
Lemma load_less x w : vsize x < vsize w -> load x < load w.
Proof. unfold load. destruct x, w; lia. Qed.
Lemma asks_smaller env h n v c id x d : asks env h n v c id x d -> (x = v /\ d = c) \/ vsize x < vsize v.
Proof.
  intros []; auto; subst v; right.
  - eapply vsize_item, nth_error_In; eauto.
  - eapply vsize_item, nth_error_In; eauto.
  - eapply vsize_member, assoc_In; eauto.
  - eapply vsize_member; eauto.
  - eapply vsize_member; eauto.
  - destruct (vsize_member _ _ _ H0). simpl. simpl in H2. exact H2.
Qed.
Lemma makes_smaller env h id v c id' x d : makes env h (id, v, c) (id', x, d) -> (x = v /\ d = c) \/ load x < load v.
Proof.
  intros H. inversion H; subst; auto. destruct (held_load _ _ H10) as [->|[Hw Hs]].
  - destruct (asks_smaller _ _ _ _ _ _ _ _ H11) as [?|?]; auto. right. apply load_less. auto.
  - right. destruct (asks_smaller _ _ _ _ _ _ _ _ H11) as [[-> ->]|?]; auto. pose proof (load_less x w). lia.
Qed.

(** Depth of the recursion when no check is made in the course of itself. *)
Definition stack_depth (h : heap) (v : value) : nat := load v * S (S (length h)) + S (length h).

Lemma ends_or_loops env h start : forall s u k o id v c visited, fair o -> load v <= s ->
  NoDup visited -> (forall a, In a visited -> a < length h /\ clos_trans _ (makes env h) (a, v, c) (id, v, c)) ->
  clos_refl_trans _ (makes env h) start (id, v, c) -> u + length visited = S (length h) ->
  s * S (S (length h)) + u <= k -> ends (loops env h start) (validateRecursive env h k o id v c).
Proof.
  induction s as [|s IHs].
  { intros u k o id v c vis _ Hw. pose proof (vsize_pos v). unfold load in Hw. lia. }
  induction u as [|u IHu]; intros k o id v c vis F Hw Hnd Hvis Hst Hu Hk.
  { exfalso. assert (length vis <= length (seq 0 (length h))).
    { apply NoDup_incl_length; auto. intros a Ha. apply in_seq. destruct (Hvis a Ha). lia. }
    rewrite seq_length in H. lia. }
  destruct (in_dec Nat.eq_dec id vis) as [Hin|Hin].
  { right. exists (id, v, c). split; auto. apply Hvis, Hin. }
  destruct k as [|k]; [lia|]. cbn [validateRecursive]. destruct (nth_error h id) as [n|] eqn:En; [|left; discriminate].
  assert (Hid : id < length h) by (apply nth_error_Some; congruence).
  assert (Step : forall o' id' x d, fair o' -> makes env h (id, v, c) (id', x, d) -> ends (loops env h start) (validateRecursive env h k o' id' x d)).
  { intros o' id' x d F' Hm. assert (Hst' : clos_refl_trans _ (makes env h) start (id', x, d)) by (eapply rt_trans; [exact Hst|apply rt_step, Hm]).
    destruct (makes_smaller _ _ _ _ _ _ _ _ Hm) as [[-> ->]|Hless].
    - apply IHu with (visited := id :: vis); auto; [constructor; auto| |simpl; lia|lia].
      intros a [<-|Ha]; [split; auto; apply t_step, Hm|]. destruct (Hvis a Ha). split; auto. eapply t_trans; [eauto|apply t_step, Hm].
    - apply IHs with (visited := []) (u := S (length h)); auto; [lia|constructor|intros a []|]. lia. }
  destruct (n_pass n) as [b|] eqn:Hp.
  { unfold validateNode. rewrite Hp. destruct b; left; discriminate. }
  destruct (n_ref n) as [t|] eqn:Hr.
  { unfold validateNode. rewrite Hp, Hr. apply Step; auto. eapply m_ref; eauto. }
  apply ends_cell; auto. intros Ht w Hh o' id' x d F' Ha. apply Step; auto. eapply m_asks; eauto.
Qed.

Theorem bounded_or_loops env h id v c : forall k o, fair o -> stack_depth h v <= k ->
  validateRecursive env h k o id v c <> NoFuel \/ loops env h (id, v, c).
Proof.
  intros k o F Hk. apply (ends_or_loops env h (id, v, c) (load v) (S (length h)) k o id v c []); auto;
    [constructor|intros a []|apply rt_refl].
Qed.

(** ** A loop: the run does not end *)
Section Made.
  Variables (env : goenv) (h : heap) (k0 : nat).
  Notation rec := (validateRecursive env h k0).
  Definition made (id : nat) (x : value) (d : ctx) : Prop := exists o r, fair o /\ rec o id x d = Ok r.
  Definition ok {A} (x : out A) : Prop := exists a, x = Ok a.

  Lemma bind_ok {A B} (x : out A) (f : A -> out B) r : obind x f = Ok r -> exists a, x = Ok a /\ f a = Ok r.
  Proof. destruct x; simpl; intros E; try discriminate E. eauto. Qed.
  Lemma run_all_ok l r : run_all l = Ok r -> forall x, In x l -> ok x.
  Proof. intros E x Hx. apply run_all_Ok in E. destruct E as (rs & -> & _). apply in_map_iff in Hx. destruct Hx as (a & <- & _). exists a. auto. Qed.
  Lemma count_valid_ok l : forall i b p, count_valid i b l = Ok p -> forall x, In x l -> ok x.
  Proof.
    induction l as [|y l IH]; intros i b p E x Hx; [destruct Hx|]. simpl in E. apply bind_ok in E. destruct E as (r & -> & E).
    destruct Hx as [<-|Hx]; [exists r; auto|]. destruct (Valid r); eapply IH; eauto.
  Qed.
  Lemma merge_all_ok l : forall p, merge_all l = Ok p -> forall x, In x l -> ok x.
  Proof.
    induction l as [|y l IH]; intros p E x Hx; [destruct Hx|]. simpl in E. apply bind_ok in E. destruct E as (r & -> & E). apply bind_ok in E. destruct E as (q & E & _).
    destruct Hx as [<-|Hx]; [exists r; auto|]. eapply IH; eauto.
  Qed.
  Lemma first_valid_ok l1 x l2 : forall b p, first_valid b (l1 ++ x :: l2) = Ok p ->
    Forall (fun y => forall r, y = Ok r -> Valid r = false) l1 -> ok x.
  Proof.
    induction l1 as [|y l1 IH]; intros b p E Hl; simpl in E; apply bind_ok in E; destruct E as (r & -> & E); [exists r; auto|].
    inversion Hl as [|? ? H1 H2]; subst. rewrite (H1 r eq_refl) in E. eapply IH; eauto.
  Qed.
  Lemma mapi_app {A B} (f : nat -> A -> B) l1 l2 : forall i, mapi f i (l1 ++ l2) = mapi f i l1 ++ mapi f (i + length l1) l2.
  Proof.
    induction l1 as [|a l1 IH]; intros i; simpl; [rewrite Nat.add_0_r; auto|]. f_equal. rewrite IH. do 2 f_equal. lia.
  Qed.
  Lemma mapi_in {A B} (f : nat -> A -> B) l i a : nth_error l i = Some a -> In (f i a) (mapi f 0 l).
  Proof. intros H. apply (nth_error_In _ i). rewrite mapi_nth, H. reflexivity. Qed.
  Lemma mapi_in' {A B} (f : nat -> A -> B) l a : In a l -> exists i, In (f i a) (mapi f 0 l).
  Proof. intros H. apply In_nth_error in H. destruct H as (i & H). exists i. apply mapi_in, H. Qed.
  Lemma made_of o id x d : fair o -> ok (rec o id x d) -> made id x d.
  Proof. intros F (r & E). exists o, r. auto. Qed.
  Hint Resolve shift_fair : made.

  Variable n : node.
  Lemma reject_run o i v c : fair o -> wf_value v -> rejects env h i v c -> forall r, rec o i v c = Ok r -> Valid r = false.
  Proof. intros F W (r' & (k & o' & F' & E') & V) r E. rewrite <- V. exact (verdict_unique env h _ _ _ _ _ _ _ _ _ F F' W E E'). Qed.
  Lemma accept_run o i v c : fair o -> wf_value v -> accepts env h i v c -> forall r, rec o i v c = Ok r -> Valid r = true.
  Proof. intros F W (r' & (k & o' & F' & E') & V) r E. rewrite <- V. exact (verdict_unique env h _ _ _ _ _ _ _ _ _ F F' W E E'). Qed.

  (** The parts of a node's check, as far as they make further checks. *)
  Definition parts (o : oracle) (v : value) (c : ctx) : Prop :=
    ok (v_anyOf rec (shift o 0) n v c) /\ ok (v_oneOf rec (shift o 1) n v c) /\ ok (v_allOf rec (shift o 2) n v c) /\
    ok (v_not rec (shift o 3) n v c) /\ ok (v_dependencies env rec (shift o 4) n v c) /\ ok (v_if rec (shift o 5) n v c).
  Lemma schema_parts o v c : ok (validateSchema env rec o n v c) -> parts o v c.
  Proof.
    intros (r & E). unfold validateSchema in E. pose proof (run_all_ok _ _ E) as H. repeat split; apply H; simpl; tauto.
  Qed.

  Lemma made_asks o1 v c id x d : fair o1 -> wf_value v -> ok (validateSchema env rec o1 n v c) ->
    (forall l, v = VArr l -> exists o, fair o /\ ok (validateArray rec o n l c)) ->
    (forall m, v = VMap m -> exists o o', fair o /\ fair o' /\ ok (validateObject env h rec o n m c) /\ ok (run_all (mapi (v_property h rec o' m c) 0 (n_props n)))) ->
    asks env h n v c id x d -> made id x d.
  Proof.
    intros F1 W Hs Harr Hobj Ha. apply schema_parts in Hs. destruct Hs as (P1 & P2 & P3 & P4 & P5 & P6).
    destruct Ha as [before id after E Hb|id Hi|id Hi|id Hi|id Hi|i id Hi Ht HA|i id Hi Ht HA|m k id -> Hk Hd|l i x id -> Hx Hne Hc|l i x id -> Hx Hc Hb|m id p x -> Hi Hp Hx|m k x p id -> Hin Hp Hok Hm|m k x id -> Hin Hno Hma Had|m k x id -> Hin Hn].
    - destruct P1 as (r & P1). unfold v_anyOf in P1. destruct (n_anyOf n) as [|a l] eqn:En; [destruct before; discriminate E|]. rewrite E in P1.
      apply bind_ok in P1. destruct P1 as (p & P1 & _). rewrite mapi_app in P1. simpl in P1. eapply made_of; [|eapply first_valid_ok; [exact P1|]]; auto with made.
      clear - Hb F1 W. pose proof (shift_fair _ 0 F1) as F0. revert F0. generalize (shift o1 0) as o0. intros o0 F0. generalize 0 as i. induction Hb as [|a l Ha Hl IH]; intros i; simpl; constructor; auto. apply reject_run; auto with made.
    - destruct P2 as (r & P2). unfold v_oneOf in P2. destruct (n_oneOf n) as [|a l] eqn:En; [destruct Hi|]. rewrite <- En in *.
      apply bind_ok in P2. destruct P2 as (p & P2 & _). destruct (mapi_in' (fun i id => rec (shift (shift o1 1) i) id v c) _ _ Hi) as (i & Hin).
      pose proof (count_valid_ok _ _ _ _ P2 _ Hin). eapply made_of; [|eauto]. auto with made.
    - destruct P3 as (r & P3). unfold v_allOf in P3. destruct (n_allOf n) as [|a l] eqn:En; [destruct Hi|]. rewrite <- En in *.
      apply bind_ok in P3. destruct P3 as (p & P3 & _). destruct (mapi_in' (fun i id => rec (shift (shift o1 2) i) id v c) _ _ Hi) as (i & Hin).
      pose proof (merge_all_ok _ _ P3 _ Hin). eapply made_of; [|eauto]. auto with made.
    - destruct P4 as (r & P4). unfold v_not in P4. rewrite Hi in P4. apply bind_ok in P4. destruct P4 as (r' & P4 & _). exists (shift o1 3), r'. auto with made.
    - destruct P6 as (r & P6). unfold v_if in P6. rewrite Hi in P6. apply bind_ok in P6. destruct P6 as (r' & P6 & _). exists (shift (shift o1 5) 0), r'. auto with made.
    - destruct P6 as (r & P6). unfold v_if in P6. rewrite Hi, Ht in P6. apply bind_ok in P6. destruct P6 as (r' & Er & P6).
      apply accept_run with (r := r') (o := shift (shift o1 5) 0) in HA; auto with made. rewrite HA in P6. cbn [when] in P6.
      destruct (run_all_ok _ _ P6 _ (or_introl eq_refl)) as (rt & Et). apply bind_ok in Et. destruct Et as (rt' & Et & _). exists (shift (shift o1 5) 1), rt'. auto with made.
    - destruct P6 as (r & P6). unfold v_if in P6. rewrite Hi, Ht in P6. apply bind_ok in P6. destruct P6 as (r' & Er & P6).
      apply reject_run with (r := r') (o := shift (shift o1 5) 0) in HA; auto with made. rewrite HA in P6. cbn [when negb] in P6.
      destruct (run_all_ok _ _ P6 _ (or_intror (or_introl eq_refl))) as (rt & Et). apply bind_ok in Et. destruct Et as (rt' & Et & _). exists (shift (shift o1 5) 2), rt'. auto with made.
    - destruct P5 as (r & P5). unfold v_dependencies in P5. destruct (n_dependencies n) as [|i0 l0] eqn:En; [discriminate Hd|]. rewrite <- En in *. cbn [isKind_map obind] in P5.
      apply in_map_iff in Hk. destruct Hk as ([k' y] & Ek & Hk). cbn [fst] in Ek. subst k'.
      assert (Hk' : In (k, y) (pick (shift (shift o1 4) 0) m)) by (eapply Permutation_in; [apply pick_perm|exact Hk]; auto with made).
      destruct (mapi_in' (fun i e => v_dependency rec (shift (shift o1 4) (S i)) n m (VMap m) c (fst e)) _ _ Hk') as (i & Hin).
      pose proof (run_all_ok _ _ P5 _ Hin) as H. unfold v_dependency in H. cbn [fst] in H. rewrite Hd in H. eapply made_of; [|exact H]. auto with made.
    - destruct (Harr l eq_refl) as (o & F & r & E). pose proof (run_all_ok _ _ E _ (or_introl eq_refl)) as (r1 & E1). unfold v_items in E1. unfold checker in Hc. destruct (n_items_single n).
      + destruct (n_items n) as [|a ids]; [discriminate Hc|]. injection Hc as ->. pose proof (run_all_ok _ _ E1 _ (mapi_in (v_item rec (shift o 0) c id) _ _ _ Hx)) as H. eapply made_of; [|exact H]. auto with made.
      + destruct (n_items n) as [|a ids] eqn:Ei; [congruence|]. rewrite <- Ei in *. clear Ei a ids.
        destruct (nth_error (n_items n) i) as [b|] eqn:Eb.
        * injection Hc as ->. destruct (run_all_ok _ _ E1 _ (or_introl eq_refl)) as (r2 & E2).
          assert (G : forall ids l' i j x, nth_error ids j = Some id -> nth_error l' j = Some x -> In (v_item rec (shift o 0) c id (i + j) x) (v_items_zip rec (shift o 0) c i ids l')).
          { clear. induction ids as [|a ids IH]; intros [|y l'] i [|j] x H1 H2; simpl in *; try discriminate.
            - injection H1 as ->. injection H2 as ->. left. rewrite Nat.add_0_r. auto.
            - right. replace (i + S j) with (S i + j) by lia. apply IH; auto. }
          pose proof (run_all_ok _ _ E2 _ (G _ _ 0 _ _ Eb Hx)) as H. eapply made_of; [|exact H]. auto with made.
        * destruct (n_additionalItems n) as [[bb|b]|]; try discriminate Hc. injection Hc as ->.
          destruct (run_all_ok _ _ E1 _ (or_intror (or_introl eq_refl))) as (r2 & E2). apply nth_error_None in Eb. assert (Hl : i < length l) by (apply nth_error_Some; congruence).
          rewrite (proj2 (Nat.ltb_lt _ _)) in E2 by lia. cbn [when] in E2.
          assert (Hs : nth_error (skipn (length (n_items n)) l) (i - length (n_items n)) = Some x) by (rewrite nth_error_skipn; replace (length (n_items n) + (i - length (n_items n))) with i by lia; exact Hx).
          assert (G : In (v_item rec (shift o 0) c id i x) (mapi (v_item rec (shift o 0) c id) (length (n_items n)) (skipn (length (n_items n)) l))).
          { apply (nth_error_In _ (i - length (n_items n))). rewrite mapi_nth, Hs. cbn [option_map]. do 2 f_equal. lia. }
          pose proof (run_all_ok _ _ E2 _ G) as H. eapply made_of; [|exact H]. auto with made.
    - destruct (Harr l eq_refl) as (o & F & r & E). assert (H1 : ok (v_contains rec (shift o 1) n l c)) by (apply (run_all_ok _ _ E); simpl; tauto). destruct H1 as (r1 & E1).
      unfold v_contains in E1. rewrite Hc in E1. apply bind_ok in E1. destruct E1 as (p & E1 & _).
      destruct (nth_error_split _ _ Hx) as (l1 & l2 & -> & Hl). rewrite mapi_app in E1. simpl in E1. rewrite Hl in E1.
      eapply made_of; [|eapply first_valid_ok; [exact E1|]]; [auto with made|].
      apply Forall_forall. intros y Hy. destruct (In_nth_error _ _ Hy) as (j & Hj). rewrite mapi_nth in Hj. destruct (nth_error l1 j) as [z|] eqn:Ez; [|discriminate Hj]. injection Hj as <-.
      assert (Hjl : j < length l1) by (apply nth_error_Some; congruence). unfold v_item. apply reject_run; auto with made.
      + inversion W as [| | | | |? W'| |]; subst. rewrite Forall_forall in W'. apply W'. apply in_or_app. left. eapply nth_error_In; eauto.
      + apply Hb; [lia|]. rewrite nth_error_app1 by lia. exact Ez.
    - destruct (Hobj m eq_refl) as (_ & o & _ & F & _ & r & E). apply In_nth_error in Hi. destruct Hi as (i & Hi). pose proof (run_all_ok _ _ E _ (mapi_in (v_property h rec o m c) _ _ _ Hi)) as H.
      unfold v_property, prop_name in H. rewrite Hp in H. cbn [obind] in H. rewrite Hx in H. eapply made_of; [|exact H]. auto with made.
    - destruct (Hobj m eq_refl) as (o & _ & F & _ & (r & E) & _). assert (H1 : ok (v_members env h rec (shift o 0) n m c)) by (apply (run_all_ok _ _ E); simpl; tauto). destruct H1 as (r1 & E1). unfold v_members in E1.
      assert (Hk' : In (k, x) (pick (shift (shift o 0) 0) m)) by (eapply Permutation_in; [apply pick_perm|exact Hin]; auto with made).
      destruct (mapi_in' (fun i e => v_member env h rec (shift (shift o 0) (S i)) n c e) _ _ Hk') as (i & Hi). destruct (run_all_ok _ _ E1 _ Hi) as (r2 & E2).
      unfold v_member in E2. apply bind_ok in E2. destruct E2 as (f & _ & E2). apply bind_ok in E2. destruct E2 as (q & E2 & _). unfold validatePatternProperty in E2. apply bind_ok in E2. destruct E2 as (r3 & E3 & _).
      set (hits := filter _ _) in E3. assert (Hh : In (p, id) hits).
      { apply filter_In. split; [eapply Permutation_in; [apply pick_perm|exact Hp]; auto with made|]. unfold re_matches. cbn [fst]. rewrite Hok, Hm. reflexivity. }
      destruct (mapi_in' (fun j e => rec (shift (shift (shift (shift o 0) (S i)) 0) (S j)) (snd e) x (NewJsonContext k c)) _ _ Hh) as (j & Hj).
      pose proof (run_all_ok _ _ E3 _ Hj) as H. eapply made_of; [|exact H]. auto 10 with made.
    - destruct (Hobj m eq_refl) as (o & _ & F & _ & (r & E) & _). assert (H1 : ok (v_members env h rec (shift o 0) n m c)) by (apply (run_all_ok _ _ E); simpl; tauto). destruct H1 as (r1 & E1). unfold v_members in E1.
      assert (Hk' : In (k, x) (pick (shift (shift o 0) 0) m)) by (eapply Permutation_in; [apply pick_perm|exact Hin]; auto with made).
      destruct (mapi_in' (fun i e => v_member env h rec (shift (shift o 0) (S i)) n c e) _ _ Hk') as (i & Hi). destruct (run_all_ok _ _ E1 _ Hi) as (r2 & E2).
      unfold v_member in E2. apply bind_ok in E2. destruct E2 as (f & Ef & E2). pose proof (described_has h _ _ _ Ef) as Hd. destruct f; [destruct Hno; apply Hd; reflexivity|].
      apply bind_ok in E2. destruct E2 as (q & Eq & E2). unfold validatePatternProperty in Eq. set (hits := filter _ _) in Eq.
      assert (Hh : hits = []).
      { destruct hits as [|e es] eqn:Eh; auto. assert (He : In e hits) by (rewrite Eh; left; auto). unfold hits in He. apply filter_In in He. destruct He as [H1 H2].
        assert (In e (matching env n k)) by (apply filter_In; split; [eapply in_pick; [|exact H1]; auto with made|exact H2]). rewrite Hma in H. destruct H. }
      rewrite Hh in Eq. simpl in Eq. injection Eq as <-. cbn [fst negb andb] in E2. rewrite Had in E2. apply bind_ok in E2. destruct E2 as (r3 & E3 & _). exists (shift (shift (shift o 0) (S i)) 1), r3. auto with made.
    - destruct (Hobj m eq_refl) as (o & _ & F & _ & (r & E) & _). assert (H1 : ok (v_propertyNames rec (shift o 1) n m c)) by (apply (run_all_ok _ _ E); simpl; tauto). destruct H1 as (r1 & E1). unfold v_propertyNames in E1. rewrite Hn in E1.
      assert (Hk' : In (k, x) (pick (shift (shift o 1) 0) m)) by (eapply Permutation_in; [apply pick_perm|exact Hin]; auto with made).
      apply In_nth_error in Hk'. destruct Hk' as (i & Hi).
      pose proof (run_all_ok _ _ E1 _ (mapi_in (fun i e => do r <- rec (shift (shift o 1) (S i)) id (VStr (fst e)) c; when (negb (Valid r)) (run_all [Ok (emit InvalidPropertyNameError c (VMap m) [("property", DStr (fst e))]); Ok r])) _ _ _ Hi)) as (r2 & E2).
      cbn [fst] in E2. apply bind_ok in E2. destruct E2 as (r3 & E3 & _). exists (shift (shift o 1) (S i)), r3. auto with made.
  Qed.
End Made.

Section Loops.
  Variables (env : goenv) (h : heap).

  Lemma asks_wf n v c id x d : wf_value v -> asks env h n v c id x d -> wf_value x.
  Proof.
    intros W []; auto; subst v; try constructor; inversion W as [| | | | |? W'|? ? W'|]; subst; rewrite Forall_forall in W'.
    - eapply W', nth_error_In; eauto.
    - eapply W', nth_error_In; eauto.
    - match goal with H : assoc _ _ = Some _ |- _ => apply assoc_In in H; exact (W' _ H) end.
    - exact (W' _ H0).
    - exact (W' _ H0).
  Qed.
  Lemma held_wf v w : wf_value v -> held v w -> wf_value w.
  Proof. intros W H. destruct v; cbn [held] in H; subst; auto; [contradiction|]. eapply convert_wf; eauto. Qed.
  Lemma makes_wf id v c id' x d : wf_value v -> makes env h (id, v, c) (id', x, d) -> wf_value x.
  Proof. intros W H. inversion H; subst; auto. eapply asks_wf; [eapply held_wf; eauto|eauto]. Qed.

  (** A run that returns has run every check it makes, with less fuel. *)
  Lemma makes_run k o id v c r id' x d : fair o -> wf_value v -> validateRecursive env h k o id v c = Ok r ->
    makes env h (id, v, c) (id', x, d) -> exists k' o' r', k = S k' /\ fair o' /\ validateRecursive env h k' o' id' x d = Ok r'.
  Proof.
    intros F W E Hm. destruct k as [|k]; [discriminate E|]. cbn [validateRecursive] in E. exists k.
    assert (G : made env h k id' x d); [|destruct G as (o' & r' & F' & E'); exists o', r'; auto].
    inversion Hm as [? n ? ? ? En Hp Hr|? n ? w ? ? ? ? En Hp Hr Ht Hh Ha]; subst; rewrite En in E; unfold validateNode in E; rewrite Hp, Hr in E.
    { exists o, r. auto. }
    assert (Ww : wf_value w) by (eapply held_wf; eauto).
    assert (Obj : forall m, w = VMap m -> object_checks env h (validateRecursive env h k) o n m c = Ok r -> made env h k id' x d).
    { intros m -> Eo. unfold object_checks in Eo. pose proof (run_all_ok _ _ Eo) as H.
      eapply (made_asks env h k n (shift o 0)); [apply shift_fair; auto|exact Ww|apply H; simpl; tauto| | |exact Ha]; [discriminate|].
      intros m' Em. injection Em as <-. exists (shift o 1), (shift o 2). split; [apply shift_fair; auto|]. split; [apply shift_fair; auto|]. split; apply H; simpl; tauto. }
    assert (Sca : (forall l, w <> VArr l) -> (forall m, w <> VMap m) -> scalar_checks env (validateRecursive env h k) o n w c = Ok r -> made env h k id' x d).
    { intros N1 N2 Eo. unfold scalar_checks in Eo. pose proof (run_all_ok _ _ Eo) as H.
      eapply (made_asks env h k n o); [auto|exact Ww|apply H; simpl; tauto| | |exact Ha]; [intros l El; destruct (N1 l El)|intros m Em; destruct (N2 m Em)]. }
    destruct v as [|b|s|f|s|l|m|m]; cbn [held] in Hh; [..|]; try contradiction; cbv zeta in E.
    all: match goal with _ : (if (_ && negb ?b)%bool then _ else _) = _ |- _ => set (t := b) in E end.
    all: match goal with H : type_allowed _ ?n0 ?v |- _ =>
      assert (Hok : t = true <-> exists t, In t (value_types env v) /\ In t (n_types n0))
        by (first [apply contains_one | apply contains_number]) end.
    all: rewrite (proj2 (typed_ok env n _ _ Hok) Ht) in E.
    all: try (subst w; apply Sca; auto; discriminate).
    - subst w. pose proof (run_all_ok _ _ E) as H. eapply (made_asks env h k n o); [auto|exact Ww|apply H; simpl; tauto| | |exact Ha]; discriminate.
    - subst w. pose proof (run_all_ok _ _ E) as H. eapply (made_asks env h k n (shift o 0)); [apply shift_fair; auto|exact Ww|apply H; simpl; tauto| | |exact Ha]; [|discriminate].
      intros l' El. injection El as <-. exists (shift o 1). split; [apply shift_fair; auto|]. apply H. simpl. tauto.
    - subst w. eapply Obj; eauto.
    - rewrite Hh in E. cbn [obind] in E. destruct w; try discriminate E. eapply Obj; eauto.
  Qed.

  Definition runs (k : nat) (a : check) : Prop :=
    wf_value (snd (fst a)) /\ exists o r, fair o /\ validateRecursive env h k o (fst (fst a)) (snd (fst a)) (snd a) = Ok r.
  Lemma runs_makes k a b : runs k a -> makes env h a b -> exists k', k' < k /\ runs k' b.
  Proof.
    destruct a as [[id v] c], b as [[id' x] d]. intros [W (o & r & F & E)] H. cbn [fst snd] in *. destruct (makes_run _ _ _ _ _ _ _ _ _ F W E H) as (k' & o' & r' & -> & F' & E').
    exists k'. split; [lia|]. split; [eapply makes_wf; eauto|]. exists o', r'. auto.
  Qed.
  Lemma runs_trans a b : clos_trans _ (makes env h) a b -> forall k, runs k a -> exists k', k' < k /\ runs k' b.
  Proof.
    induction 1 as [a b H|a b c _ IH1 _ IH2]; intros k R; [eapply runs_makes; eauto|].
    destruct (IH1 k R) as (k1 & L1 & R1). destruct (IH2 k1 R1) as (k2 & L2 & R2). exists k2. split; [lia|auto].
  Qed.
  Lemma runs_refl_trans a b : clos_refl_trans _ (makes env h) a b -> forall k, runs k a -> exists k', runs k' b.
  Proof.
    induction 1 as [a b H|a|a b c _ IH1 _ IH2]; intros k R; [destruct (runs_makes k a b R H) as (k' & _ & ?); eauto|eauto|].
    destruct (IH1 k R) as (k1 & R1). eauto.
  Qed.
  Theorem loops_never_return id v c : wf_value v -> loops env h (id, v, c) ->
    forall k o r, fair o -> validateRecursive env h k o id v c <> Ok r.
  Proof.
    intros W (b & Hab & Hbb) k o r F E.
    assert (R : runs k (id, v, c)) by (split; [exact W|]; exists o, r; auto). destruct (runs_refl_trans _ _ Hab k R) as (k1 & R1).
    revert R1. induction k1 as [k1 IH] using (well_founded_induction lt_wf). intros R1. destruct (runs_trans _ _ Hbb k1 R1) as (k2 & L2 & R2). eauto.
  Qed.
End Loops.
