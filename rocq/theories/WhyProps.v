(** Every error has a reason (SpecWhy.v). *)
From Coq Require Import Relations.
From Verif Require Import ValidateErrors ValidateKeywords SpecWhy.

Lemma nth_Forall2 {A B} (R : A -> B -> Prop) l l' : Forall2 R l l' -> forall x, In x l -> exists y, In y l' /\ R x y.
Proof. induction 1; intros a []; subst; [exists y; simpl; auto|]. destruct (IHForall2 a) as (z & ? & ?); auto. exists z. simpl. auto. Qed.

Section Cell.
  Variables (env : goenv) (h : heap) (k0 : nat).
  Notation rec := (validateRecursive env h k0).
  Notation because := (why env h).
  Hypothesis Hrec : forall o id v c, fair o -> all_errors (rec o id v c) (because (id, v, c)).

  Variables (id : nat) (n : node).
  Hypothesis Hn : nth_error h id = Some n.
  Hypothesis Hpass : n_pass n = None.
  Hypothesis Href : n_ref n = None.
  Hint Resolve shift_fair ae_new ae_inc ae_panic ae_when : ae.

  Lemma because_lead a b e : leads env h a b -> because b e -> because a e.
  Proof. intros H (i & v & c & H1 & H2). exists i, v, c. split; auto. eapply rt_trans; [apply rt_step; eauto|auto]. Qed.
  Lemma ae_hand o id' x d v c : fair o -> hands env h n v c id' x d -> all_errors (rec o id' x d) (because (id, v, c)).
  Proof. intros F H. eapply ae_impl; [|apply Hrec; auto]. intros e. apply because_lead. eapply l_hands; eauto. Qed.
  Lemma because_own t c v d : broken env h n v c (r_details (newError t c v d)) t -> because (id, v, c) (newError t c v d).
  Proof. intros H. exists id, v, c. split; [apply rt_refl|]. exists n. split; auto. split; [reflexivity|]. right; left. auto. Qed.
  Lemma ae_own t c v d : broken env h n v c (r_details (newError t c v d)) t -> all_errors (Ok (emit t c v d)) (because (id, v, c)).
  Proof. intros H. apply ae_emit, because_own, H. Qed.
  Lemma ae_when' b x P : (b = true -> all_errors x P) -> all_errors (when b x) P.
  Proof. destruct b; auto. intros _. apply ae_new. Qed.
  Lemma ran o i v c r : fair o -> rec o i v c = Ok r -> if Valid r then accepts env h i v c else rejects env h i v c.
  Proof. intros F E. destruct (Valid r) eqn:V; exists r; split; auto; exists k0, o; auto. Qed.
  Lemma all_reject v c ids rs : Forall2 (sub env h v c) ids rs -> Forall (fun r => Valid r = false) rs -> forall i, In i ids -> rejects env h i v c.
  Proof. intros H HF i Hi. destruct (nth_Forall2 _ _ _ H i Hi) as (r & Hr & Hs). exists r. split; auto. rewrite Forall_forall in HF. auto. Qed.

  Lemma branch_blamed o v c ids rs b : fair o -> branch_results rec o v c ids rs -> In b rs ->
    (forall i, In i ids -> hands env h n v c i v c) -> Forall (because (id, v, c)) (errors b).
  Proof.
    intros F H Hb Hi. destruct (In_nth_error _ _ Hb) as (i & Ei). unfold branch_results in H. pose proof (f_equal (fun z => nth_error z i) H) as E. cbn beta in E.
    rewrite mapi_nth, nth_error_map, Ei in E. destruct (nth_error ids i) as [j|] eqn:Ej; [|discriminate E]. injection E as E.
    eapply ae_hand; [|apply Hi; eapply nth_error_In; eauto|exact E]. auto with ae.
  Qed.
  Lemma closest_In rs b : closest rs b -> In b rs.
  Proof. intros (l1 & l2 & -> & _). apply in_elt. Qed.

  Lemma why_anyOf o v c : fair o -> all_errors (v_anyOf rec o n v c) (because (id, v, c)).
  Proof.
    intros F r E. destruct (list_eq_dec Nat.eq_dec (n_anyOf n) []) as [En|En].
    - unfold v_anyOf in E. rewrite En in E. injection E as <-. constructor.
    - destruct (anyOf_parts _ _ _ _ _ _ En E) as [(-> & _)|(rs & b & H1 & H2 & H3 & ->)]; [constructor|]. constructor.
      + apply because_own. split; auto. eapply all_reject; eauto. eapply branch_sub; eauto.
      + eapply branch_blamed; eauto using closest_In, h_anyOf.
  Qed.
  Lemma why_oneOf o v c : fair o -> all_errors (v_oneOf rec o n v c) (because (id, v, c)).
  Proof.
    intros F r E. destruct (list_eq_dec Nat.eq_dec (n_oneOf n) []) as [En|En].
    - unfold v_oneOf in E. rewrite En in E. injection E as <-. constructor.
    - destruct (oneOf_parts _ _ _ _ _ _ En E) as (rs & H1 & H2 & H3 & H4).
      assert (W : valid_count rs <> 1 -> because (id, v, c) (newError NumberOneOfError c v [])).
      { intros V. apply because_own. split; [auto|]. exists rs. split; [eapply branch_sub; eauto|exact V]. }
      destruct (valid_count rs) as [|[|k]] eqn:V.
      + destruct (H4 eq_refl) as (b & H5 & ->). constructor; [apply W; lia|]. eapply branch_blamed; eauto using closest_In, h_oneOf.
      + rewrite H2 by reflexivity. constructor.
      + rewrite H3 by lia. constructor; [|constructor]. apply W. lia.
  Qed.
  Lemma why_allOf o v c : fair o -> all_errors (v_allOf rec o n v c) (because (id, v, c)).
  Proof.
    intros F. unfold v_allOf. destruct (n_allOf n) as [|i l] eqn:En; auto with ae. rewrite <- En.
    apply ae_bind. intros p Ep. apply ae_run_all. constructor; [|constructor; [|constructor]].
    - apply ae_ok. eapply ae_merge_all; [|exact Ep]. apply ae_mapi. intros j a Ha. eapply ae_hand; [auto with ae|apply h_allOf; auto].
    - apply ae_when'. intros B. apply ae_own. destruct (merge_all_own env h k0 c o v _ 0 p F Ep) as (rs & H1 & _ & _ & H2).
      rewrite H2 in B. apply negb_true_iff in B. clear - H1 B. unfold broken. revert B. induction H1 as [|a r0 la lr S0 S1 IH]; intros B; [discriminate B|]. cbn [forallb] in B.
      destruct (Valid r0) eqn:V; [|exists a; split; [left; auto|exists r0; auto]]. destruct (IH B) as (a' & H & H'). exists a'. split; [right; auto|auto].
  Qed.
  Lemma why_not o v c : fair o -> all_errors (v_not rec o n v c) (because (id, v, c)).
  Proof.
    intros F. unfold v_not. destruct (n_not n) as [i|] eqn:En; auto with ae. apply ae_bind. intros r Er. apply ae_when'. intros B. apply ae_own.
    exists i. split; auto. pose proof (ran _ _ _ _ _ F Er) as H. rewrite B in H. exact H.
  Qed.
  Lemma in_pick {A} o (l : list A) x : fair o -> In x (pick o l) -> In x l.
  Proof. intros F H. eapply Permutation_in; [symmetry; apply pick_perm; eauto|auto]. Qed.
  Lemma why_dependencies o v c : fair o -> all_errors (v_dependencies env rec o n v c) (because (id, v, c)).
  Proof.
    intros F. unfold v_dependencies. destruct (n_dependencies n) as [|i0 l0] eqn:En; auto with ae.
    apply ae_bind. intros [|] Ep; auto with ae. destruct v; auto with ae.
    apply ae_run_all, ae_mapi. intros j [k x] Hin. apply in_pick in Hin; [|auto with ae]. unfold v_dependency. cbn [fst].
    assert (Hk : In k (map fst m)) by (apply in_map_iff; exists (k, x); auto).
    destruct (assoc k _) as [[ks|t]|] eqn:Ea; auto with ae.
    - apply ae_run_all. apply Forall_map, Forall_forall. intros k' Hk'. destruct (assoc k' m) eqn:Em; auto with ae. apply ae_own.
      exists m, k, ks, k'. split; auto. split; auto. split; auto. split; auto. split; auto. reflexivity.
    - eapply ae_hand; [auto with ae|]. eapply h_dependency; eauto.
  Qed.
  Lemma why_if o v c : fair o -> all_errors (v_if rec o n v c) (because (id, v, c)).
  Proof.
    intros F. unfold v_if. destruct (n_if n) as [i|] eqn:Ei; auto with ae.
    apply ae_bind. intros r Er. pose proof (ran _ _ _ _ _ (shift_fair _ 0 F) Er) as HV.
    assert (H : forall k t et, hands env h n v c t v c -> (rejects env h t v c -> broken env h n v c (r_details (newError et c v [])) et) -> all_errors
      (do rt <- rec (shift o k) t v c;
       when (negb (Valid rt)) (run_all [Ok (emit et c v []); Ok rt])) (because (id, v, c))).
    { intros k t et Hh Hb. apply ae_bind. intros rt Et. apply ae_when'. intros B. pose proof (ran _ _ _ _ _ (shift_fair _ k F) Et) as Ht.
      apply negb_true_iff in B. rewrite B in Ht. apply ae_run_all. constructor; [apply ae_own; auto|]. constructor; [|constructor].
      rewrite <- Et. eapply ae_hand; [auto with ae|exact Hh]. }
    apply ae_run_all. constructor; [|constructor; [|constructor]].
    - destruct (n_then n) as [t|] eqn:Et; auto with ae. apply ae_when'. intros B. rewrite B in HV. apply H; [eapply h_then; eauto|]. intros R. exists i, t. auto.
    - destruct (n_else n) as [t|] eqn:Et; auto with ae. apply ae_when'. intros B. apply negb_true_iff in B. rewrite B in HV. apply H; [eapply h_else; eauto|]. intros R. exists i, t. auto.
  Qed.
  Lemma why_schema o v c : fair o -> all_errors (validateSchema env rec o n v c) (because (id, v, c)).
  Proof.
    intros F. unfold validateSchema. apply ae_run_all.
    repeat (constructor; [auto using why_anyOf, why_oneOf, why_allOf, why_not, why_dependencies, why_if with ae|]). constructor.
  Qed.

  Lemma why_common v c : all_errors (validateCommon env n v c) (because (id, v, c)).
  Proof.
    unfold validateCommon. apply ae_run_all.
    constructor; [|constructor; [|constructor; [|constructor; [auto with ae|constructor]]]].
    - unfold v_const. destruct (n_const n) as [k|] eqn:E; auto with ae. destruct (marshalWithoutNumber v) as [t|] eqn:Em; auto with ae.
      apply ae_when'. intros B. apply ae_own. exists k, t. split; auto. split; auto. split; [|reflexivity].
      intros ->. rewrite String.eqb_refl in B. discriminate B.
    - unfold v_enum. destruct (n_enum n) as [|k l] eqn:E; auto with ae. destruct (marshalWithoutNumber v) as [t|] eqn:Em; auto with ae.
      apply ae_when'. intros B. apply ae_own. exists t. rewrite E. split; [discriminate|]. split; auto. split; [|reflexivity].
      intros H. apply CompileInv.in_slice in H. rewrite H in B. discriminate B.
    - unfold v_format. destruct (String.eqb_spec (n_format n) ""); auto with ae. apply ae_when'. intros B. apply ae_own. apply negb_true_iff in B. split; auto. split; auto. reflexivity.
  Qed.

  Lemma why_item o c l id' i x : fair o -> hands env h n (VArr l) c id' x (itoa (Z.of_nat i) :: c) -> all_errors (v_item rec o c id' i x) (because (id, VArr l, c)).
  Proof. intros F H. unfold v_item. eapply ae_hand; auto with ae. Qed.
  Lemma why_zip o c l ids : forall l' i, fair o ->
    (forall j x id', nth_error ids j = Some id' -> nth_error l' j = Some x -> hands env h n (VArr l) c id' x (itoa (Z.of_nat (i + j)) :: c)) ->
    Forall (fun x => all_errors x (because (id, VArr l, c))) (v_items_zip rec o c i ids l').
  Proof.
    induction ids as [|a ids IH]; intros [|x l'] i F H; simpl; constructor.
    - apply why_item; auto. specialize (H 0 x a eq_refl eq_refl). rewrite Nat.add_0_r in H. exact H.
    - apply IH; auto. intros j y b Hb Hy. replace (S i + j) with (i + S j) by lia. apply H; auto.
  Qed.
  Lemma why_array o l c : fair o -> all_errors (validateArray rec o n l c) (because (id, VArr l, c)).
  Proof.
    intros F. unfold validateArray. apply ae_run_all.
    constructor; [|constructor; [|constructor; [|constructor; [|constructor; [|constructor; [auto with ae|constructor]]]]]].
    - unfold v_items. destruct (n_items_single n) eqn:Es.
      + destruct (n_items n) as [|a ids] eqn:Ei; [destruct l; auto with ae|].
        apply ae_run_all, ae_mapi_nth. intros j x Hx. apply why_item; auto with ae. eapply h_items; eauto; [rewrite Ei; discriminate|]. rewrite Es, Ei. reflexivity.
      + destruct (n_items n) as [|a ids] eqn:Ei; auto with ae. rewrite <- Ei. apply ae_run_all. constructor; [|constructor; [|constructor]].
        * apply ae_run_all, why_zip; auto with ae. intros j x b Hb Hx. eapply h_items; eauto; [rewrite Ei; discriminate|]. rewrite Es. unfold checker. cbn [Nat.add]. rewrite Hb. reflexivity.
        * apply ae_when'. intros B. apply Nat.ltb_lt in B. destruct (n_additionalItems n) as [[[|]|b]|] eqn:Ea; auto with ae.
          { apply ae_own. exists l. rewrite Ei in *. split; auto. split; [discriminate|]. auto. }
          apply ae_run_all, ae_mapi_nth. intros j x Hx. apply why_item; auto with ae. rewrite nth_error_skipn in Hx. eapply h_items; eauto; [rewrite Ei; discriminate|].
          rewrite Es, Ea. unfold checker. rewrite (proj2 (nth_error_None (n_items n) (length (n_items n) + j))) by lia. reflexivity.
    - unfold v_minItems. destruct (n_minItems n) as [k|] eqn:E; auto with ae. apply ae_when'. intros B. apply ae_own. exists l, k. apply Z.ltb_lt in B. split; auto. split; auto. split; auto. reflexivity.
    - unfold v_maxItems. destruct (n_maxItems n) as [k|] eqn:E; auto with ae. apply ae_when'. intros B. apply ae_own. exists l, k. apply Z.ltb_lt in B. split; auto. split; auto. split; auto. reflexivity.
    - intros r E. pose proof (unique_reports env h n c l r E) as R. cbn [reports on_array] in R. destruct R as [(_ & R)|(Hu & ts & ps & Ht & _ & Hp & He)]; [rewrite R; constructor|].
      rewrite He. apply Forall_forall. intros e Hin. apply in_map_iff in Hin. destruct Hin as ([i j] & <- & Hin). apply Hp in Hin. destruct Hin as (Hlt & x & H1 & H2 & _). cbn [fst snd] in *.
      assert (G : forall i t, nth_error ts i = Some t -> exists y, nth_error l i = Some y /\ marshalWithoutNumber y = Some t).
      { clear - Ht. intros i t H. pose proof (f_equal (fun z => nth_error z i) Ht) as E. cbn beta in E. rewrite !nth_error_map, H in E. destruct (nth_error l i) as [y|]; [|discriminate E]. injection E as E. eauto. }
      destruct (G _ _ H1) as (y1 & A1 & A2). destruct (G _ _ H2) as (y2 & B1 & B2). unfold unique_error. apply because_own.
      exists l, i, j, y1, y2, x. split; [reflexivity|]. repeat (split; [assumption|]). split; [|split]; reflexivity.
    - intros r E. pose proof (contains_reports env h k0 n c _ l r (shift_fair _ 1 F) E) as R. unfold v_contains in E. cbn [reports] in R. destruct (n_contains n) as [a|] eqn:Ec; [|injection E as <-; constructor].
      revert r E R. change (forall r, (do p <- first_valid None (mapi (v_item rec (shift o 1) c a) 0 l);
        if fst p then Ok new_result else run_all [Ok (emit ArrayContainsError c (VArr l) []); merge_best_opt (snd p)]) = Ok r -> contains_own env h (VArr l) c l a (errors r) -> Forall (because (id, VArr l, c)) (errors r)).
      intros r E R. destruct R as [(-> & _)|(rs & H1 & H2 & _)]; [constructor|].
      assert (W : because (id, VArr l, c) (newError ArrayContainsError c (VArr l) [])).
      { apply because_own. exists l, a. split; auto. split; auto. intros i x Hx. destruct (nth_Forall2 _ _ _ H1 (i, x)) as (rx & Hr & Hs).
        - apply (nth_error_In _ i). apply indexed_nth. cbn [fst snd]. auto.
        - exists rx. split; [exact Hs|]. rewrite Forall_forall in H2. auto. }
      revert r E. apply ae_bind. intros p Ep. destruct (fst p); auto with ae. apply ae_run_all. constructor; [apply ae_emit, W|]. constructor; [|constructor].
      unfold merge_best_opt. destruct (snd p) eqn:Es; auto with ae.
      apply ae_ok. eapply ae_first_valid; [| |exact Ep|exact Es]; [|discriminate].
      apply ae_mapi_nth. intros j x Hx. apply why_item; auto with ae. eapply h_contains; eauto.
  Qed.

  Lemma why_member o c m k x : fair o -> In (k, x) m -> all_errors (v_member env h rec o n c (k, x)) (because (id, VMap m, c)).
  Proof.
    intros F Hin. unfold v_member. apply ae_bind. intros found Ed. apply ae_bind. intros p Ep. pose proof (described_has h _ _ _ Ed) as Hd.
    unfold validatePatternProperty in Ep. set (hits := filter _ _) in Ep.
    assert (Hh : forall q, In q hits <-> In q (matching env n k)).
    { intros q. unfold hits, matching, re_matches. rewrite !filter_In. split; intros [H1 H2]; split; auto.
      - eapply in_pick; [|eauto]. auto with ae.
      - eapply Permutation_in; [apply pick_perm|auto]. auto with ae. }
    destruct (run_all _) as [r| |] eqn:Er in Ep; simpl in Ep; try discriminate Ep.
    assert (Hr : Forall (because (id, VMap m, c)) (errors r)).
    { refine (ae_run_all _ _ (ae_mapi _ _ _ _ 0) r Er). intros i [q a] Hq. apply Hh in Hq. apply filter_In in Hq. destruct Hq as [H1 H2]. apply andb_true_iff in H2. destruct H2.
      eapply ae_hand; [auto with ae|]. eapply h_pattern; eauto. }
    apply ae_bind. intros r' Er'. apply ae_ok. cbn [radd errors]. apply Forall_app. split.
    - destruct hits; injection Ep as <-; cbn [snd radd errors]; [exact Hr|]. apply Forall_app. split; [exact Hr|constructor].
    - destruct found; cbn [negb andb] in Er'; [injection Er' as <-; constructor|].
      assert (Hno : ~ has_property h n k) by (intros H; apply Hd in H; discriminate H).
      assert (Hf : fst p = false -> matching env n k = []).
      { intros H. destruct hits as [|q hs]; [|injection Ep as <-; discriminate H]. destruct (matching env n k) as [|q qs]; auto. destruct (proj2 (Hh q)). left. auto. }
      destruct (fst p); cbn [negb] in Er'; [injection Er' as <-; constructor|]. specialize (Hf eq_refl).
      destruct (n_additionalProperties n) as [[[|]|a]|] eqn:Ea; try (injection Er' as <-; constructor; fail).
      + injection Er' as <-. constructor; [|constructor]. exists id, (VMap m), c. split; [apply rt_refl|]. exists n. split; auto. split; [reflexivity|]. right; right.
        split; auto. split; auto. split; [reflexivity|]. exists m, k. split; [reflexivity|]. split; [exact Hin|]. repeat (split; [assumption|]). reflexivity.
      + eapply (ae_hand (shift o 1)); [auto with ae| |exact Er']. eapply h_additional; eauto.
  Qed.
  Lemma why_object o m c : fair o -> all_errors (validateObject env h rec o n m c) (because (id, VMap m, c)).
  Proof.
    intros F. unfold validateObject. apply ae_run_all.
    constructor; [|constructor; [|constructor; [|constructor; [|constructor; [|constructor; [auto with ae|constructor]]]]]].
    - unfold v_minProperties. destruct (n_minProperties n) as [k|] eqn:E; auto with ae. apply ae_when'. intros B. apply ae_own. exists m, k. apply Z.ltb_lt in B. split; auto. split; auto. split; auto. reflexivity.
    - unfold v_maxProperties. destruct (n_maxProperties n) as [k|] eqn:E; auto with ae. apply ae_when'. intros B. apply ae_own. exists m, k. apply Z.ltb_lt in B. split; auto. split; auto. split; auto. reflexivity.
    - unfold v_required. apply ae_run_all. apply Forall_map, Forall_forall. intros k Hk. destruct (assoc k m) eqn:Em; auto with ae. apply ae_own. exists m, k. split; auto. split; auto. split; auto. reflexivity.
    - unfold v_members. apply ae_run_all, ae_mapi. intros i [k x] Hin. apply why_member; auto with ae. eapply in_pick; [|eauto]. auto with ae.
    - unfold v_propertyNames. destruct (n_propertyNames n) as [a|] eqn:Ea; auto with ae.
      apply ae_run_all, ae_mapi. intros i [k x] Hin. apply in_pick in Hin; auto with ae. cbn [fst].
      apply ae_bind. intros r Er. apply ae_when'. intros B. apply negb_true_iff in B. pose proof (ran _ _ _ _ _ (shift_fair _ (S i) (shift_fair _ 1 F)) Er) as HV. rewrite B in HV.
      apply ae_run_all. constructor.
      + apply ae_own. exists m, k, a. split; auto. split; [apply in_map_iff; exists (k, x); auto|]. split; auto. split; auto. reflexivity.
      + constructor; [|constructor]. rewrite <- Er. eapply ae_hand; [auto with ae|]. eapply h_name; eauto.
  Qed.
  Lemma why_number v c : all_errors (validateNumber env n v c) (because (id, v, c)).
  Proof.
    unfold validateNumber. destruct v as [| |s| | | | |]; auto with ae.
    apply ae_run_all. constructor; [|constructor; [|constructor; [|constructor; [|constructor; [|constructor; [auto with ae|constructor]]]]]].
    - unfold v_multipleOf. destruct (n_multipleOf n) as [b|] eqn:E; auto with ae. destruct (rat_of _ s) as [q|] eqn:Eq; auto with ae.
      destruct (Qeq_bool b 0) eqn:E0; auto with ae. apply ae_when'. intros B. apply ae_own. exists b. split; auto. split; [reflexivity|]. exists s, q. split; auto. split; auto.
      assert (Hm : ~ (b == 0)%Q). { intros H. apply Qeq_bool_iff in H. congruence. }
      split; auto. rewrite <- (Qdiv_int q b Hm). apply negb_true_iff in B. congruence.
    - unfold v_bound. destruct (n_maximum n) as [b|] eqn:E; auto with ae. destruct (rat_of _ s) as [q|] eqn:Eq; auto with ae. apply ae_when'. intros B. apply ae_own.
      exists b. split; auto. split; [reflexivity|]. exists s, q. split; auto. split; auto. apply Qgt_alt. destruct (q ?= b)%Q; congruence.
    - unfold v_bound. destruct (n_exclusiveMaximum n) as [b|] eqn:E; auto with ae. destruct (rat_of _ s) as [q|] eqn:Eq; auto with ae. apply ae_when'. intros B. apply ae_own.
      exists b. split; auto. split; [reflexivity|]. exists s, q. split; auto. split; auto. apply Qge_alt. destruct (q ?= b)%Q; congruence.
    - unfold v_bound. destruct (n_minimum n) as [b|] eqn:E; auto with ae. destruct (rat_of _ s) as [q|] eqn:Eq; auto with ae. apply ae_when'. intros B. apply ae_own.
      exists b. split; auto. split; [reflexivity|]. exists s, q. split; auto. split; auto. apply Qlt_alt. destruct (q ?= b)%Q; congruence.
    - unfold v_bound. destruct (n_exclusiveMinimum n) as [b|] eqn:E; auto with ae. destruct (rat_of _ s) as [q|] eqn:Eq; auto with ae. apply ae_when'. intros B. apply ae_own.
      exists b. split; auto. split; [reflexivity|]. exists s, q. split; auto. split; auto. apply Qle_alt. destruct (q ?= b)%Q; congruence.
  Qed.
  Lemma why_string v c : all_errors (validateString env n v c) (because (id, v, c)).
  Proof.
    unfold validateString. destruct v as [| | | |s| | |]; simpl; auto with ae.
    unfold v_string_checks. apply ae_run_all.
    constructor; [|constructor; [|constructor; [|constructor; [auto with ae|constructor]]]].
    - destruct (n_minLength n) as [k|] eqn:E; auto with ae. apply ae_when'. intros B. apply ae_own. exists s, k. apply Z.ltb_lt in B. split; auto. split; auto. split; auto. reflexivity.
    - destruct (n_maxLength n) as [k|] eqn:E; auto with ae. apply ae_when'. intros B. apply ae_own. exists s, k. apply Z.ltb_lt in B. split; auto. split; auto. split; auto. reflexivity.
    - destruct (n_pattern n) as [p|] eqn:E; auto with ae. apply ae_when'. intros B. apply ae_own. exists s, p. apply negb_true_iff in B. split; auto. split; auto. split; auto. reflexivity.
  Qed.
  Lemma why_scalar o v c : fair o -> all_errors (scalar_checks env rec o n v c) (because (id, v, c)).
  Proof.
    intros F. unfold scalar_checks. apply ae_run_all.
    repeat (constructor; [auto using why_schema, why_number, why_common, why_string with ae|]). constructor.
  Qed.
  Lemma why_object_checks o m c : fair o -> all_errors (object_checks env h rec o n m c) (because (id, VMap m, c)).
  Proof.
    intros F. unfold object_checks. apply ae_run_all.
    constructor; [auto using why_schema with ae|]. constructor; [auto using why_object with ae|]. constructor; [auto using why_common with ae|].
    constructor; [|constructor; [auto with ae|constructor]].
    apply ae_run_all, ae_mapi. intros i a Ha. unfold v_property, prop_name.
    destruct (nth_error h a) as [p|] eqn:Ep; cbn [obind]; auto with ae. destruct (assoc (n_property p) m) as [x|] eqn:Ex; auto with ae.
    eapply ae_hand; [auto with ae|]. eapply h_property; eauto.
  Qed.
  Lemma why_type v c g ok : hd "" (value_types env v) = g -> (ok = true <-> exists t, In t (value_types env v) /\ In t (n_types n)) ->
    (IsTyped (n_types n) && negb ok)%bool = true -> all_errors (type_error n v c g) (because (id, v, c)).
  Proof.
    intros Hg Hok Hb. unfold type_error. apply ae_own. apply andb_true_iff in Hb. destruct Hb as [H1 H2]. apply negb_true_iff in H2. split.
    - intros [H|H]; [rewrite H in H1; discriminate H1|]. apply Hok in H. congruence.
    - split; [reflexivity|]. unfold detail. rewrite Hg. reflexivity.
  Qed.
  Lemma why_cell o v c : fair o -> all_errors (validateNode env h rec o n v c) (because (id, v, c)).
  Proof.
    intros F. unfold validateNode. rewrite Hpass, Href. destruct v as [|b|s|f|s|l|m|m]; cbv zeta; auto with ae;
      match goal with |- all_errors (if (_ && negb ?b)%bool then _ else _) _ => set (ok := b) end;
      match goal with |- all_errors (if ?b then _ else _) _ => destruct b eqn:Eb end.
    all: match goal with |- all_errors _ (because (_, ?v, _)) =>
      assert (Hok : ok = true <-> exists t, In t (value_types env v) /\ In t (n_types n))
        by (first [apply contains_one | apply contains_number]) end.
    1,3,5,7,9,11,13: eapply why_type; [|exact Hok|exact Eb]; first [reflexivity | cbn; destruct (checkJSONInteger _ _); reflexivity].
    all: auto using why_scalar, why_object_checks with ae.
    1,2: apply ae_run_all; repeat (constructor; [auto using why_schema, why_common, why_array with ae|]); constructor.
    apply ae_bind. intros w Ew. destruct w as [| | | | | |m'|]; auto with ae. eapply ae_impl; [|apply why_object_checks; auto]. intros e. apply because_lead. eapply l_convert; eauto.
  Qed.
End Cell.

Theorem errors_have_reasons env h : forall k o id v c, fair o -> all_errors (validateRecursive env h k o id v c) (why env h (id, v, c)).
Proof.
  induction k as [|k IH]; intros o id v c F; cbn [validateRecursive]; [intros r; discriminate|].
  destruct (nth_error h id) as [n|] eqn:Hn; [|apply ae_panic].
  destruct (n_pass n) as [b|] eqn:Hp.
  - unfold validateNode. rewrite Hp. destruct b; [apply ae_new|]. apply ae_emit. exists id, v, c. split; [apply rt_refl|]. exists n. split; [exact Hn|]. split; [reflexivity|]. left. auto.
  - destruct (n_ref n) as [t|] eqn:Hr.
    + unfold validateNode. rewrite Hp, Hr. eapply ae_impl; [|apply IH; auto]. intros e (i & x & d & H1 & H2). exists i, x, d. split; auto. eapply rt_trans; [apply rt_step; eapply l_ref; eauto|auto].
    + eapply why_cell; eauto.
Qed.
