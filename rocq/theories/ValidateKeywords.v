(** The errors of a compiled schema object are exactly what its keywords report. *)
From Verif Require Export SpecKeywords ValidateSem.
From Verif Require CompileInv.

Lemma when_own b x (P : Prop) v c t d r : (b = true <-> P) -> x = emit t c v d ->
  when b (Ok x) = Ok r -> one_if v c P t d (errors r).
Proof.
  intros Hb -> E. destruct b; simpl in E; injection E as <-.
  - left. split; [apply Hb; auto|reflexivity].
  - right. split; [|reflexivity]. intros H. apply Hb in H. discriminate.
Qed.

Lemma run_all_Forall2 {A} (P : A -> list rerror -> Prop) (f : A -> out result) l : forall r,
  (forall a ra, In a l -> f a = Ok ra -> P a (errors ra)) -> run_all (map f l) = Ok r ->
  exists ess, Forall2 P l ess /\ errors r = concat ess.
Proof.
  induction l as [|a l IH]; intros r H E; simpl in E.
  - injection E as <-. exists []. split; [constructor|reflexivity].
  - destruct (f a) as [ra| |] eqn:Ea; simpl in E; try discriminate E.
    destruct (run_all (map f l)) as [rl| |] eqn:El; simpl in E; try discriminate E. injection E as <-.
    destruct (IH rl) as (ess & H1 & H2); [intros; apply H; simpl; auto|auto|].
    exists (errors ra :: ess). split; [constructor; auto; apply H; simpl; auto|]. simpl. rewrite H2. reflexivity.
Qed.
Lemma run_all_mapi {A} (P : A -> list rerror -> Prop) (f : nat -> A -> out result) l : forall i r,
  (forall i a ra, In a l -> f i a = Ok ra -> P a (errors ra)) -> run_all (mapi f i l) = Ok r ->
  exists ess, Forall2 P l ess /\ errors r = concat ess.
Proof.
  induction l as [|a l IH]; intros i r H E; simpl in E.
  - injection E as <-. exists []. split; [constructor|reflexivity].
  - destruct (f i a) as [ra| |] eqn:Ea; simpl in E; try discriminate E.
    destruct (run_all (mapi f (S i) l)) as [rl| |] eqn:El; simpl in E; try discriminate E. injection E as <-.
    destruct (IH (S i) rl) as (ess & H1 & H2); [intros; eapply H; simpl; eauto|auto|].
    exists (errors ra :: ess). split; [constructor; auto; eapply H; simpl; eauto|]. simpl. rewrite H2. reflexivity.
Qed.

Lemma indexed_nth {A} (l : list A) : forall k i x, nth_error (combine (seq k (length l)) l) i = Some x <->
  nth_error l i = Some (snd x) /\ fst x = k + i.
Proof.
  induction l as [|a l IH]; intros k i [j y]; simpl.
  - destruct i; simpl; split; [discriminate|intros [H _]; discriminate|discriminate|intros [H _]; discriminate].
  - destruct i as [|i]; simpl.
    + split; [intros [= <- <-]; split; auto; lia|]. intros [[= ->] ->]. rewrite Nat.add_0_r. reflexivity.
    + rewrite IH. simpl. intuition lia.
Qed.
Lemma Forall2_nth {A B} (R : A -> B -> Prop) l : forall l', length l' = length l ->
  (forall i a, nth_error l i = Some a -> exists b, nth_error l' i = Some b /\ R a b) -> Forall2 R l l'.
Proof.
  induction l as [|a l IH]; intros [|b l'] Hl H; try discriminate Hl; constructor.
  - destruct (H 0 a eq_refl) as (b' & [= <-] & Hr). exact Hr.
  - apply IH; [simpl in Hl; lia|]. intros i x Hi. apply (H (S i)). exact Hi.
Qed.

Section Own.
  Variables (env : goenv) (h : heap) (k0 : nat).
  Notation rec := (validateRecursive env h k0).
  Variables (n : node) (c : ctx).

  Lemma rec_sub o id v c' r : fair o -> rec o id v c' = Ok r -> sub env h v c' id r.
  Proof. exists k0, o. auto. Qed.

  Lemma anyOf_reports o v r : fair o -> v_anyOf rec o n v c = Ok r -> reports env h n v c K_anyOf (errors r).
  Proof.
    intros F E. destruct (n_anyOf n) as [|i l] eqn:En.
    - unfold v_anyOf in E. rewrite En in E. injection E as <-. left. split; [reflexivity|]. auto.
    - assert (Hn : n_anyOf n <> []) by congruence.
      destruct (anyOf_parts _ _ _ _ _ _ Hn E) as [(H1 & i' & id' & ri & H2 & H3 & H4)|(rs' & b & H1 & H2 & H3 & H4)].
      + left. split; [exact H1|]. right. exists id', ri. split; [eapply nth_error_In; eauto|]. split; auto.
        eapply rec_sub; [|eauto]. auto using shift_fair.
      + right. exists rs', b. split; [eapply branch_sub; eauto|]. auto.
  Qed.
  Lemma oneOf_reports o v r : fair o -> v_oneOf rec o n v c = Ok r -> reports env h n v c K_oneOf (errors r).
  Proof.
    intros F E. destruct (n_oneOf n) as [|i l] eqn:En.
    - unfold v_oneOf in E. rewrite En in E. injection E as <-. left. split; [reflexivity|]. auto.
    - assert (Hn : n_oneOf n <> []) by congruence.
      destruct (oneOf_parts _ _ _ _ _ _ Hn E) as (rs & H1 & H2 & H3 & H4).
      right. exists rs. split; [eapply branch_sub; eauto|].
      destruct (valid_count rs) as [|[|m]] eqn:Ec.
      + right. right. split; auto.
      + left. split; auto. apply H2. reflexivity.
      + right. left. split; [lia|]. apply H3. lia.
  Qed.
  Lemma merge_all_own o v l : forall i p, fair o -> merge_all (mapi (fun i id => rec (shift o i) id v c) i l) = Ok p ->
    exists rs, Forall2 (sub env h v c) l rs /\ errors (snd p) = concat (map errors rs) /\
      fst p <= length l /\ (Nat.eqb (fst p) (length l) = forallb Valid rs).
  Proof.
    induction l as [|id l IH]; intros i p F E; simpl in E.
    - injection E as <-. exists []. repeat split; auto; constructor.
    - destruct (rec (shift o i) id v c) as [r| |] eqn:Er; simpl in E; try discriminate E.
      destruct (merge_all _) as [q| |] eqn:Eq; simpl in E; try discriminate E. injection E as <-.
      destruct (IH _ _ F Eq) as (rs & H1 & H2 & H3 & H4). exists (r :: rs). split; [constructor; auto|].
      { eapply rec_sub; [|eauto]. auto using shift_fair. }
      cbn [fst snd radd errors map concat forallb length]. rewrite H2. split; [reflexivity|].
      destruct (Valid r); cbn [andb].
      + split; [lia|]. rewrite <- H4. reflexivity.
      + split; [lia|]. apply Nat.eqb_neq. lia.
  Qed.
  Lemma allOf_reports o v r : fair o -> v_allOf rec o n v c = Ok r -> reports env h n v c K_allOf (errors r).
  Proof.
    intros F E. unfold v_allOf in E. cbn [reports]. unfold allOf_own. destruct (n_allOf n) as [|i l] eqn:En.
    - injection E as <-. exists []. split; [constructor|reflexivity].
    - destruct (merge_all _) as [p| |] eqn:Ep; cbn [obind] in E; try discriminate E.
      destruct (merge_all_own _ _ _ _ _ F Ep) as (rs & H1 & H2 & H3 & H4).
      exists rs. split; [exact H1|]. rewrite H4 in E. cbn [run_all obind] in E.
      destruct (forallb Valid rs); cbn in E; injection E as <-; cbn; rewrite H2, ?app_nil_r; reflexivity.
  Qed.
  Lemma not_reports o v r : fair o -> v_not rec o n v c = Ok r -> reports env h n v c K_not (errors r).
  Proof.
    intros F E. cbn [reports]. destruct (n_not n) as [id|] eqn:En; cbn [present].
    - destruct (not_parts _ _ _ _ _ _ _ En E) as (ri & H1 & H2). exists ri. split; [eapply rec_sub; eauto|].
      rewrite H2. destruct (Valid ri); [left|right]; split; auto; try reflexivity; try discriminate.
    - unfold v_not in E. rewrite En in E. injection E as <-. reflexivity.
  Qed.
  Lemma if_reports o v r : fair o -> v_if rec o n v c = Ok r -> reports env h n v c K_if (errors r).
  Proof.
    intros F E. cbn [reports]. destruct (n_if n) as [id|] eqn:En; cbn [present].
    - destruct (if_parts _ _ _ _ _ _ _ En E) as (ri & H1 & H2). exists ri.
      split; [eapply rec_sub; [|eauto]; auto using shift_fair|].
      destruct (Valid ri).
      + destruct (n_then n) as [t|]; [|exact H2]. destruct H2 as (rt & H2 & H3). exists rt. split; auto.
        eapply rec_sub; [|eauto]; auto using shift_fair.
      + destruct (n_else n) as [t|]; [|exact H2]. destruct H2 as (rt & H2 & H3). exists rt. split; auto.
        eapply rec_sub; [|eauto]; auto using shift_fair.
    - unfold v_if in E. rewrite En in E. injection E as <-. reflexivity.
  Qed.
  Lemma missing_own k m v t d r :
    match assoc k m with Some _ => Ok new_result | None => Ok (emit t c v d) end = Ok r ->
    one_if v c (@assoc value k m = None) t d (errors r).
  Proof.
    destruct (assoc k m); intros E; injection E as <-; [right|left]; split; try reflexivity. discriminate.
  Qed.
  Lemma dependencies_reports o v r : fair o -> plain_value v -> v_dependencies env rec o n v c = Ok r ->
    reports env h n v c K_dependencies (errors r).
  Proof.
    intros F Hp E. cbn [reports]. unfold v_dependencies in E. destruct (n_dependencies n) as [|d0 ds] eqn:En.
    - injection E as <-. destruct v; try reflexivity. exists m. split; [reflexivity|].
      exists (map (fun _ => []) m). split.
      + clear - En. generalize m at 3 4. induction m0; constructor; [unfold dependency_own; rewrite En; reflexivity|exact IHm0].
      + clear. induction m; simpl; auto.
    - assert (Hn : d0 :: ds <> []) by discriminate.
      destruct v; try destruct Hp; simpl in E; try (injection E as <-; reflexivity).
      { destruct (rat_of _ _); simpl in E; [injection E as <-; reflexivity|discriminate E]. }
      exists (pick (shift o 0) m). split; [unfold pick; apply shift_fair; auto|].
      eapply run_all_mapi; [|exact E]. clear E. intros i [key x] ra _ E. cbn [fst] in *. unfold v_dependency in E.
      unfold dependency_own. cbn [fst]. destruct (assoc key (n_dependencies n)) as [[ks|id]|]; cbn [present].
      + eapply run_all_Forall2; [|exact E]. intros k rk _ Ek. eapply missing_own; eauto.
      + exists ra. split; auto. eapply rec_sub; [|eauto]; auto using shift_fair.
      + injection E as <-. reflexivity.
  Qed.

  Lemma bound_reports bound bad (P : Q -> Q -> Prop) t key s r :
    (forall q b, bad (Qcompare q b) = true <-> P q b) ->
    v_bound bound bad t key (VNum s) (rat_of (e_ratlim env) s) c = Ok r ->
    present bound (fun b => on_number env (VNum s) (fun q => one_if (VNum s) c (P q b) t [(key, DRat b)])) (errors r).
  Proof.
    intros H E. unfold v_bound in E. destruct bound as [b|]; cbn [present].
    - unfold on_number. destruct (rat_of _ _) as [q|]; [|discriminate E]. exists q. split; auto.
      eapply when_own; [apply H|reflexivity|exact E].
    - injection E as <-. reflexivity.
  Qed.
  Lemma number_reports v r : validateNumber env n v c = Ok r ->
    exists e1 e2 e3 e4 e5, errors r = concat [e1; e2; e3; e4; e5] /\
      Forall2 (reports env h n v c) [K_multipleOf; K_maximum; K_exclusiveMaximum; K_minimum; K_exclusiveMinimum] [e1; e2; e3; e4; e5].
  Proof.
    intros E. destruct v as [|b|s|f|s|l|m|m];
      try (injection E as <-; exists [], [], [], [], []; split; [reflexivity|];
           repeat constructor; cbn [reports on_number];
           match goal with |- present ?x _ _ => destruct x; reflexivity end).
    unfold validateNumber in E. destruct (run_all_inv _ _ E) as (rs & Hrs & He).
    destruct rs as [|r1 [|r2 [|r3 [|r4 [|r5 [|r6 [|? ?]]]]]]]; try discriminate Hrs.
    injection Hrs as E1 E2 E3 E4 E5 E6. subst r6. exists (errors r1), (errors r2), (errors r3), (errors r4), (errors r5).
    split; [rewrite He; simpl; rewrite !app_nil_r; reflexivity|].
    constructor; [|constructor; [|constructor; [|constructor; [|constructor; [|constructor]]]]]; cbn [reports].
    - unfold v_multipleOf in E1. destruct (n_multipleOf n) as [m|]; cbn [present].
      + unfold on_number. destruct (rat_of _ _) as [q|]; [|discriminate E1]. exists q. split; auto.
        destruct (Qeq_bool m 0) eqn:E0; [discriminate E1|].
        assert (Hm : ~ (m == 0)%Q). { intros H. apply Qeq_bool_iff in H. congruence. }
        split; auto. eapply when_own; [|reflexivity|exact E1].
        rewrite negb_true_iff, <- (Qdiv_int q m Hm). destruct (rat_is_int _); intuition congruence.
      + injection E1 as <-. reflexivity.
    - refine (bound_reports _ _ (fun q b => (q > b)%Q) _ _ _ _ _ E2).
      intros q b. cbn beta. rewrite Qgt_alt. destruct (q ?= b)%Q; intuition congruence.
    - refine (bound_reports _ _ (fun q b => (q >= b)%Q) _ _ _ _ _ E3).
      intros q b. cbn beta. rewrite Qge_alt. destruct (q ?= b)%Q; intuition congruence.
    - refine (bound_reports _ _ (fun q b => (q < b)%Q) _ _ _ _ _ E4).
      intros q b. cbn beta. rewrite Qlt_alt. destruct (q ?= b)%Q; intuition congruence.
    - refine (bound_reports _ _ (fun q b => (q <= b)%Q) _ _ _ _ _ E5).
      intros q b. cbn beta. rewrite Qle_alt. destruct (q ?= b)%Q; intuition congruence.
  Qed.

  Lemma items_reports o l r : fair o -> v_items rec o n l c = Ok r -> reports env h n (VArr l) c K_items (errors r).
  Proof.
    intros F E. cbn [reports]. unfold on_array, items_own. destruct (list_eq_dec Nat.eq_dec (n_items n) []) as [En|En].
    - left. split; auto. unfold v_items in E. rewrite En in E. destruct (n_items_single n).
      + destruct l; [|discriminate E]. injection E as <-. reflexivity.
      + injection E as <-. reflexivity.
    - right. pose proof En as Hn. split; auto.
      destruct (items_errors _ _ _ _ _ _ Hn E) as (es & (Hl & Hes) & He).
      exists (concat es). eexists. split; [exact He|]. split.
      + exists es. split; [|reflexivity]. apply Forall2_nth.
        { rewrite Hl. unfold indexed. rewrite combine_length, seq_length. lia. }
        intros i [j x] Hi. apply indexed_nth in Hi. destruct Hi as [Hx Hj]. cbn [fst snd] in *. subst j. simpl in *.
        specialize (Hes i x Hx). destruct (checker _ _ _ i) as [id|]; cbn [present].
        * destruct Hes as (ri & Er & Hn'). exists (errors ri). split; auto. exists ri. split; auto.
          eapply rec_sub; [|exact Er]. auto using shift_fair.
        * exists []. split; auto. reflexivity.
      + destruct (n_items_single n); cbn [negb andb].
        { right. split; [|reflexivity]. intros [H _]. discriminate H. }
        destruct (n_additionalItems n) as [[[|]|]|]; cbn [andb]; try (right; split; [intros (_ & H & _); discriminate H|reflexivity]).
        destruct (Nat.ltb_spec (length (n_items n)) (length l)); [left|right]; split; try reflexivity; auto.
        intros (_ & _ & H'). lia.
  Qed.
  Lemma unique_reports l r : v_uniqueItems n l c = Ok r -> reports env h n (VArr l) c K_uniqueItems (errors r).
  Proof.
    intros E. cbn [reports]. unfold on_array, unique_own. unfold v_uniqueItems in E. destruct (n_uniqueItems n); simpl in E.
    - right. split; auto.
      assert (G : forall l seen j r, unique_loop c (VArr l) seen j l = Ok r -> True) by auto. clear G.
      assert (G : forall w l seen j r, unique_loop c w seen j l = Ok r -> exists ts, map marshalWithoutNumber l = map Some ts).
      { clear. intros w. induction l as [|x l IH]; intros seen j r E; simpl in E; [exists []; reflexivity|].
        destruct (marshalWithoutNumber x) as [t|] eqn:Et; [|discriminate E].
        destruct (unique_loop _ _ _ _ l) as [r'| |] eqn:El; simpl in E; try discriminate E.
        destruct (IH _ _ _ El) as (ts & H). exists (t :: ts). simpl. rewrite Et, H. reflexivity. }
      destruct (G _ _ _ _ _ E) as (ts & Hts). exists ts, (pairs [] ts). split; auto.
      destruct (unique_loop_errors c (VArr l) l ts [] [] Hts) as (r' & Er & He); [reflexivity|].
      simpl length in Er. rewrite E in Er. injection Er as <-. split; [|split; [|exact He]].
      + eapply NoDup_map_inv. apply (proj1 (pairs_snd_increasing ts [])).
      + intros p. rewrite pairs_spec. simpl. intuition lia.
    - left. split; auto. injection E as <-. reflexivity.
  Qed.
  Lemma mapi_item_sub o id l rs : fair o -> forall i, mapi (v_item rec o c id) i l = map Ok rs ->
    Forall2 (fun e r => sub env h (snd e) (itoa (Z.of_nat (fst e)) :: c) id r) (combine (seq i (length l)) l) rs.
  Proof.
    intros F. revert rs. induction l as [|x l IH]; intros [|r rs] i E; simpl in E; try discriminate E; simpl; constructor.
    - injection E as E _. unfold v_item in E. eapply rec_sub; [|exact E]. auto using shift_fair.
    - injection E as _ E. eapply IH; eauto.
  Qed.
  Lemma contains_reports o l r : fair o -> v_contains rec o n l c = Ok r -> reports env h n (VArr l) c K_contains (errors r).
  Proof.
    intros F E. cbn [reports]. destruct (n_contains n) as [id|] eqn:En; cbn [present].
    - unfold on_array, contains_own. pose proof E as E0. unfold v_contains in E. rewrite En in E.
      destruct (first_valid _ _) as [p| |] eqn:Ef; simpl in E; try discriminate E.
      pose proof (first_valid_ok _ _ _ Ef) as Hf. destruct (fst p) eqn:Hp.
      + injection E as <-. left. split; [reflexivity|]. destruct Hf as (i & ri & Hi & Hv).
        rewrite mapi_nth in Hi. destruct (nth_error l i) as [x|] eqn:Ex; [|discriminate Hi]. injection Hi as Hi.
        exists i, x, ri. split; auto. split; auto. unfold v_item in Hi. eapply rec_sub; [|exact Hi]. auto using shift_fair.
      + destruct Hf as (rs & Hrs & Hi). right. exists rs. split; [eapply mapi_item_sub; eauto|]. split; auto.
        destruct l as [|x l].
        * left. split; auto. simpl in Ef. injection Ef as <-. simpl in E. injection E as <-. reflexivity.
        * right. destruct (contains_none _ _ _ (x :: l) c id rs En Hrs Hi) as (b & Hb & Er); [discriminate|].
          exists b. split; auto. rewrite Er in E0. injection E0 as <-. reflexivity.
    - unfold v_contains in E. rewrite En in E. injection E as <-. reflexivity.
  Qed.
  Lemma array_reports o l r : fair o -> validateArray rec o n l c = Ok r ->
    exists e1 e2 e3 e4 e5, errors r = concat [e1; e2; e3; e4; e5] /\
      Forall2 (reports env h n (VArr l) c) [K_items; K_minItems; K_maxItems; K_uniqueItems; K_contains] [e1; e2; e3; e4; e5].
  Proof.
    intros F E. unfold validateArray in E. destruct (run_all_inv _ _ E) as (rs & Hrs & He).
    destruct rs as [|r1 [|r2 [|r3 [|r4 [|r5 [|r6 [|? ?]]]]]]]; try discriminate Hrs.
    injection Hrs as E1 E2 E3 E4 E5 E6. subst r6. exists (errors r1), (errors r2), (errors r3), (errors r4), (errors r5).
    split; [rewrite He; simpl; rewrite !app_nil_r; reflexivity|].
    constructor; [|constructor; [|constructor; [|constructor; [|constructor; [|constructor]]]]].
    - eapply items_reports; [|exact E1]; auto using shift_fair.
    - cbn [reports]. unfold v_minItems in E2. destruct (n_minItems n) as [k|]; cbn [present].
      + eapply when_own; [apply Z.ltb_lt|reflexivity|exact E2].
      + injection E2 as <-. reflexivity.
    - cbn [reports]. unfold v_maxItems in E3. destruct (n_maxItems n) as [k|]; cbn [present].
      + eapply when_own; [rewrite Z.gt_lt_iff; apply Z.ltb_lt|reflexivity|exact E3].
      + injection E3 as <-. reflexivity.
    - apply unique_reports. exact E4.
    - eapply contains_reports; [|exact E5]; auto using shift_fair.
  Qed.

  Lemma described_has pk ids b : described h pk ids = Ok b ->
    (b = true <-> exists id p, In id ids /\ nth_error h id = Some p /\ n_property p = pk).
  Proof.
    revert b. induction ids as [|id ids IH]; intros b E; simpl in E.
    - injection E as <-. split; [discriminate|]. intros (? & ? & [] & _).
    - unfold prop_name in E. destruct (nth_error h id) as [p|] eqn:Ep; simpl in E; [|discriminate E].
      destruct (described h pk ids) as [b'| |]; simpl in E; try discriminate E. injection E as <-.
      specialize (IH b' eq_refl). rewrite orb_true_iff, IH. split.
      + intros [H|(id' & p' & H1 & H2 & H3)].
        * apply String.eqb_eq in H. subst. exists id, p. simpl. auto.
        * exists id', p'. simpl. auto.
      + intros (id' & p' & [<-|H1] & H2 & H3); [left|right; exists id', p'; auto].
        rewrite Ep in H2. injection H2 as <-. apply String.eqb_eq. auto.
  Qed.
  Lemma member_reports o e r : fair o -> v_member env h rec o n c e = Ok r -> other_member_own env h n c e (errors r).
  Proof.
    intros F E. destruct e as [pk x]. unfold v_member in E.
    destruct (described h pk (n_props n)) as [found| |] eqn:Ed; simpl in E; try discriminate E.
    pose proof (described_has _ _ _ Ed) as Hd.
    destruct (validatePatternProperty _ _ _ _ _ _ _) as [pp| |] eqn:Ep; simpl in E; try discriminate E.
    unfold validatePatternProperty in Ep.
    set (hits := filter _ _) in Ep.
    assert (Hperm : Permutation (matching env n pk) hits).
    { unfold hits, matching, re_matches.
      assert (G : forall (f : string * nat -> bool) l l', Permutation l l' -> Permutation (filter f l) (filter f l')).
      { clear. intros f l l' H. induction H; simpl.
        - constructor.
        - destruct (f x); auto.
        - destruct (f x), (f y); auto. apply perm_swap.
        - eapply perm_trans; eauto. }
      apply G. unfold pick. apply shift_fair. auto using shift_fair. }
    destruct (run_all _) as [rp| |] eqn:Er in Ep; simpl in Ep; try discriminate Ep.
    assert (HP : each (fun q es => inside env h c x pk (snd q) es) hits (errors rp)).
    { eapply run_all_mapi; [|exact Er]. intros i q ra _ Eq. exists ra. split; auto. eapply rec_sub; [|exact Eq]. auto using shift_fair. }
    unfold other_member_own. cbn [fst snd].
    assert (Hcase : (hits = [] /\ pp = (false, rp) /\ errors rp = []) \/ (hits <> [] /\ pp = (true, radd rp inc))).
    { destruct hits as [|q qs] eqn:Eh; [left|right].
      - injection Ep as <-. simpl in Er. injection Er as <-. auto.
      - injection Ep as <-. split; [discriminate|reflexivity]. }
    clear Ep. destruct Hcase as [(Hh & -> & Hrp)|(Hh & ->)]; cbn [fst snd negb] in E.
    - rewrite Hh in Hperm. apply Permutation_sym, Permutation_nil in Hperm. right.
      destruct found; cbn [negb andb] in E.
      + left. split; auto. split; [apply Hd; reflexivity|]. simpl in E. injection E as <-. unfold none. simpl. rewrite Hrp. reflexivity.
      + right. split; auto. split; [intros H; apply Hd in H; discriminate H|].
        destruct (n_additionalProperties n) as [[[|]|id]|]; cbn [present].
        * simpl in E. injection E as <-. unfold none. simpl. rewrite Hrp. reflexivity.
        * simpl in E. injection E as <-. simpl. rewrite Hrp. reflexivity.
        * destruct (rec _ id x _) as [rx| |] eqn:Ex; simpl in E; try discriminate E. injection E as <-.
          exists rx. split; [|simpl; rewrite Hrp; reflexivity]. eapply rec_sub; [|exact Ex]. auto using shift_fair.
        * simpl in E. injection E as <-. unfold none. simpl. rewrite Hrp. reflexivity.
    - left. split; [intros H; rewrite H in Hperm; apply Permutation_nil in Hperm; auto|].
      rewrite andb_false_r in E. simpl in E. injection E as <-. simpl. rewrite !app_nil_r.
      exists hits. split; [exact Hperm|]. exact HP.
  Qed.
  Lemma object_reports o m r : fair o -> validateObject env h rec o n m c = Ok r ->
    exists e1 e2 e3 e4 e5, errors r = concat [e1; e2; e3; e4; e5] /\
      Forall2 (reports env h n (VMap m) c) [K_minProperties; K_maxProperties; K_required; K_other_members; K_propertyNames] [e1; e2; e3; e4; e5].
  Proof.
    intros F E. unfold validateObject in E. destruct (run_all_inv _ _ E) as (rs & Hrs & He).
    destruct rs as [|r1 [|r2 [|r3 [|r4 [|r5 [|r6 [|? ?]]]]]]]; try discriminate Hrs.
    injection Hrs as E1 E2 E3 E4 E5 E6. subst r6. exists (errors r1), (errors r2), (errors r3), (errors r4), (errors r5).
    split; [rewrite He; simpl; rewrite !app_nil_r; reflexivity|].
    constructor; [|constructor; [|constructor; [|constructor; [|constructor; [|constructor]]]]]; cbn [reports].
    - unfold v_minProperties in E1. destruct (n_minProperties n) as [k|]; cbn [present].
      + eapply when_own; [apply Z.ltb_lt|reflexivity|exact E1].
      + injection E1 as <-. reflexivity.
    - unfold v_maxProperties in E2. destruct (n_maxProperties n) as [k|]; cbn [present].
      + eapply when_own; [rewrite Z.gt_lt_iff; apply Z.ltb_lt|reflexivity|exact E2].
      + injection E2 as <-. reflexivity.
    - unfold v_required in E3. eapply run_all_Forall2; [|exact E3].
      intros k rk _ Ek. cbn beta in Ek. destruct (assoc k m) eqn:Em; injection Ek as <-; [right|left]; split; try reflexivity.
      intros H. congruence.
    - exists (pick (shift (shift o 0) 0) m). split; [unfold pick; apply shift_fair; auto using shift_fair|].
      eapply run_all_mapi; [|exact E4]. intros i e re _ Ee. eapply member_reports; [|exact Ee]. auto using shift_fair.
    - unfold v_propertyNames in E5. destruct (n_propertyNames n) as [id|]; cbn [present].
      + exists (pick (shift (shift o 1) 0) m). split; [unfold pick; apply shift_fair; auto using shift_fair|].
        eapply run_all_mapi; [|exact E5]. intros i e re _ Ee. cbn beta in Ee.
        destruct (rec _ id _ c) as [rx| |] eqn:Ex; simpl in Ee; try discriminate Ee.
        exists rx. split; [eapply rec_sub; [|exact Ex]; auto using shift_fair|].
        destruct (Valid rx); simpl in Ee; injection Ee as <-; simpl; rewrite ?app_nil_r; reflexivity.
      + injection E5 as <-. reflexivity.
  Qed.
  Lemma properties_reports o m r : fair o -> run_all (mapi (v_property h rec o m c) 0 (n_props n)) = Ok r ->
    reports env h n (VMap m) c K_properties (errors r).
  Proof.
    intros F E. cbn [reports]. unfold on_object. eapply run_all_mapi; [|exact E].
    intros i id ri _ Ei. unfold v_property, prop_name in Ei. unfold property_own.
    destruct (nth_error h id) as [p|]; simpl in Ei; [|discriminate Ei]. exists p. split; auto.
    destruct (assoc (n_property p) m) as [x|]; cbn [present].
    - exists ri. split; auto. eapply rec_sub; [|exact Ei]. auto using shift_fair.
    - injection Ei as <-. reflexivity.
  Qed.

  Lemma common_reports v r : validateCommon env n v c = Ok r ->
    exists e1 e2 e3, errors r = concat [e1; e2; e3] /\
      Forall2 (reports env h n v c) [K_const; K_enum; K_format] [e1; e2; e3].
  Proof.
    intros E. unfold validateCommon in E. destruct (run_all_inv _ _ E) as (rs & Hrs & He).
    destruct rs as [|r1 [|r2 [|r3 [|r4 [|? ?]]]]]; try discriminate Hrs.
    injection Hrs as E1 E2 E3 E4. subst r4. exists (errors r1), (errors r2), (errors r3).
    split; [rewrite He; simpl; rewrite !app_nil_r; reflexivity|].
    constructor; [|constructor; [|constructor; [|constructor]]]; cbn [reports].
    - unfold v_const in E1. destruct (n_const n) as [k|]; cbn [present].
      + unfold text_of. destruct (marshalWithoutNumber v) as [t|]; [|discriminate E1]. exists t. split; auto.
        eapply when_own; [|reflexivity|exact E1]. rewrite negb_true_iff. apply String.eqb_neq.
      + injection E1 as <-. reflexivity.
    - unfold v_enum in E2. destruct (n_enum n) as [|x l] eqn:En.
      + left. split; auto. injection E2 as <-. reflexivity.
      + right. split; [discriminate|]. unfold text_of. destruct (marshalWithoutNumber v) as [t|]; [|discriminate E2].
        exists t. split; auto. eapply when_own; [|reflexivity|exact E2].
        rewrite negb_true_iff, <- CompileInv.in_slice. destruct (isStringInSlice _ _); intuition congruence.
    - unfold v_format in E3. destruct (String.eqb_spec (n_format n) "").
      + injection E3 as <-. right. split; [|reflexivity]. tauto.
      + eapply when_own; [|reflexivity|exact E3]. rewrite negb_true_iff. tauto.
  Qed.
  Lemma string_reports v r : plain_value v -> validateString env n v c = Ok r ->
    exists e1 e2 e3, errors r = concat [e1; e2; e3] /\
      Forall2 (reports env h n v c) [K_minLength; K_maxLength; K_pattern] [e1; e2; e3].
  Proof.
    intros Hp E. destruct v as [|b|s|f|s|l|m|m];
      try (simpl in E; injection E as <-; exists [], [], []; split; [reflexivity|];
           repeat constructor; cbn [reports on_string];
           match goal with |- present ?x _ _ => destruct x; reflexivity end); try destruct Hp.
    unfold validateString in E. cbn [isKind_string obind] in E. unfold v_string_checks in E.
    destruct (run_all_inv _ _ E) as (rs & Hrs & He).
    destruct rs as [|r1 [|r2 [|r3 [|r4 [|? ?]]]]]; try discriminate Hrs.
    injection Hrs as E1 E2 E3 E4. subst r4. exists (errors r1), (errors r2), (errors r3).
    split; [rewrite He; simpl; rewrite !app_nil_r; reflexivity|].
    constructor; [|constructor; [|constructor; [|constructor]]]; cbn [reports].
    - destruct (n_minLength n) as [k|]; cbn [present].
      + eapply when_own; [apply Z.ltb_lt|reflexivity|exact E1].
      + injection E1 as <-. reflexivity.
    - destruct (n_maxLength n) as [k|]; cbn [present].
      + eapply when_own; [rewrite Z.gt_lt_iff; apply Z.ltb_lt|reflexivity|exact E2].
      + injection E2 as <-. reflexivity.
    - destruct (n_pattern n) as [p|]; cbn [present].
      + eapply when_own; [rewrite negb_true_iff; reflexivity|reflexivity|exact E3].
      + injection E3 as <-. reflexivity.
  Qed.
  Lemma schema_reports o v r : fair o -> plain_value v -> validateSchema env rec o n v c = Ok r ->
    exists e1 e2 e3 e4 e5 e6, errors r = concat [e1; e2; e3; e4; e5; e6] /\
      Forall2 (reports env h n v c) [K_anyOf; K_oneOf; K_allOf; K_not; K_dependencies; K_if] [e1; e2; e3; e4; e5; e6].
  Proof.
    intros F Hp E. unfold validateSchema in E. destruct (run_all_inv _ _ E) as (rs & Hrs & He).
    destruct rs as [|r1 [|r2 [|r3 [|r4 [|r5 [|r6 [|r7 [|? ?]]]]]]]]; try discriminate Hrs.
    injection Hrs as E1 E2 E3 E4 E5 E6 E7. subst r7. exists (errors r1), (errors r2), (errors r3), (errors r4), (errors r5), (errors r6).
    split; [rewrite He; simpl; rewrite !app_nil_r; reflexivity|].
    constructor; [|constructor; [|constructor; [|constructor; [|constructor; [|constructor; [|constructor]]]]]].
    - eapply anyOf_reports; [|exact E1]; auto using shift_fair.
    - eapply oneOf_reports; [|exact E2]; auto using shift_fair.
    - eapply allOf_reports; [|exact E3]; auto using shift_fair.
    - eapply not_reports; [|exact E4]; auto using shift_fair.
    - eapply dependencies_reports; [| |exact E5]; auto using shift_fair.
    - eapply if_reports; [|exact E6]; auto using shift_fair.
  Qed.

  (** Keywords of another type have nothing to say. *)
  Lemma silent_number v : ~ is_num v -> Forall2 (reports env h n v c) [K_multipleOf; K_maximum; K_exclusiveMaximum; K_minimum; K_exclusiveMinimum] [[]; []; []; []; []].
  Proof. intros H. destruct v; try (exfalso; apply H; exact I); repeat constructor; cbn [reports]; match goal with |- present ?x _ _ => destruct x; reflexivity end. Qed.
  Lemma silent_array v : ~ is_arr v -> Forall2 (reports env h n v c) [K_items; K_minItems; K_maxItems; K_uniqueItems; K_contains] [[]; []; []; []; []].
  Proof. intros H. destruct v; try (exfalso; apply H; exact I); repeat constructor; cbn [reports]; try reflexivity; match goal with |- present ?x _ _ => destruct x; reflexivity end. Qed.
  Lemma silent_object v : ~ is_obj v -> Forall2 (reports env h n v c) [K_minProperties; K_maxProperties; K_required; K_other_members; K_propertyNames] [[]; []; []; []; []].
  Proof. intros H. destruct v; try (exfalso; apply H; exact I); repeat constructor; cbn [reports]; try reflexivity; match goal with |- present ?x _ _ => destruct x; reflexivity end. Qed.
  Lemma silent_string v : ~ is_str v -> Forall2 (reports env h n v c) [K_minLength; K_maxLength; K_pattern] [[]; []; []].
  Proof. intros H. destruct v; try (exfalso; apply H; exact I); repeat constructor; cbn [reports]; match goal with |- present ?x _ _ => destruct x; reflexivity end. Qed.
  Lemma silent_properties v : ~ is_obj v -> Forall2 (reports env h n v c) [K_properties] [[]].
  Proof. intros H. destruct v; try (exfalso; apply H; exact I); repeat constructor. Qed.

  Lemma join_reports v (es : list rerror) s nu a ob co st pr :
    Forall2 (reports env h n v c) [K_anyOf; K_oneOf; K_allOf; K_not; K_dependencies; K_if] s ->
    Forall2 (reports env h n v c) [K_multipleOf; K_maximum; K_exclusiveMaximum; K_minimum; K_exclusiveMinimum] nu ->
    Forall2 (reports env h n v c) [K_items; K_minItems; K_maxItems; K_uniqueItems; K_contains] a ->
    Forall2 (reports env h n v c) [K_minProperties; K_maxProperties; K_required; K_other_members; K_propertyNames] ob ->
    Forall2 (reports env h n v c) [K_const; K_enum; K_format] co ->
    Forall2 (reports env h n v c) [K_minLength; K_maxLength; K_pattern] st ->
    Forall2 (reports env h n v c) [K_properties] pr ->
    es = concat s ++ concat nu ++ concat a ++ concat ob ++ concat co ++ concat st ++ concat pr ->
    exists ess, Forall2 (reports env h n v c) keywords ess /\ es = concat ess.
  Proof.
    intros H1 H2 H3 H4 H5 H6 H7 ->. exists (s ++ nu ++ a ++ ob ++ co ++ st ++ pr).
    split; [|rewrite !concat_app; reflexivity].
    exact (Forall2_app H1 (Forall2_app H2 (Forall2_app H3 (Forall2_app H4 (Forall2_app H5 (Forall2_app H6 H7)))))).
  Qed.

  Lemma type_reports v given ok r : hd "" (value_types env v) = given ->
    (ok = true <-> exists t, In t (value_types env v) /\ In t (n_types n)) ->
    (IsTyped (n_types n) && negb ok)%bool = true -> type_error n v c given = Ok r ->
    cell_errors env h n v c (errors r).
  Proof.
    intros Hg Hok Hb E. left. apply andb_true_iff in Hb. destruct Hb as [Hb1 Hb2]. apply negb_true_iff in Hb2. split.
    - intros [H|H]; [rewrite H in Hb1; discriminate Hb1|]. apply Hok in H. congruence.
    - unfold type_error in E. injection E as <-. unfold type_wrong. rewrite Hg. reflexivity.
  Qed.
  Lemma type_fine v ok : (ok = true <-> exists t, In t (value_types env v) /\ In t (n_types n)) ->
    (IsTyped (n_types n) && negb ok)%bool = false -> type_allowed env n v.
  Proof.
    intros Hok Hb. apply andb_false_iff in Hb. destruct Hb as [Hb|Hb].
    - left. destruct (n_types n); [reflexivity|discriminate Hb].
    - right. apply Hok. apply negb_false_iff. exact Hb.
  Qed.
  Lemma contains_one t : Contains (n_types n) t = true <-> exists t', In t' [t] /\ In t' (n_types n).
  Proof.
    unfold Contains. rewrite CompileInv.in_slice. split.
    - intros H. exists t. simpl. auto.
    - intros (t' & [<-|[]] & H). exact H.
  Qed.

  Lemma contains_number s :
    (Contains (n_types n) TYPE_NUMBER || checkJSONInteger (e_ratlim env) s && Contains (n_types n) TYPE_INTEGER)%bool = true <->
    exists t, In t (value_types env (VNum s)) /\ In t (n_types n).
  Proof.
    rewrite orb_true_iff, andb_true_iff. unfold Contains. rewrite !CompileInv.in_slice. cbn [value_types].
    destruct (checkJSONInteger _ _); cbn [In]; split.
    - intros [H|[_ H]]; eauto.
    - intros (t & [<-|[<-|[]]] & H); auto.
    - intros [H|[H _]]; [eauto|discriminate H].
    - intros (t & [<-|[]] & H); auto.
  Qed.

  Lemma scalar_own o v r : fair o -> plain_value v -> ~ is_arr v -> ~ is_obj v -> scalar_checks env rec o n v c = Ok r ->
    exists ess, Forall2 (reports env h n v c) keywords ess /\ errors r = concat ess.
  Proof.
    intros F Hp Ha Ho E. unfold scalar_checks in E. destruct (run_all_inv _ _ E) as (rs & Hrs & He).
    destruct rs as [|r1 [|r2 [|r3 [|r4 [|r5 [|? ?]]]]]]; try discriminate Hrs.
    injection Hrs as E1 E2 E3 E4 E5. subst r5.
    destruct (schema_reports _ _ _ F Hp E1) as (?&?&?&?&?&?& D1 & H1).
    destruct (number_reports _ _ E2) as (?&?&?&?&?& D2 & H2).
    destruct (common_reports _ _ E3) as (?&?&?& D3 & H3).
    destruct (string_reports _ _ Hp E4) as (?&?&?& D4 & H4).
    eapply join_reports; eauto using silent_array, silent_object, silent_properties.
    rewrite He. simpl map. rewrite D1, D2, D3, D4. simpl. rewrite ?app_nil_r, <- ?app_assoc. reflexivity.
  Qed.
  Lemma nil_own o r : fair o -> run_all [validateSchema env rec o n VNil c; validateCommon env n VNil c; Ok inc] = Ok r ->
    exists ess, Forall2 (reports env h n VNil c) keywords ess /\ errors r = concat ess.
  Proof.
    intros F E. destruct (run_all_inv _ _ E) as (rs & Hrs & He).
    destruct rs as [|r1 [|r2 [|r3 [|? ?]]]]; try discriminate Hrs. injection Hrs as E1 E2 E3. subst r3.
    destruct (schema_reports _ VNil _ F I E1) as (?&?&?&?&?&?& D1 & H1).
    destruct (common_reports _ _ E2) as (?&?&?& D3 & H3).
    eapply join_reports; eauto using silent_array, silent_object, silent_properties, silent_number, silent_string.
    rewrite He. simpl map. rewrite D1, D3. simpl. rewrite ?app_nil_r, <- ?app_assoc. reflexivity.
  Qed.
  Lemma array_own o l r : fair o ->
    run_all [validateSchema env rec (shift o 0) n (VArr l) c; validateArray rec (shift o 1) n l c; validateCommon env n (VArr l) c; Ok inc] = Ok r ->
    exists ess, Forall2 (reports env h n (VArr l) c) keywords ess /\ errors r = concat ess.
  Proof.
    intros F E. destruct (run_all_inv _ _ E) as (rs & Hrs & He).
    destruct rs as [|r1 [|r2 [|r3 [|r4 [|? ?]]]]]; try discriminate Hrs. injection Hrs as E1 E2 E3 E4. subst r4.
    destruct (schema_reports _ (VArr l) _ (shift_fair _ _ F) I E1) as (?&?&?&?&?&?& D1 & H1).
    destruct (array_reports _ _ _ (shift_fair _ _ F) E2) as (?&?&?&?&?& D2 & H2).
    destruct (common_reports _ _ E3) as (?&?&?& D3 & H3).
    eapply join_reports; eauto using silent_object, silent_properties, silent_number, silent_string.
    rewrite He. simpl map. rewrite D1, D2, D3. simpl. rewrite ?app_nil_r, <- ?app_assoc. reflexivity.
  Qed.
  Lemma object_own o m r : fair o -> object_checks env h rec o n m c = Ok r ->
    exists ess, Forall2 (reports env h n (VMap m) c) keywords ess /\ errors r = concat ess.
  Proof.
    intros F E. unfold object_checks in E. destruct (run_all_inv _ _ E) as (rs & Hrs & He).
    destruct rs as [|r1 [|r2 [|r3 [|r4 [|r5 [|? ?]]]]]]; try discriminate Hrs. injection Hrs as E1 E2 E3 E4 E5. subst r5.
    destruct (schema_reports _ (VMap m) _ (shift_fair _ _ F) I E1) as (?&?&?&?&?&?& D1 & H1).
    destruct (object_reports _ _ _ (shift_fair _ _ F) E2) as (?&?&?&?&?& D2 & H2).
    destruct (common_reports _ _ E3) as (?&?&?& D3 & H3).
    pose proof (properties_reports _ _ _ (shift_fair _ _ F) E4) as H4.
    eapply join_reports with (pr := [errors r4]); eauto using silent_array, silent_number, silent_string.
    rewrite He. simpl map. rewrite D1, D2, D3. simpl. rewrite ?app_nil_r, <- ?app_assoc. reflexivity.
  Qed.

  Lemma node_errors o v r : fair o -> plain_value v -> n_pass n = None -> n_ref n = None ->
    validateNode env h rec o n v c = Ok r -> cell_errors env h n v c (errors r).
  Proof.
    intros F Hp Hpass Href E. unfold validateNode in E. rewrite Hpass, Href in E.
    destruct v as [|b|s|f|s|l|m|m]; try destruct Hp; cbv zeta in E;
      match type of E with (if (_ && negb ?b)%bool then _ else _) = _ => set (ok := b) in E end;
      match type of E with (if ?b then _ else _) = _ => destruct b eqn:Eb end.
    all: match goal with |- cell_errors _ _ _ ?v _ _ =>
      assert (Hok : ok = true <-> exists t, In t (value_types env v) /\ In t (n_types n))
        by (first [apply contains_one | apply contains_number]) end.
    1,3,5,7,9,11: eapply type_reports; [|exact Hok|exact Eb|exact E]; first [reflexivity | cbn; destruct (checkJSONInteger _ _); reflexivity].
    all: right; split; [eapply type_fine; [exact Hok|exact Eb]|].
    all: solve [eapply nil_own; eauto | eapply scalar_own; eauto; exact I || (intros []) | eapply array_own; eauto | eapply object_own; eauto].
  Qed.
End Own.

Theorem errors_by_keyword env h id n v c k o r : nth_error h id = Some n -> n_pass n = None -> n_ref n = None ->
  fair o -> plain_value v -> validateRecursive env h k o id v c = Ok r -> cell_errors env h n v c (errors r).
Proof.
  intros En Hpass Href F Hp E. destruct k as [|k]; simpl in E; [discriminate E|]. rewrite En in E.
  eapply node_errors; eauto.
Qed.

Lemma remove_split {B} (R : keyword -> B -> Prop) l k : forall ess, Forall2 R l ess -> NoDup l -> In k l ->
  exists l1 l2 e1 e e2, l = l1 ++ k :: l2 /\ ess = e1 ++ e :: e2 /\ Forall2 R l1 e1 /\ R k e /\ Forall2 R l2 e2 /\
    remove keyword_eq_dec k l = l1 ++ l2.
Proof.
  intros ess H ND Hin. apply in_split in Hin. destruct Hin as (l1 & l2 & ->).
  apply Forall2_app_inv_l in H. destruct H as (e1 & e2' & H1 & H2 & ->).
  inversion H2 as [|? e ? e2 H3 H4]; subst. exists l1, l2, e1, e, e2. repeat split; auto.
  pose proof (NoDup_remove_2 _ _ _ ND) as Hn.
  rewrite remove_app. simpl. destruct (keyword_eq_dec k k); [|congruence].
  rewrite !notin_remove; auto; intros H; apply Hn, in_or_app; auto.
Qed.
Lemma keywords_NoDup : NoDup keywords.
Proof. unfold keywords. repeat constructor; cbn [In]; intros H; repeat (destruct H as [H|H]; [discriminate H|]); exact H. Qed.
Lemma keywords_all k : In k keywords.
Proof. destruct k; unfold keywords; cbn [In]; repeat first [left; reflexivity|right]. Qed.

Theorem keyword_part k env h id n v c fuel o r : nth_error h id = Some n -> n_pass n = None -> n_ref n = None ->
  fair o -> plain_value v -> validateRecursive env h fuel o id v c = Ok r -> type_allowed env n v ->
  exists own, part_of env h n v c k (errors r) own /\ reports env h n v c k own.
Proof.
  intros En Hpass Href F Hp E Ht.
  destruct (errors_by_keyword _ _ _ _ _ _ _ _ _ En Hpass Href F Hp E) as [[H _]|(_ & ess & H1 & H2)]; [tauto|].
  destruct (remove_split _ _ k _ H1 keywords_NoDup (keywords_all k)) as (l1 & l2 & e1 & e & e2 & _ & -> & P1 & P2 & P3 & P4).
  exists e. split; [|exact P2]. exists (concat e1), (concat e2).
  split; [rewrite H2, concat_app; reflexivity|]. exists (e1 ++ e2). unfold others. rewrite P4, concat_app.
  split; [apply Forall2_app; auto|reflexivity].
Qed.

(** A cell without its own checks: a boolean schema or a reference. *)
Theorem boolean_errors env h id n b v c k o r : nth_error h id = Some n -> n_pass n = Some b ->
  validateRecursive env h k o id v c = Ok r -> errors r = if b then [] else [newError FalseError c v []].
Proof.
  intros En Hp E. destruct k as [|k]; simpl in E; [discriminate E|]. rewrite En in E.
  unfold validateNode in E. rewrite Hp in E. destruct b; injection E as <-; reflexivity.
Qed.
Theorem reference_errors env h id n t v c k o r : nth_error h id = Some n -> n_pass n = None -> n_ref n = Some t ->
  fair o -> validateRecursive env h k o id v c = Ok r -> sub env h v c t r.
Proof.
  intros En Hp Hr F E. destruct k as [|k]; simpl in E; [discriminate E|]. rewrite En in E.
  unfold validateNode in E. rewrite Hp, Hr in E. exists k, o. auto.
Qed.

Lemma not_part env h id n v c k o r : nth_error h id = Some n -> n_pass n = None -> n_ref n = None -> fair o -> plain_value v ->
  validateRecursive env h k o id v c = Ok r -> type_allowed env n v ->
  forall id', n_not n = Some id' ->
  exists own, part_of env h n v c K_not (errors r) own /\
    exists ri, sub env h v c id' ri /\ own = if Valid ri then [newError NumberNotError c v []] else [].
Proof.
  intros. destruct (keyword_part K_not env h id n v c k o r) as (own & P & R); auto.
  exists own. split; auto. cbn [reports] in R.
  match goal with E : n_not n = _ |- _ => rewrite E in R end. destruct R as (ri & S1 & [(V & O)|(V & O)]); exists ri; split; auto.
  - rewrite V. exact O.
  - destruct (Valid ri); [congruence|exact O].
Qed.
Lemma if_part env h id n v c k o r : nth_error h id = Some n -> n_pass n = None -> n_ref n = None -> fair o -> plain_value v ->
  validateRecursive env h k o id v c = Ok r -> type_allowed env n v ->
  forall id', n_if n = Some id' ->
  exists own, part_of env h n v c K_if (errors r) own /\
    exists ri, sub env h v c id' ri /\
    match (if Valid ri then n_then n else n_else n) with
    | None => own = []
    | Some t => exists rt, sub env h v c t rt /\
        own = if Valid rt then []
              else newError (if Valid ri then ConditionThenError else ConditionElseError) c v [] :: errors rt
    end.
Proof.
  intros. destruct (keyword_part K_if env h id n v c k o r) as (own & P & R); auto.
  exists own. split; auto. cbn [reports] in R.
  match goal with E : n_if n = _ |- _ => rewrite E in R end. exact R.
Qed.
Lemma items_part env h id n l c k o r : nth_error h id = Some n -> n_pass n = None -> n_ref n = None -> fair o ->
  validateRecursive env h k o id (VArr l) c = Ok r -> type_allowed env n (VArr l) ->
  n_items n <> [] ->
  exists es last, part_of env h n (VArr l) c K_items (errors r) (concat es ++ last) /\
    length es = length l /\
    (forall i x, nth_error l i = Some x ->
      match checker (n_items_single n) (n_items n) (n_additionalItems n) i with
      | Some id' => exists ri, sub env h x (itoa (Z.of_nat i) :: c) id' ri /\ nth_error es i = Some (errors ri)
      | None => nth_error es i = Some []
      end) /\
    ((last = [newError ArrayNoAdditionalItemsError c (VArr l) []] /\ n_items_single n = false /\
        n_additionalItems n = Some (AddlBool false) /\ length (n_items n) < length l) \/
     (last = [] /\ ~ (n_items_single n = false /\
        n_additionalItems n = Some (AddlBool false) /\ length (n_items n) < length l))).
Proof.
  intros. destruct (keyword_part K_items env h id n (VArr l) c k o r) as (own & P & R); auto; [exact I|].
  destruct R as [[R _]|(_ & es1 & es2 & -> & (ess & R1 & ->) & R2)]; [tauto|].
  exists ess, es2. split; auto. split.
  { pose proof (Forall2_length _ _ _ R1) as L. rewrite <- L. unfold indexed. rewrite combine_length, seq_length. lia. }
  split.
  - intros i x Hx. assert (Hi : nth_error (indexed l) i = Some (i, x)) by (apply indexed_nth; auto).
    clear - R1 Hi. revert i Hi. generalize (indexed l), R1. clear R1. intros l' R1.
    assert (G : forall j e, nth_error l' j = Some e -> exists es, nth_error ess j = Some es /\
      present (checker (n_items_single n) (n_items n) (n_additionalItems n) (fst e))
        (inside env h c (snd e) (itoa (Z.of_nat (fst e)))) es).
    { induction R1 as [|a b l1 l2 Ha _ IH]; intros [|j] e E; try discriminate E; simpl in E.
      - injection E as <-. exists b. auto.
      - simpl. apply IH. exact E. }
    intros i Hi. destruct (G i _ Hi) as (es & H1 & H2). cbn [fst snd] in H2.
    destruct (checker _ _ _ i) as [id'|]; cbn [present] in H2.
    + destruct H2 as (ri & H2 & ->). eauto.
    + unfold none in H2. subst. exact H1.
  - destruct R2 as [(C & O)|(C & O)]; [left|right]; split; auto.
Qed.
