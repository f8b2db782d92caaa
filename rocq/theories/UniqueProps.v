(** uniqueItems in a compiled schema: exactly which errors. *)
From Verif Require Import ValidateBranch.
From Verif Require Export NumberProps.
From Coq Require Import Lia.
Open Scope nat_scope.

(** p = (i, j): the element at j repeats the one at i, and nothing between. *)
Definition repeat (l : list value) (p : nat * nat) : Prop :=
  fst p < snd p /\ (exists a b, nth_error l (fst p) = Some a /\ nth_error l (snd p) = Some b /\ same a b /\
    forall k x, fst p < k -> k < snd p -> nth_error l k = Some x -> ~ same x b).

Lemma repeats_same lim l ts : ordinary lim (VArr l) -> map marshalWithoutNumber l = map Some ts -> forall p, repeats ts p <-> repeat l p.
Proof.
  intros O E p.
  assert (HM : forall a b, In a l -> In b l -> (marshalWithoutNumber a = marshalWithoutNumber b <-> same a b)).
  { intros a b Ha Hb. destruct (ordinary_arr _ _ _ O Ha) as ([S1 _] & R1 & _). destruct (ordinary_arr _ _ _ O Hb) as ([S2 _] & R2 & _). apply mwn_equal; auto. }
  assert (HN : forall i t, nth_error ts i = Some t <-> exists a, nth_error l i = Some a /\ marshalWithoutNumber a = Some t).
  { intros i t. assert (X : option_map marshalWithoutNumber (nth_error l i) = option_map Some (nth_error ts i)) by (rewrite <- !nth_error_map, E; auto).
    destruct (nth_error l i) as [a|], (nth_error ts i) as [t'|]; simpl in X; try discriminate.
    - injection X as X. split; [intros [= <-]; eauto|]. intros (b & [= <-] & Eb). congruence.
    - split; [discriminate|intros (b & D & _); discriminate D]. }
  unfold repeats, repeat. split; intros [Hlt H]; split; auto.
  - destruct H as (t & H1 & H2 & H3). apply HN in H1. apply HN in H2. destruct H1 as (a & Ea & Ta), H2 as (b & Eb & Tb). exists a, b. split; auto. split; auto.
    split; [apply HM; eauto using nth_error_In; congruence|]. intros k x Hk1 Hk2 Ex Sx. apply (H3 k Hk1 Hk2). apply HN. exists x. split; auto.
    apply HM in Sx; eauto using nth_error_In. congruence.
  - destruct H as (a & b & Ea & Eb & S & H). assert (Hb : exists t, nth_error ts (snd p) = Some t).
    { assert (X : nth_error (map marshalWithoutNumber l) (snd p) = Some (marshalWithoutNumber b)) by (apply map_nth_error; auto). rewrite E, nth_error_map in X.
      destruct (nth_error ts (snd p)); [eauto|discriminate]. }
    destruct Hb as [t Ht]. exists t. pose proof (proj1 (HN _ _) Ht) as (b' & Eb' & Tb). rewrite Eb in Eb'. injection Eb' as <-.
    split; [apply HN; exists a; split; auto; apply HM in S; eauto using nth_error_In; congruence|]. split; auto.
    intros k Hk1 Hk2 Ek. apply HN in Ek. destruct Ek as (x & Ex & Tx). apply (H k x Hk1 Hk2 Ex). apply HM; eauto using nth_error_In. congruence.
Qed.

Definition is_unique_error (e : rerror) : bool := match r_type e with ItemsMustBeUniqueError => true | _ => false end.

Lemma run_all_cons x l r : run_all (x :: l) = Ok r -> exists a b, x = Ok a /\ run_all l = Ok b /\ r = radd a b.
Proof. cbn [run_all]. destruct x as [a| |]; try discriminate. cbn [obind]. destruct (run_all l) as [b| |]; try discriminate. cbn [obind]. intros [= <-]. eauto. Qed.
Lemma run_all_nil r : run_all [] = Ok r -> r = new_result.
Proof. intros [= <-]. auto. Qed.

Section Unique.
  Variable w : world.
  Hypothesis HU : url_laws w.
  Notation lim := (e_ratlim (w_go w)).

  Theorem unique_errors sl m sch : schema_of w sl (VMap m) sch -> Forall leaf m -> assoc "uniqueItems" m = Some (VBool true) -> assoc "type" m = None ->
    assoc "enum" m <> Some (VArr []) ->
    forall l, ordinary lim (VArr l) -> forall o, fair o ->
    exists r ps, returns (w_go w) (s_heap sch) (s_root sch) o (VArr l) r /\
      filter is_unique_error (errors r) =
        map (fun p => newError ItemsMustBeUniqueError [STRING_CONTEXT_ROOT] (VArr l)
                        [("type", DStr TYPE_ARRAY); ("i", DInt (Z.of_nat (fst p))); ("j", DInt (Z.of_nat (snd p)))]) ps /\
      (forall p, In p ps <-> repeat l p) /\ NoDup (map snd ps).
  Proof.
    intros HS HL EU ET EE l O o F.
    destruct (schema_leaf w HU sl m sch HS HL (VArr l) (ordinary_usual _ _ O)) with (o := o) as (r & R & _); auto.
    { apply (leaf_fits w sl m sch HS HL); auto; [|congruence]. intros _. apply O. }
    assert (MT : exists ts, map marshalWithoutNumber l = map Some ts).
    { assert (H : forall x, In x l -> exists t, marshalWithoutNumber x = Some t).
      { intros x Hx. destruct (ordinary_arr _ _ _ O Hx) as ([S1 _] & R1 & _). apply mwn_some; auto. }
      clear - H. induction l as [|x l IH]; [exists []; auto|]. destruct (H x (or_introl eq_refl)) as [t Et]. destruct IH as [ts Ets]; [intros; apply H; right; auto|].
      exists (t :: ts). simpl. congruence. }
    destruct MT as [ts MT]. exists r, (pairs [] ts). split; auto. split; [|split].
    2: { intros p. rewrite pairs_spec. cbn [app length]. rewrite <- (repeats_same lim l ts O MT). split; [tauto|]. intros H. split; auto. lia. }
    2: { apply (pairs_snd_increasing ts []). }
    destruct HS as (fuel & o1 & ld & sl' & F1 & Hl & Hfit & EL & Hm & Hs & E).
    destruct (compile_root w HU sl fuel o1 ld (VMap m) sch sl' F1 Hl Hfit EL Hm Hs) as [sl0 C]; auto.
    { rewrite leaf_ids; auto. split; [constructor|intros x []]. }
    rewrite leaf_resolve in C by auto. destruct C as (EH & ER & W & K & C). rewrite EH, ER in R.
    assert (L0 : 0 < length (s_heap sch)).
    { rewrite EH. destruct W as (<- & _). unfold kid in K. apply nth_error_Some. congruence. }
    destruct (C 0 L0) as (n & d & x & En & Kx & Nf). unfold kid in K, Kx. rewrite K in Kx. injection Kx as <- <-.
    assert (N : forall k, (if in_dec string_dec k leaf_keys then true else false) = false -> assoc k m = None) by (intros; apply leaf_none; auto).
    destruct Nf as (_ & NP & Nf). rewrite (N "$ref") in Nf by (vm_compute; reflexivity). destruct Nf as [NR D].
    destruct R as [k R]. unfold validateDocument in R. destruct k as [|k]; [discriminate R|]. cbn [validateRecursive] in R. rewrite En in R.
    unfold validateNode in R. rewrite NP, NR in R.
    destruct D as (D1 & _ & _ & _ & _ & D6 & D7 & _ & _ & _ & _ & _ & _ & _ & _ & _ & _ & _ & _ & _ & D21 & D22 & _ & _ & D25 & D26 & D27 & D28 & D29 & _).
    unfold type_ok in D1. rewrite ET in D1. destruct D1 as [D1 _]. rewrite D1 in R. cbn [IsTyped andb] in R.
    unfold deps_ok in D6. rewrite (N "dependencies") in D6 by (vm_compute; reflexivity).
    unfold items_ok in D7. rewrite (N "items") in D7 by (vm_compute; reflexivity). destruct D7 as [D7 D7'].
    unfold unique_ok in D21. rewrite EU in D21.
    assert (G : forall key r b, assoc key m = None -> gated b r (opt_ok (CompileInv.kid (s_state sch)) (root_draft w sl (VMap m)) m key r) -> r = None).
    { intros key r0 b Hk. unfold gated, opt_ok. destruct b; auto. rewrite Hk. auto. }
    apply G in D22; [|apply N; vm_compute; reflexivity]. apply G in D29; [|apply N; vm_compute; reflexivity].
    unfold opt_ok in D28. rewrite (N "not") in D28 by (vm_compute; reflexivity).
    unfold schemas_ok in D25, D26, D27. rewrite N in D25, D26, D27 by (vm_compute; reflexivity).
    apply run_all_cons in R. destruct R as (r1 & R' & E1 & R & ->). apply run_all_cons in R. destruct R as (r2 & R2 & E2 & R & ->).
    apply run_all_cons in R. destruct R as (r3 & R3 & E3 & R & ->). apply run_all_cons in R. destruct R as (r4 & R4 & E4 & R & ->). apply run_all_nil in R. subst R4. injection E4 as <-.
    unfold validateSchema, v_anyOf, v_oneOf, v_allOf, v_not, v_dependencies, v_if in E1. rewrite D25, D26, D27, D28, D6, D29 in E1. cbn in E1. injection E1 as <-.
    cbn [radd errors inc new_result]. rewrite !filter_app. cbn [filter app]. rewrite app_nil_r.
    assert (X3 : filter is_unique_error (errors r3) = []).
    { unfold validateCommon in E3. apply run_all_cons in E3. destruct E3 as (q1 & Q1 & F2 & E3 & ->). apply run_all_cons in E3. destruct E3 as (q2 & Q2 & F3 & E3 & ->).
      apply run_all_cons in E3. destruct E3 as (q3 & Q3 & F4 & E3 & ->). apply run_all_cons in E3. destruct E3 as (q4 & Q4 & F5 & E3 & ->). apply run_all_nil in E3. subst Q4. injection F5 as <-.
      cbn [radd errors inc new_result]. rewrite !filter_app. cbn [filter].
      assert (W1 : forall b t c v ds q, t <> ItemsMustBeUniqueError -> when b (Ok (emit t c v ds)) = Ok q -> filter is_unique_error (errors q) = []).
      { intros b t c v ds q Ht. unfold when. destruct b; intros [= <-]; auto. cbn. unfold is_unique_error. cbn. destruct t; congruence. }
      replace (filter is_unique_error (errors q1)) with (@nil rerror); [replace (filter is_unique_error (errors q2)) with (@nil rerror); [replace (filter is_unique_error (errors q3)) with (@nil rerror); auto|]|]; symmetry.
      - unfold v_format in F4. destruct (String.eqb _ _); [injection F4 as <-; auto|]. eapply W1; [|exact F4]. discriminate.
      - unfold v_enum in F3. destruct (n_enum n); [injection F3 as <-; auto|]. destruct (marshalWithoutNumber _); [|discriminate F3]. eapply W1; [|exact F3]. discriminate.
      - unfold v_const in F2. destruct (n_const n); [|injection F2 as <-; auto]. destruct (marshalWithoutNumber _); [|discriminate F2]. eapply W1; [|exact F2]. discriminate. }
    rewrite X3. rewrite ?app_nil_r. cbn [app].
    unfold validateArray in E2. apply run_all_cons in E2. destruct E2 as (q1 & Q1 & F2 & E2 & ->). apply run_all_cons in E2. destruct E2 as (q2 & Q2 & F3 & E2 & ->).
    apply run_all_cons in E2. destruct E2 as (q3 & Q3 & F4 & E2 & ->). apply run_all_cons in E2. destruct E2 as (q4 & Q4 & F5 & E2 & ->).
    apply run_all_cons in E2. destruct E2 as (q5 & Q5 & F6 & E2 & ->). apply run_all_cons in E2. destruct E2 as (q6 & Q6 & F7 & E2 & ->). apply run_all_nil in E2. subst Q6. injection F7 as <-.
    unfold v_items in F2. rewrite D7, D7' in F2. injection F2 as <-. unfold v_contains in F6. rewrite D22 in F6. injection F6 as <-.
    unfold v_uniqueItems in F5. rewrite D21 in F5. cbn [when] in F5.
    destruct (unique_loop_errors [STRING_CONTEXT_ROOT] (VArr l) l ts [] [] MT) as (ru & Eu & Hu); [reflexivity|].
    cbn [length] in Eu. rewrite Eu in F5. injection F5 as <-.
    cbn [radd errors inc new_result]. rewrite !filter_app. cbn [filter app].
    replace (filter is_unique_error (errors q2)) with (@nil rerror); [replace (filter is_unique_error (errors q3)) with (@nil rerror)|]; symmetry.
    - rewrite ?app_nil_r. cbn [app]. rewrite Hu. generalize (pairs [] ts). intros ps. induction ps as [|p ps IH]; auto. cbn [map filter]. rewrite <- IH. reflexivity.
    - unfold v_maxItems in F4. destruct (n_maxItems n); [|injection F4 as <-; auto]. destruct (Z.ltb _ _); injection F4 as <-; auto.
    - unfold v_minItems in F3. destruct (n_minItems n); [|injection F3 as <-; auto]. destruct (Z.ltb _ _); injection F3 as <-; auto.
  Qed.
End Unique.
