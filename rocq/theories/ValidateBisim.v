(** Two graphs of schema nodes that agree cell by cell give the same Results, up
    to the order of the errors: a logical relation between two runs, as in
    ValidateOrder.v but over two heaps. *)
From Verif Require Export ValidateOrder.

Section Nodes.
  Variables h1 h2 : heap.
  (** Which cell of one graph stands for which cell of the other. *)
  Variable S : nat -> nat -> Prop.

  Definition opt_rel (a b : option nat) : Prop :=
    match a, b with Some i, Some j => S i j | None, None => True | _, _ => False end.
  Definition addl_rel (a b : option addl) : Prop :=
    match a, b with
    | Some (AddlBool x), Some (AddlBool y) => x = y
    | Some (AddlSchema i), Some (AddlSchema j) => S i j
    | None, None => True
    | _, _ => False
    end.
  Definition dep_rel (a b : dep) : Prop :=
    match a, b with
    | DepKeys x, DepKeys y => x = y
    | DepSchema i, DepSchema j => S i j
    | _, _ => False
    end.
  Definition prop_rel (i j : nat) : Prop :=
    S i j /\ exists k, prop_name h1 i = Ok k /\ prop_name h2 j = Ok k.

  (** The keywords agree; subschemas correspond; those kept in Go maps may come
      in any order. *)
  Record body_rel (n n' : node) : Prop := {
    br_types : n_types n = n_types n';
    br_items : Forall2 S (n_items n) (n_items n');
    br_single : n_items_single n = n_items_single n';
    br_props : exists l, Permutation (n_props n) l /\ Forall2 prop_rel l (n_props n');
    br_multipleOf : n_multipleOf n = n_multipleOf n';
    br_maximum : n_maximum n = n_maximum n';
    br_exclusiveMaximum : n_exclusiveMaximum n = n_exclusiveMaximum n';
    br_minimum : n_minimum n = n_minimum n';
    br_exclusiveMinimum : n_exclusiveMinimum n = n_exclusiveMinimum n';
    br_minLength : n_minLength n = n_minLength n';
    br_maxLength : n_maxLength n = n_maxLength n';
    br_pattern : n_pattern n = n_pattern n';
    br_format : n_format n = n_format n';
    br_minProperties : n_minProperties n = n_minProperties n';
    br_maxProperties : n_maxProperties n = n_maxProperties n';
    br_required : n_required n = n_required n';
    br_dep_keys : NoDup (map fst (n_dependencies n));
    br_dependencies : map_rel dep_rel (n_dependencies n) (n_dependencies n');
    br_additionalProperties : addl_rel (n_additionalProperties n) (n_additionalProperties n');
    br_patternProperties : map_rel S (n_patternProperties n) (n_patternProperties n');
    br_propertyNames : opt_rel (n_propertyNames n) (n_propertyNames n');
    br_minItems : n_minItems n = n_minItems n';
    br_maxItems : n_maxItems n = n_maxItems n';
    br_uniqueItems : n_uniqueItems n = n_uniqueItems n';
    br_contains : opt_rel (n_contains n) (n_contains n');
    br_additionalItems : addl_rel (n_additionalItems n) (n_additionalItems n');
    br_const : n_const n = n_const n';
    br_enum : n_enum n = n_enum n';
    br_oneOf : Forall2 S (n_oneOf n) (n_oneOf n');
    br_anyOf : Forall2 S (n_anyOf n) (n_anyOf n');
    br_allOf : Forall2 S (n_allOf n) (n_allOf n');
    br_not : opt_rel (n_not n) (n_not n');
    br_if : opt_rel (n_if n) (n_if n');
    br_then : opt_rel (n_then n) (n_then n');
    br_else : opt_rel (n_else n) (n_else n')
  }.

  (** Of a boolean schema only the boolean counts, of a reference only what it
      leads to. *)
  Definition node_rel (n n' : node) : Prop :=
    match n_pass n with
    | Some b => n_pass n' = Some b
    | None => n_pass n' = None /\
        match n_ref n with
        | Some i => exists j, n_ref n' = Some j /\ S i j
        | None => n_ref n' = None /\ body_rel n n'
        end
    end.
End Nodes.

Lemma filter_map_rel {A B} (S : A -> B -> Prop) (p : string -> bool) m m' : map_rel S m m' ->
  map_rel S (filter (fun e => p (fst e)) m) (filter (fun e => p (fst e)) m').
Proof.
  intros (m1 & HP & HF). exists (filter (fun e => p (fst e)) m1). split; [apply filter_perm; auto|].
  clear HP. induction HF as [|a b l l' [E H] _ IH]; simpl; [constructor|]. rewrite E. destruct (p (fst b)); auto. constructor; auto. split; auto.
Qed.

Lemma map_rel_pick {A B} (S : A -> B -> Prop) o1 o2 m m' : fair o1 -> fair o2 -> map_rel S m m' -> map_rel S (pick o1 m) (pick o2 m').
Proof.
  intros F1 F2 (m1 & HP & HF). destruct (Forall2_perm_r _ _ _ _ (pick_perm o2 _ m' F2) HF) as (m2 & HP2 & HF2).
  exists m2. split; auto. etransitivity; [symmetry; apply pick_perm; auto|]. etransitivity; eauto.
Qed.

Section TwoHeaps.
  Variable env : goenv.
  Variables h1 h2 : heap.
  Variable T : nat -> nat -> Prop.
  Variable R : value -> value -> Prop.
  Hypothesis HR : value_rel env R.
  Variables rec1 rec2 : oracle -> nat -> value -> ctx -> out result.
  Hypothesis Hrec : forall o1 o2 i j v v' c, fair o1 -> fair o2 -> T i j -> R v v' ->
    out_rel R (rec1 o1 i v c) (rec2 o2 j v' c).

  Hint Resolve out_rel_ok res_rel_new res_rel_inc res_rel_add res_rel_emit out_rel_when
       shift_fair out_rel_panic : orel.

  Lemma branches_rel2 o1 o2 ids ids' v v' c : fair o1 -> fair o2 -> Forall2 T ids ids' -> R v v' ->
    Forall2 (out_rel R) (mapi (fun i id => rec1 (shift o1 i) id v c) 0 ids)
                        (mapi (fun i id => rec2 (shift o2 i) id v' c) 0 ids').
  Proof.
    intros F1 F2 HI Hv. apply Forall2_mapi_same with (S := T); auto.
    intros i a b H. auto with orel.
  Qed.

  Variables n n' : node.
  Hypothesis B : body_rel h1 h2 T n n'.

  Ltac emits := repeat first [apply out_rel_when | apply out_rel_ok, res_rel_emit | apply out_rel_ok, res_rel_new]; auto with orel.

  Lemma bis_anyOf o1 o2 v v' c : fair o1 -> fair o2 -> R v v' ->
    out_rel R (v_anyOf rec1 o1 n v c) (v_anyOf rec2 o2 n' v' c).
  Proof.
    intros F1 F2 Hv. unfold v_anyOf. pose proof (br_anyOf _ _ _ _ _ B) as HB.
    destruct HB as [|i j l l' H HB]; auto with orel.
    eapply out_rel_bind_gen.
    - apply first_valid_rel; [apply (branches_rel2 o1 o2 (i :: l) (j :: l')); auto|exact I].
    - intros p p' [Hf Hb]. rewrite <- Hf. destruct (fst p); auto with orel.
      apply run_list. constructor; auto with orel. constructor; auto.
      unfold merge_best_opt. destruct (snd p), (snd p'); simpl in Hb; try tauto; auto with orel.
  Qed.

  Lemma bis_oneOf o1 o2 v v' c : fair o1 -> fair o2 -> R v v' ->
    out_rel R (v_oneOf rec1 o1 n v c) (v_oneOf rec2 o2 n' v' c).
  Proof.
    intros F1 F2 Hv. unfold v_oneOf. pose proof (br_oneOf _ _ _ _ _ B) as HB.
    destruct HB as [|i j l l' H HB]; auto with orel.
    eapply out_rel_bind_gen.
    - apply count_valid_rel; [apply (branches_rel2 o1 o2 (i :: l) (j :: l')); auto|exact I].
    - intros p p' [Hf Hb]. rewrite <- Hf. destruct (Nat.eqb (fst p) 1); auto with orel.
      apply run_list. constructor; auto with orel. constructor; auto. apply out_rel_when.
      unfold merge_best. destruct (snd p), (snd p'); simpl in Hb; try tauto; auto with orel.
  Qed.

  Lemma bis_allOf o1 o2 v v' c : fair o1 -> fair o2 -> R v v' ->
    out_rel R (v_allOf rec1 o1 n v c) (v_allOf rec2 o2 n' v' c).
  Proof.
    intros F1 F2 Hv. unfold v_allOf. pose proof (br_allOf _ _ _ _ _ B) as HB.
    pose proof (Forall2_length _ _ _ HB) as HL.
    destruct HB as [|i j l l' H HB]; auto with orel. rewrite <- HL.
    eapply out_rel_bind_gen.
    - apply merge_all_rel, (branches_rel2 o1 o2 (i :: l) (j :: l')); auto.
    - intros p p' [Hf Hb]. rewrite <- Hf. apply run_list. constructor; auto with orel.
  Qed.

  Lemma bis_not o1 o2 v v' c : fair o1 -> fair o2 -> R v v' ->
    out_rel R (v_not rec1 o1 n v c) (v_not rec2 o2 n' v' c).
  Proof.
    intros F1 F2 Hv. unfold v_not. pose proof (br_not _ _ _ _ _ B) as HB.
    destruct (n_not n), (n_not n'); simpl in HB; try tauto; auto with orel.
    apply out_rel_bind with (R := R); auto. intros r r' Hr. rewrite (res_rel_Valid _ _ _ Hr). auto with orel.
  Qed.

  Lemma bis_dependency o1 o2 m m' v v' c k : fair o1 -> fair o2 -> R v v' ->
    NoDup (map fst m) -> map_rel R m m' ->
    out_rel R (v_dependency rec1 o1 n m v c k) (v_dependency rec2 o2 n' m' v' c k).
  Proof.
    intros F1 F2 Hv Hn Hm. unfold v_dependency.
    pose proof (assoc_map_rel (dep_rel T) k _ _ (br_dep_keys _ _ _ _ _ B) (br_dependencies _ _ _ _ _ B)) as HB.
    destruct (assoc k (n_dependencies n)) as [[ks|id]|], (assoc k (n_dependencies n')) as [[ks'|id']|]; simpl in HB; try tauto; auto with orel.
    subst ks'. apply run_list. induction ks; simpl; constructor; auto.
    apply assoc_some_rel; auto with orel.
  Qed.

  Lemma bis_dependencies o1 o2 v v' c : fair o1 -> fair o2 -> R v v' ->
    out_rel R (v_dependencies env rec1 o1 n v c) (v_dependencies env rec2 o2 n' v' c).
  Proof.
    intros F1 F2 Hv. unfold v_dependencies. pose proof (map_rel_length _ _ _ (br_dependencies _ _ _ _ _ B)) as HL.
    destruct (n_dependencies n) eqn:En, (n_dependencies n') eqn:En'; try discriminate HL; auto with orel.
    rewrite <- (rel_isKind_map env R HR _ _ Hv). destruct (isKind_map env v) as [b| |]; simpl; auto with orel.
    - destruct b; auto with orel.
      pose proof (vr_shape _ _ HR _ _ Hv) as Hs.
      destruct v, v'; simpl in Hs; try tauto; auto with orel.
      destruct Hs as [Hn Hm]. apply range_rel; auto with orel.
      intros. simpl. apply bis_dependency; auto with orel.
    - intros r E; discriminate.
  Qed.

  Lemma bis_if o1 o2 v v' c : fair o1 -> fair o2 -> R v v' ->
    out_rel R (v_if rec1 o1 n v c) (v_if rec2 o2 n' v' c).
  Proof.
    intros F1 F2 Hv. unfold v_if. pose proof (br_if _ _ _ _ _ B) as H1. pose proof (br_then _ _ _ _ _ B) as H2. pose proof (br_else _ _ _ _ _ B) as H3.
    destruct (n_if n), (n_if n'); simpl in H1; try tauto; auto with orel.
    apply out_rel_bind with (R := R); auto with orel. intros r r' Hr.
    rewrite (res_rel_Valid _ _ _ Hr). apply run_list. constructor; [|constructor; [|constructor]].
    - destruct (n_then n), (n_then n'); simpl in H2; try tauto; auto with orel. apply out_rel_when, out_rel_bind with (R := R); auto with orel.
      intros s s' Hs. rewrite (res_rel_Valid _ _ _ Hs). apply out_rel_when, run_list. auto with orel.
    - destruct (n_else n), (n_else n'); simpl in H3; try tauto; auto with orel. apply out_rel_when, out_rel_bind with (R := R); auto with orel.
      intros s s' Hs. rewrite (res_rel_Valid _ _ _ Hs). apply out_rel_when, run_list. auto with orel.
  Qed.

  Lemma bis_validateSchema o1 o2 v v' c : fair o1 -> fair o2 -> R v v' ->
    out_rel R (validateSchema env rec1 o1 n v c) (validateSchema env rec2 o2 n' v' c).
  Proof.
    intros F1 F2 Hv. unfold validateSchema. apply run_list.
    repeat (constructor; [auto using bis_anyOf, bis_oneOf, bis_allOf, bis_not, bis_dependencies, bis_if with orel|]).
    constructor.
  Qed.

  Lemma bis_validateCommon v v' c : R v v' ->
    out_rel R (validateCommon env n v c) (validateCommon env n' v' c).
  Proof.
    intros Hv. pose proof (rel_validateCommon env R HR n v v' c Hv) as H.
    replace (validateCommon env n' v' c) with (validateCommon env n v' c); auto.
    unfold validateCommon, v_const, v_enum, v_format.
    rewrite (br_const _ _ _ _ _ B), (br_enum _ _ _ _ _ B), (br_format _ _ _ _ _ B). reflexivity.
  Qed.

  Lemma bis_item o1 o2 c id id' i x x' : fair o1 -> fair o2 -> T id id' -> R x x' ->
    out_rel R (v_item rec1 o1 c id i x) (v_item rec2 o2 c id' i x').
  Proof. intros F1 F2 Hi Hx. unfold v_item. auto with orel. Qed.

  Lemma bis_items_zip o1 o2 c ids ids' : fair o1 -> fair o2 -> Forall2 T ids ids' -> forall l l', Forall2 R l l' -> forall i,
    Forall2 (out_rel R) (v_items_zip rec1 o1 c i ids l) (v_items_zip rec2 o2 c i ids' l').
  Proof.
    intros F1 F2 HI. induction HI; intros l1 l2 Hl i; simpl; [constructor|].
    destruct Hl; simpl; constructor; auto. apply bis_item; auto.
  Qed.

  Lemma bis_each_item o1 o2 c id id' l l' : fair o1 -> fair o2 -> T id id' -> Forall2 R l l' -> forall i,
    Forall2 (out_rel R) (mapi (v_item rec1 o1 c id) i l) (mapi (v_item rec2 o2 c id') i l').
  Proof.
    intros F1 F2 Hi Hl i. apply Forall2_mapi_same with (S := R); auto.
    intros. apply bis_item; auto.
  Qed.

  Lemma bis_validateArray o1 o2 l l' c : fair o1 -> fair o2 -> R (VArr l) (VArr l') -> Forall2 R l l' ->
    out_rel R (validateArray rec1 o1 n l c) (validateArray rec2 o2 n' l' c).
  Proof.
    intros F1 F2 Hv Hl. unfold validateArray. apply run_list.
    pose proof (Forall2_length _ _ _ Hl) as Hlen.
    constructor; [|constructor; [|constructor; [|constructor; [|constructor; [|constructor; [|constructor]]]]]];
      auto with orel.
    - unfold v_items. rewrite <- (br_single _ _ _ _ _ B). pose proof (br_items _ _ _ _ _ B) as HB.
      pose proof (Forall2_length _ _ _ HB) as HL. destruct (n_items_single n).
      + destruct HB as [|id id' ids ids' Hi HB].
        * inversion Hl; subst; auto with orel.
        * apply run_list, bis_each_item; auto with orel.
      + destruct HB as [|id id' ids ids' Hi HB]; auto with orel. rewrite <- Hlen, <- HL.
        apply run_list. constructor; [|constructor; [|constructor]].
        * apply run_list, bis_items_zip; auto with orel.
        * apply out_rel_when. pose proof (br_additionalItems _ _ _ _ _ B) as HA.
          destruct (n_additionalItems n) as [[b|i]|], (n_additionalItems n') as [[b'|i']|]; simpl in HA; try tauto; auto with orel.
          -- subst b'. destruct b; auto with orel.
          -- apply run_list, bis_each_item; auto using Forall2_skipn with orel.
    - unfold v_minItems. rewrite <- (br_minItems _ _ _ _ _ B), <- Hlen. destruct (n_minItems n); auto with orel.
    - unfold v_maxItems. rewrite <- (br_maxItems _ _ _ _ _ B), <- Hlen. destruct (n_maxItems n); auto with orel.
    - unfold v_uniqueItems. rewrite <- (br_uniqueItems _ _ _ _ _ B). apply out_rel_when, (rel_unique_loop env R HR); auto.
    - unfold v_contains. pose proof (br_contains _ _ _ _ _ B) as HB. destruct (n_contains n), (n_contains n'); simpl in HB; try tauto; auto with orel.
      eapply out_rel_bind_gen.
      + apply first_valid_rel; [apply bis_each_item; auto with orel|exact I].
      + intros p p' [Hf Hb]. rewrite <- Hf. destruct (fst p); auto with orel.
        apply run_list. constructor; auto with orel. constructor; auto.
        unfold merge_best_opt. destruct (snd p), (snd p'); simpl in Hb; try tauto; auto with orel.
  Qed.

  Lemma bis_patternProperty o1 o2 k x x' c : fair o1 -> fair o2 -> R x x' ->
    forall p, validatePatternProperty env rec1 o1 n k x c = Ok p ->
    exists p', validatePatternProperty env rec2 o2 n' k x' c = Ok p' /\ fst p = fst p' /\ res_rel R (snd p) (snd p').
  Proof.
    intros F1 F2 Hx p E. unfold validatePatternProperty in *.
    set (hits1 := filter _ (pick (shift o1 0) _)) in *.
    set (hits2 := filter _ (pick (shift o2 0) _)) in *.
    assert (HP : map_rel T hits1 hits2).
    { apply (filter_map_rel T (fun p => re_matches env p k)), map_rel_pick; auto with orel. apply (br_patternProperties _ _ _ _ _ B). }
    destruct (run_all (mapi _ 0 hits1)) as [r| |] eqn:Er; simpl in E; try discriminate.
    assert (Ho : out_rel R
      (run_all (mapi (fun i (e : string * nat) => rec1 (shift o1 (S i)) (snd e) x (NewJsonContext k c)) 0 hits1))
      (run_all (mapi (fun i (e : string * nat) => rec2 (shift o2 (S i)) (snd e) x' (NewJsonContext k c)) 0 hits2))).
    { destruct HP as (l1 & HP & HF). eapply run_all_mapi_perm with (S := entry_rel T); [exact HP|exact HF|apply Permutation_refl|].
      intros i j a b [_ H]. auto with orel. }
    destruct (Ho r Er) as (r' & Er' & Hr).
    rewrite Er'. simpl. apply map_rel_length in HP.
    destruct hits1, hits2; try discriminate HP.
    - injection E as <-. eexists; split; [reflexivity|]. simpl; auto.
    - injection E as <-. eexists; split; [reflexivity|]. simpl; auto with orel.
  Qed.

  (** Whether a member is described does not depend on the order of the properties. *)
  Lemma described_names h pk ids ks : Forall2 (fun i k => prop_name h i = Ok k) ids ks ->
    described h pk ids = Ok (existsb (String.eqb pk) ks).
  Proof. induction 1 as [|i k ids ks E _ IH]; simpl; auto. rewrite E, IH. reflexivity. Qed.
  Lemma existsb_perm {A} (p : A -> bool) l l' : Permutation l l' -> existsb p l = existsb p l'.
  Proof.
    intros HP. apply Bool.eq_iff_eq_true. rewrite !existsb_exists.
    split; intros (x & Hx & E); exists x; split; auto; [|apply Permutation_sym in HP]; eapply Permutation_in; eauto.
  Qed.
  Lemma described_same pk : described h1 pk (n_props n) = described h2 pk (n_props n').
  Proof.
    destruct (br_props _ _ _ _ _ B) as (l & HP & HF).
    assert (exists ks, Forall2 (fun i k => prop_name h1 i = Ok k) l ks /\ Forall2 (fun i k => prop_name h2 i = Ok k) (n_props n') ks) as (ks & K1 & K2).
    { clear HP. induction HF as [|i j l l' (_ & k & E1 & E2) _ (ks & K1 & K2)]; [exists []; auto|]. exists (k :: ks). auto. }
    rewrite (described_names _ _ _ _ K2). destruct (Forall2_perm_l _ _ _ _ (Permutation_sym HP) K1) as (ks' & HP' & K').
    rewrite (described_names _ _ _ _ K'). f_equal. apply existsb_perm. apply Permutation_sym. auto.
  Qed.

  Lemma bis_member o1 o2 c k x x' : fair o1 -> fair o2 -> R x x' ->
    out_rel R (v_member env h1 rec1 o1 n c (k, x)) (v_member env h2 rec2 o2 n' c (k, x')).
  Proof.
    intros F1 F2 Hx. unfold v_member. rewrite described_same.
    apply out_rel_bind_gen with (Q := eq); [eauto|]. intros found _ <-.
    eapply out_rel_bind_gen.
    - apply bis_patternProperty; auto with orel.
    - intros p p' [Hf Hr]. rewrite <- Hf. apply out_rel_bind with (R := R).
      + destruct (_ && _)%bool; auto with orel. pose proof (br_additionalProperties _ _ _ _ _ B) as HA.
        destruct (n_additionalProperties n) as [[b|i]|], (n_additionalProperties n') as [[b'|i']|]; simpl in HA; try tauto; auto with orel.
        subst b'. destruct b; auto with orel.
      + intros s s' Hs. auto with orel.
  Qed.

  Lemma bis_validateObject o1 o2 m m' c : fair o1 -> fair o2 -> R (VMap m) (VMap m') ->
    NoDup (map fst m) -> map_rel R m m' ->
    out_rel R (validateObject env h1 rec1 o1 n m c) (validateObject env h2 rec2 o2 n' m' c).
  Proof.
    intros F1 F2 Hv Hn Hm. unfold validateObject. apply run_list.
    pose proof (map_rel_length _ _ _ Hm) as Hlen.
    constructor; [|constructor; [|constructor; [|constructor; [|constructor; [|constructor; [|constructor]]]]]];
      auto with orel.
    - unfold v_minProperties. rewrite <- (br_minProperties _ _ _ _ _ B), <- Hlen. destruct (n_minProperties n); auto with orel.
    - unfold v_maxProperties. rewrite <- (br_maxProperties _ _ _ _ _ B), <- Hlen. destruct (n_maxProperties n); auto with orel.
    - unfold v_required. rewrite <- (br_required _ _ _ _ _ B). apply run_list. induction (n_required n); simpl; constructor; auto.
      apply assoc_some_rel; auto with orel.
    - unfold v_members. apply range_rel; auto with orel.
      intros. apply bis_member; auto with orel.
    - unfold v_propertyNames. pose proof (br_propertyNames _ _ _ _ _ B) as HB. destruct (n_propertyNames n), (n_propertyNames n'); simpl in HB; try tauto; auto with orel.
      apply range_rel; auto with orel. intros i j k x x' Hx. simpl fst.
      apply out_rel_bind with (R := R); [apply Hrec; auto with orel; apply (vr_str _ _ HR)|].
      intros r r' Hr. rewrite (res_rel_Valid _ _ _ Hr). apply out_rel_when, run_list; auto with orel.
  Qed.

  Lemma bis_validateNumber v v' c : R v v' -> out_rel R (validateNumber env n v c) (validateNumber env n' v' c).
  Proof.
    intros Hv. pose proof (rel_validateNumber env R HR n v v' c Hv) as H.
    replace (validateNumber env n' v' c) with (validateNumber env n v' c); auto.
    unfold validateNumber, v_multipleOf.
    rewrite (br_multipleOf _ _ _ _ _ B), (br_maximum _ _ _ _ _ B), (br_exclusiveMaximum _ _ _ _ _ B), (br_minimum _ _ _ _ _ B), (br_exclusiveMinimum _ _ _ _ _ B). reflexivity.
  Qed.

  Lemma bis_validateString v v' c : R v v' -> out_rel R (validateString env n v c) (validateString env n' v' c).
  Proof.
    intros Hv. pose proof (rel_validateString env R HR n v v' c Hv) as H.
    replace (validateString env n' v' c) with (validateString env n v' c); auto.
    unfold validateString, v_string_checks.
    rewrite (br_minLength _ _ _ _ _ B), (br_maxLength _ _ _ _ _ B), (br_pattern _ _ _ _ _ B). reflexivity.
  Qed.

  Lemma bis_scalar_checks o1 o2 v v' c : fair o1 -> fair o2 -> R v v' ->
    out_rel R (scalar_checks env rec1 o1 n v c) (scalar_checks env rec2 o2 n' v' c).
  Proof.
    intros F1 F2 Hv. unfold scalar_checks. apply run_list.
    repeat (constructor; [auto using bis_validateSchema, bis_validateNumber, bis_validateCommon, bis_validateString with orel|]).
    constructor.
  Qed.

  Lemma bis_object_checks o1 o2 m m' c : fair o1 -> fair o2 -> R (VMap m) (VMap m') ->
    out_rel R (object_checks env h1 rec1 o1 n m c) (object_checks env h2 rec2 o2 n' m' c).
  Proof.
    intros F1 F2 Hv. destruct (vr_shape _ _ HR _ _ Hv) as [Hn Hm].
    unfold object_checks. apply run_list.
    constructor; [|constructor; [|constructor; [|constructor; [|constructor; [|constructor]]]]];
      auto using bis_validateSchema, bis_validateObject, bis_validateCommon with orel.
    destruct (br_props _ _ _ _ _ B) as (l & HP & HF).
    eapply run_all_mapi_perm with (S := prop_rel h1 h2 T); [exact HP|exact HF|apply Permutation_refl|].
    intros i j a b (H & k & E1 & E2). unfold v_property. rewrite E1, E2. cbn [obind].
    pose proof (assoc_map_rel R k m m' Hn Hm) as Ha.
    destruct (assoc k m), (assoc k m'); simpl in Ha; try tauto; auto with orel.
  Qed.

  Lemma bis_type_error v v' c t : R v v' -> out_rel R (type_error n v c t) (type_error n' v' c t).
  Proof. unfold type_error. rewrite (br_types _ _ _ _ _ B). auto with orel. Qed.

  Lemma bis_body o1 o2 v v' c : n_pass n = None -> n_pass n' = None -> n_ref n = None -> n_ref n' = None ->
    fair o1 -> fair o2 -> R v v' ->
    out_rel R (validateNode env h1 rec1 o1 n v c) (validateNode env h2 rec2 o2 n' v' c).
  Proof.
    intros P1 P2 N1 N2 F1 F2 Hv. unfold validateNode. rewrite P1, P2, N1, N2, <- (br_types _ _ _ _ _ B).
    pose proof (vr_shape _ _ HR _ _ Hv) as Hs.
    destruct v, v'; simpl in Hs; try tauto; subst; cbn [IsTyped];
      try (destruct (_ && _)%bool; [apply bis_type_error; auto|]); auto using bis_scalar_checks with orel.
    - apply run_list. repeat (constructor; [auto using bis_validateSchema, bis_validateCommon with orel|]). constructor.
    - apply run_list. repeat (constructor; [auto using bis_validateSchema, bis_validateCommon, bis_validateArray with orel|]). constructor.
    - apply bis_object_checks; auto.
    - refine (out_rel_bind_gen R R (convertDocumentNode (VIMap m)) (convertDocumentNode (VMap m0)) _
                (fun w => match w with VMap m => object_checks env h2 rec2 o2 n' m c | _ => Panic end) _ _).
      + intros w Ew. exact (vr_convert _ _ HR _ _ _ Hv Ew).
      + intros w w' Hw. pose proof (vr_shape _ _ HR _ _ Hw) as Hs'.
        destruct w, w'; simpl in Hs'; try tauto; auto with orel.
        apply bis_object_checks; auto.
    - eapply out_rel_bind_gen.
      + intros w Ew. exact (vr_convert _ _ HR _ _ _ Hv Ew).
      + intros w w' Hw. pose proof (vr_shape _ _ HR _ _ Hw) as Hs'.
        destruct w, w'; simpl in Hs'; try tauto; auto with orel.
        apply bis_object_checks; auto.
  Qed.
End TwoHeaps.

(** A cell of the first graph may also be a reference to a cell that
    corresponds. *)
Theorem validateRecursive_bisim env h1 h2 (T : nat -> nat -> Prop) R : value_rel env R ->
  (forall i j n, T i j -> nth_error h1 i = Some n ->
     (exists n', nth_error h2 j = Some n' /\ node_rel h1 h2 T n n') \/
     (exists i', n_pass n = None /\ n_ref n = Some i' /\ T i' j)) ->
  forall k o1 o2 i j v v' c, fair o1 -> fair o2 -> T i j -> R v v' ->
  out_rel R (validateRecursive env h1 k o1 i v c) (validateRecursive env h2 k o2 j v' c).
Proof.
  intros HR HT. induction k as [|k IH]; intros o1 o2 i j v v' c F1 F2 Hij Hv.
  - intros r E; discriminate.
  - assert (EU : forall h o id v c, validateRecursive env h (S k) o id v c =
      match nth_error h id with Some n => validateNode env h (validateRecursive env h k) o n v c | None => Panic end) by reflexivity.
    rewrite EU. destruct (nth_error h1 i) as [n|] eqn:En; [|apply out_rel_panic].
    destruct (HT i j n Hij En) as [(n' & En' & HN)|(i' & Ep & Er & Hij')].
    + rewrite EU, En'. unfold node_rel in HN.
      destruct (n_pass n) as [b|] eqn:Ep.
      * unfold validateNode. rewrite Ep, HN. destruct b; auto using out_rel_ok, res_rel_new, res_rel_emit.
      * destruct HN as [Ep' HN]. destruct (n_ref n) as [a|] eqn:Er.
        -- destruct HN as (b & Er' & Hab). unfold validateNode. rewrite Ep, Ep', Er, Er'. apply IH; auto.
        -- destruct HN as [Er' HB]. eapply bis_body; eauto.
    + intros r E. unfold validateNode in E. rewrite Ep, Er in E.
      destruct (IH o1 o2 i' j v v' c F1 F2 Hij' Hv r E) as (r' & E' & H). exists r'. split; auto.
      eapply validateRecursive_stable; [|exact E'|discriminate]. auto.
Qed.
