(** Keywords with subschemas, references, and parseSchema as a whole keep the
    compilation invariant. *)
From Verif Require Export CompileInv.
Open Scope nat_scope.

Lemma nth_error_snoc {A} (l : list A) x : nth_error (l ++ [x]) (length l) = Some x.
Proof. rewrite nth_error_app2 by lia. rewrite Nat.sub_diag. reflexivity. Qed.
Lemma nth_error_snoc_old {A} (l : list A) x i y : nth_error l i = Some y -> nth_error (l ++ [x]) i = Some y.
Proof. intros H. rewrite nth_error_app1; auto. apply nth_error_Some. congruence. Qed.
Lemma nth_error_snoc_inv {A} (l : list A) x i y : nth_error (l ++ [x]) i = Some y ->
  nth_error l i = Some y \/ (i = length l /\ y = x).
Proof.
  intros H. destruct (Nat.lt_ge_cases i (length l)) as [Hl|Hl].
  - left. rewrite nth_error_app1 in H; auto.
  - right. rewrite nth_error_app2 in H by lia. destruct (i - length l) eqn:E; simpl in H.
    + injection H as <-. split; auto; lia.
    + destruct n; discriminate.
Qed.
Lemma nth_error_lt {A} (l : list A) i x : nth_error l i = Some x -> i < length l.
Proof. intros H. apply nth_error_Some. congruence. Qed.

Lemma set_nth_length {A} i (x : A) l : length (set_nth i x l) = length l.
Proof. revert i. induction l; intros [|i]; simpl; auto. Qed.
Lemma set_nth_same {A} i (x : A) l : i < length l -> nth_error (set_nth i x l) i = Some x.
Proof. revert i. induction l; intros [|i]; simpl; try lia; auto. intros. apply IHl. lia. Qed.
Lemma set_nth_other {A} i j (x : A) l : i <> j -> nth_error (set_nth i x l) j = nth_error l j.
Proof. revert i j. induction l; intros [|i] [|j]; simpl; auto; congruence. Qed.

Section Kids.
  Variable ce : cenv.
  Notation lim := (e_ratlim (c_go ce)).
  Notation re_ok := (e_re_ok (c_go ce)).
  Variable pd : policy.

  Notation wf := (wf ce pd).
  Notation step := (step ce pd).
  Notation grows := (grows ce).
  Notation cell := (cell ce).

  Lemma kid_lt s id d x : wf s -> kid s id d x -> id < length (st_heap s).
  Proof. intros [H _] K. rewrite <- H. eapply nth_error_lt; eauto. Qed.
  Lemma le_kid s s' id d x : le s s' -> kid s id d x -> kid s' id d x.
  Proof. intros H. apply H. Qed.
  Lemma le_named s s' id k : le s s' -> named s id k -> named s' id k.
  Proof. intros H. apply H. Qed.

  (** What parseSchema on a cell must do. *)
  Definition rec_ok (rec : oracle -> pargs -> nat -> value -> comp unit) : Prop :=
    forall o a id doc s s', fair o -> wf s -> kid s id (pa_draft a) doc -> named s id (pa_prop a) ->
    rec o a id doc s = COk tt s' -> wf s' /\ grows (Some id) s s' /\ cell s' id.

  Definition with_cell (s : cstate) (prop : string) (d : draft) (doc : value) : cstate :=
    CState (st_heap s ++ [empty_node prop]) (st_src s ++ [(d, doc)]) (st_pool s) (st_refs s).

  Lemma le_alloc s prop d doc : wf s -> le s (with_cell s prop d doc).
  Proof.
    intros W. unfold le, with_cell, kid, named. simpl. split; [|split; [|split; [|split]]]; auto.
    - intros. apply nth_error_snoc_old. auto.
    - rewrite app_length. lia.
    - intros id k (n & H & E). exists n. split; auto. apply nth_error_snoc_old. auto.
  Qed.
  Lemma wf_alloc s prop d doc : wf s -> good pd doc -> pd d -> wf (with_cell s prop d doc).
  Proof.
    intros (W1 & W2 & W3 & W4) Hd Hp. split; [|split; [|split]].
    - simpl. rewrite !app_length. simpl. lia.
    - exact W2.
    - intros id d' x K. unfold kid, with_cell in K. simpl in K. apply nth_error_snoc_inv in K. destruct K as [K|[_ K]].
      + eapply W3; eauto.
      + injection K as -> ->. auto.
    - intros r rid E. destruct (W4 r rid E) as (d' & x & K & M). exists d', x. split; auto.
      unfold kid, with_cell. simpl. apply nth_error_snoc_old. auto.
  Qed.
  Lemma kid_alloc s prop d doc : wf s -> kid (with_cell s prop d doc) (length (st_heap s)) d doc.
  Proof. intros [H _]. unfold kid, with_cell. simpl. rewrite <- H. apply nth_error_snoc. Qed.
  Lemma named_alloc s prop d doc : named (with_cell s prop d doc) (length (st_heap s)) prop.
  Proof. exists (empty_node prop). split; auto. simpl. apply nth_error_snoc. Qed.

  (** Filling a fresh cell is growth. *)
  Lemma grows_fresh s s1 s' : le s s1 -> length (st_heap s1) = S (length (st_heap s)) ->
    (forall j, j < length (st_heap s) -> nth_error (st_heap s1) j = nth_error (st_heap s) j) ->
    grows (Some (length (st_heap s))) s1 s' -> cell s' (length (st_heap s)) -> grows None s s'.
  Proof.
    intros L El Eo (G1 & G2 & G3) C. split; [eapply le_trans; eauto|]. split.
    - intros j Hj _. rewrite G2; auto; try lia. intros [= E]. lia.
    - intros j Hj. destruct (Nat.eq_dec j (length (st_heap s))) as [->|Hne]; auto. apply G3. lia.
  Qed.

  Lemma child_step rec o prop d myid doc : rec_ok rec -> fair o -> good pd doc -> pd d ->
    step (child rec o prop d myid doc) (fun id s => kid s id d doc /\ named s id prop).
  Proof.
    intros HR F Hd Hp s id s' W E. unfold child in E. apply cbind_ok in E. destruct E as (i & s1 & E1 & E).
    unfold alloc in E1. injection E1 as <- <-. change (CState _ _ _ _) with (with_cell s prop d doc) in E.
    apply cbind_ok in E. destruct E as ([] & s2 & E2 & E). unfold cret in E. injection E as <- <-.
    pose proof (kid_alloc s prop d doc W) as K. pose proof (named_alloc s prop d doc) as N.
    apply HR in E2; auto; [|apply wf_alloc; auto]. destruct E2 as (W2 & G & C). split; auto. split.
    - apply (grows_fresh s (with_cell s prop d doc) s2); auto; [apply le_alloc; auto|simpl; rewrite app_length; simpl; lia|].
      intros j Hj. simpl. apply nth_error_app1. auto.
    - destruct G as (L & _). split; [eapply le_kid; eauto|eapply le_named; eauto].
  Qed.

  Lemma cmap_step {A B} (f : nat -> A -> comp B) (Q : A -> B -> cstate -> Prop) l :
    (forall a b s s', le s s' -> Q a b s -> Q a b s') ->
    (forall i a, In a l -> step (f i a) (Q a)) ->
    forall i, step (cmap f i l) (fun bs s => Forall2 (fun a b => Q a b s) l bs).
  Proof.
    intros HQ. induction l as [|a l IH]; intros Hf i s bs s' W E; cbn [cmap] in E.
    - unfold cret in E. injection E as <- <-. split; auto. split; [apply grows_refl|constructor].
    - apply cbind_ok in E. destruct E as (b & s1 & E1 & E). apply cbind_ok in E. destruct E as (bs' & s2 & E2 & E).
      unfold cret in E. injection E as <- <-.
      apply Hf in E1; auto; [|left; auto]. destruct E1 as (W1 & G1 & Q1).
      apply IH in E2; auto; [|intros; apply Hf; right; auto]. destruct E2 as (W2 & G2 & Q2).
      split; auto. split; [eapply grows_trans0; eauto|]. constructor; auto. eapply HQ; eauto. apply G2.
  Qed.

  Ltac inv_ret E := unfold cret in E; injection E as <- <-.

  Variable rec : oracle -> pargs -> nat -> value -> comp unit.
  Hypothesis HR : rec_ok rec.
  Variable d : draft.
  Hypothesis Hp : pd d.
  Variable myid : string.
  Variable m : list (string * value).
  Hypothesis Hm : good pd (VMap m).

  Lemma entries_ok key ps : assoc key m = Some (VMap ps) -> forall o e, fair o -> In e (pick o ps) -> good pd (snd e).
  Proof.
    intros E o e F Hi. pose proof (good_member _ _ _ _ Hm E) as H. apply good_map in H. destruct H as [_ H].
    rewrite Forall_forall in H. apply H. eapply Permutation_in; [symmetry; apply pick_perm; eauto|auto].
  Qed.
  Lemma elements_ok key l : assoc key m = Some (VArr l) -> forall x, In x l -> good pd x.
  Proof.
    intros E x Hi. pose proof (good_member _ _ _ _ Hm E) as H. apply good_arr in H. rewrite Forall_forall in H. auto.
  Qed.

  Lemma p_definitions_step o : fair o -> step (p_definitions ce rec o d myid m) (fun _ _ => True).
  Proof.
    intros F s a s' W E. unfold p_definitions in E. destruct (assoc "definitions" m) as [v|] eqn:Ev; [|inv_ret E; split; [|split]; auto; apply grows_refl].
    apply cbind_ok in E. destruct E as (b & s1 & E1 & E). apply ck_pure in E1. destruct E1 as (-> & _).
    destruct b; [|discriminate]. simpl in E. destruct v; try discriminate.
    apply cbind_ok in E. destruct E as (l & s2 & E2 & E). inv_ret E.
    eapply cmap_step with (Q := fun _ _ _ => True) in E2; auto; [tauto|].
    intros i e Hi s0 b s0' W0 E0. apply cbind_ok in E0. destruct E0 as (b1 & s3 & E3 & E0). apply ck_pure in E3. destruct E3 as (-> & _).
    destruct b1; [|discriminate]. apply child_step in E0; auto; [tauto|apply shift_fair; auto|].
    eapply entries_ok; [exact Ev| |exact Hi]. apply shift_fair; auto.
  Qed.

  Lemma p_properties_step o : fair o -> step (p_properties ce rec o d myid m) (fun ids s => props_ok (kid s) (named s) d m ids).
  Proof.
    intros F s a s' W E. unfold p_properties, props_ok in *. destruct (assoc "properties" m) as [v|] eqn:Ev; [|inv_ret E; split; [|split]; auto; apply grows_refl].
    apply cbind_ok in E. destruct E as (b & s1 & E1 & E). apply ck_pure in E1. destruct E1 as (-> & _).
    destruct b; [|discriminate]. simpl in E. destruct v; try discriminate.
    eapply cmap_step with (Q := fun e id s => kid s id d (snd e) /\ named s id (fst e)) in E; auto.
    - destruct E as (W' & G & H). split; auto. split; auto. exists (pick (shift o 0) m0). split; auto. apply pick_perm, shift_fair; auto.
    - intros x y t t' L [H1 H2]. split; [eapply le_kid; eauto|eapply le_named; eauto].
    - intros i e Hi. apply child_step; auto; [apply shift_fair; auto|]. eapply entries_ok; [exact Ev| |exact Hi]. apply shift_fair; auto.
  Qed.

  Lemma p_additional_step o key : fair o -> step (p_additional ce rec o key d myid m) (fun r s => addl_ok (kid s) d m key r).
  Proof.
    intros F s a s' W E. unfold p_additional, addl_ok in *. destruct (assoc key m) as [v|] eqn:Ev; [|inv_ret E; split; [|split]; auto; apply grows_refl].
    apply cbind_ok in E. destruct E as (b & s1 & E1 & E). apply ck_pure in E1. destruct E1 as (-> & _ & Hk).
    destruct b.
    - destruct v; try discriminate. inv_ret E. split; [|split]; auto. apply grows_refl.
    - apply cbind_ok in E. destruct E as (b & s1 & E1 & E). apply ck_pure in E1. destruct E1 as (-> & _).
      destruct b; [|discriminate]. apply cbind_ok in E. destruct E as (id & s1 & E1 & E). inv_ret E.
      apply child_step in E1; auto; [|eapply good_member; eauto]. destruct E1 as (W' & G & K & _). split; auto. split; auto.
      destruct v; eauto. specialize (Hk _ eq_refl). discriminate.
  Qed.

  Lemma p_patternProperties_step o : fair o -> step (p_patternProperties ce rec o d myid m) (fun l s => pats_ok re_ok (kid s) d m l).
  Proof.
    intros F s a s' W E. unfold p_patternProperties, pats_ok in *. destruct (assoc "patternProperties" m) as [v|] eqn:Ev; [|inv_ret E; split; [|split]; auto; apply grows_refl].
    apply cbind_ok in E. destruct E as (b & s1 & E1 & E). apply ck_pure in E1. destruct E1 as (-> & _).
    destruct b; [|discriminate]. simpl in E. destruct v; try discriminate.
    eapply cmap_step with (Q := fun e r s => fst r = fst e /\ re_ok (fst e) = true /\ kid s (snd r) d (snd e)) in E; auto.
    - destruct E as (W' & G & H). split; auto. split; auto. exists (pick (shift o 0) m0). split; auto. apply pick_perm, shift_fair; auto.
    - intros x y t t' L (H1 & H2 & H3). split; auto. split; auto. eapply le_kid; eauto.
    - intros i e Hi t r t' Wt Et. destruct (re_ok (fst e)) eqn:Er; [|discriminate].
      apply cbind_ok in Et. destruct Et as (id & t1 & E1 & Et). inv_ret Et. apply child_step in E1; auto; [|apply shift_fair; auto|eapply entries_ok; [exact Ev| |exact Hi]; apply shift_fair; auto].
      destruct E1 as (W1 & G1 & K & _). auto.
  Qed.

  Lemma p_schema_step o key err : fair o -> step (p_schema ce rec o key d myid err m) (fun r s => opt_ok (kid s) d m key r).
  Proof.
    intros F s a s' W E. unfold p_schema, opt_ok in *. destruct (assoc key m) as [v|] eqn:Ev; [|inv_ret E; split; [|split]; auto; apply grows_refl].
    apply cbind_ok in E. destruct E as (b & s1 & E1 & E). apply ck_pure in E1. destruct E1 as (-> & _).
    destruct b; [|discriminate]. apply cbind_ok in E. destruct E as (id & s1 & E1 & E). inv_ret E.
    apply child_step in E1; auto; [|eapply good_member; eauto]. destruct E1 as (W' & G & K & _). split; auto. split; eauto.
  Qed.
  Lemma p_propertyNames_step o : fair o -> step (p_propertyNames ce rec o d myid m)
    (fun r s => gated (draft_ge6 d) r (opt_ok (kid s) d m "propertyNames" r)).
  Proof.
    intros F. unfold p_propertyNames, gated. destruct (draft_ge6 d).
    - apply p_schema_step; auto.
    - intros s a s' W E. inv_ret E. split; [|split]; auto. apply grows_refl.
  Qed.
  Lemma p_cond_step o key : fair o -> step (p_cond ce rec o key d myid m)
    (fun r s => gated (draft_ge7 d) r (opt_ok (kid s) d m key r)).
  Proof.
    intros F. unfold p_cond, gated. destruct (draft_ge7 d).
    - apply p_schema_step; auto.
    - intros s a s' W E. inv_ret E. split; [|split]; auto. apply grows_refl.
  Qed.
  Lemma p_contains_step o : fair o -> step (p_contains rec o d myid m)
    (fun r s => gated (draft_ge6 d) r (opt_ok (kid s) d m "contains" r)).
  Proof.
    intros F s a s' W E. unfold p_contains, gated, opt_ok in *. destruct (draft_ge6 d); [|inv_ret E; split; [|split]; auto; apply grows_refl].
    destruct (assoc "contains" m) as [v|] eqn:Ev; [|inv_ret E; split; [|split]; auto; apply grows_refl].
    apply cbind_ok in E. destruct E as (id & s1 & E1 & E). inv_ret E.
    apply child_step in E1; auto; [|eapply good_member; eauto]. destruct E1 as (W' & G & K & _). split; auto. split; eauto.
  Qed.

  Lemma p_dependency_step o e : fair o -> good pd (snd e) -> step (p_dependency ce rec o d myid e) (fun l s => dep_ok (kid s) d e l).
  Proof.
    intros F De s a s' W E. unfold p_dependency, dep_ok in *.
    destruct (snd e) eqn:Es; try discriminate.
    - apply cbind_ok in E. destruct E as (id & s1 & E1 & E). inv_ret E. apply child_step in E1; auto. destruct E1 as (W' & G & K & _). split; auto. split; eauto.
    - apply cbind_ok in E. destruct E as (ks & s1 & E1 & E). apply dep_strings_pure in E1. destruct E1 as (-> & ->). inv_ret E.
      split; auto. split; [apply grows_refl|]. exists ks. auto.
    - apply cbind_ok in E. destruct E as (id & s1 & E1 & E). inv_ret E. apply child_step in E1; auto. destruct E1 as (W' & G & K & _). split; auto. split; eauto.
    - apply cbind_ok in E. destruct E as (id & s1 & E1 & E). inv_ret E. apply child_step in E1; auto. destruct E1 as (W' & G & K & _). split; auto. split; eauto.
  Qed.
  Lemma p_dependencies_step o : fair o -> step (p_dependencies ce rec o d myid m) (fun l s => deps_ok (kid s) d m l).
  Proof.
    intros F s a s' W E. unfold p_dependencies, deps_ok in *. destruct (assoc "dependencies" m) as [v|] eqn:Ev; [|inv_ret E; split; [|split]; auto; apply grows_refl].
    apply cbind_ok in E. destruct E as (b & s1 & E1 & E). apply ck_pure in E1. destruct E1 as (-> & _).
    destruct b; [|discriminate]. simpl in E. destruct v; try discriminate.
    apply cbind_ok in E. destruct E as (ls & s1 & E1 & E). inv_ret E.
    eapply cmap_step with (Q := fun e l s => dep_ok (kid s) d e l) in E1; auto.
    - destruct E1 as (W' & G & H). split; auto. split; auto. exists (pick (shift o 0) m0), ls. split; auto. apply pick_perm, shift_fair; auto.
    - intros x y t t' L. apply dep_mono. intros. eapply le_kid; eauto.
    - intros i e Hi. apply p_dependency_step; [apply shift_fair; auto|]. eapply entries_ok; [exact Ev| |exact Hi]. apply shift_fair; auto.
  Qed.

  Lemma p_items_step o : fair o -> step (p_items ce rec o d myid m) (fun r s => items_ok (kid s) d m (fst r) (snd r)).
  Proof.
    intros F s a s' W E. unfold p_items, items_ok in *. destruct (assoc "items" m) as [v|] eqn:Ev; [|inv_ret E; split; [|split]; auto; apply grows_refl].
    apply cbind_ok in E. destruct E as (b & s1 & E1 & E). apply ck_pure in E1. destruct E1 as (-> & _ & Hk).
    destruct b.
    - destruct v; try discriminate. apply cbind_ok in E. destruct E as (ids & s1 & E1 & E). inv_ret E.
      eapply cmap_step with (Q := fun x id s => kid s id d x) in E1; auto.
      + destruct E1 as (W' & G & H). split; auto.
      + intros x y t t' L. apply le_kid. auto.
      + intros i x Hi t r t' Wt Et. apply cbind_ok in Et. destruct Et as (b & t1 & E2 & Et). apply ck_pure in E2. destruct E2 as (-> & _).
        destruct b; [|discriminate]. apply child_step in Et; auto; [|apply shift_fair; auto|eapply elements_ok; eauto]. tauto.
    - apply cbind_ok in E. destruct E as (b & s1 & E1 & E). apply ck_pure in E1. destruct E1 as (-> & _).
      destruct b; [|discriminate]. apply cbind_ok in E. destruct E as (id & s1 & E1 & E). inv_ret E.
      apply child_step in E1; auto; [|eapply good_member; eauto]. destruct E1 as (W' & G & K & _). split; auto. split; auto.
      destruct v; try (split; [reflexivity|exists id; auto]; fail). specialize (Hk _ eq_refl). discriminate.
  Qed.

  Lemma p_schemas_step o key ek : fair o -> step (p_schemas ce rec o key ek d myid m) (fun ids s => schemas_ok (kid s) d m key ids).
  Proof.
    intros F s a s' W E. unfold p_schemas, schemas_ok in *. destruct (assoc key m) as [v|] eqn:Ev; [|inv_ret E; split; [|split]; auto; apply grows_refl].
    apply cbind_ok in E. destruct E as (b & s1 & E1 & E). apply ck_pure in E1. destruct E1 as (-> & _).
    destruct b; [|discriminate]. destruct v; try discriminate.
    eapply cmap_step with (Q := fun x id s => kid s id d x) in E; auto.
    - intros x y t t' L. apply le_kid. auto.
    - intros i x Hi t r t' Wt Et. apply child_step in Et; auto; [|apply shift_fair; auto|eapply elements_ok; eauto]. tauto.
  Qed.

  (** *** The node as a whole *)

  Lemma bind_step {A B} (x : comp A) (f : A -> comp B) (Q : A -> cstate -> Prop) (R : B -> cstate -> Prop) :
    step x Q -> (forall a s s', le s s' -> Q a s -> Q a s') -> (forall a, step (f a) (fun b s => Q a s -> R b s)) ->
    step (cbind x f) R.
  Proof.
    intros Hx Hs Hf s b s' W E. apply cbind_ok in E. destruct E as (a & s1 & E1 & E).
    apply Hx in E1; auto. destruct E1 as (W1 & G1 & Q1). apply Hf in E; auto. destruct E as (W2 & G2 & Q2).
    split; auto. split; [eapply grows_trans0; eauto|]. apply Q2. eapply Hs; [apply G2|auto].
  Qed.
  Lemma bind_pure {A B} (x : comp A) (f : A -> comp B) Q R :
    pure x Q -> (forall a, Q a -> step (f a) R) -> step (cbind x f) R.
  Proof.
    intros Hx Hf s b s' W E. apply cbind_ok in E. destruct E as (a & s1 & E1 & E).
    apply Hx in E1; auto. destruct E1 as (-> & Q1). eapply Hf; eauto.
  Qed.

  Lemma Forall2_right {A B} (P : B -> Prop) (R : A -> B -> Prop) l l' :
    (forall a b, R a b -> P b) -> Forall2 R l l' -> Forall P l'.
  Proof. intros H. induction 1; constructor; eauto. Qed.

  Lemma describes_kids (kd : nat -> draft -> value -> Prop) nm lm ro dd mm n : describes lm ro kd nm dd mm n ->
    Forall (fun id => exists x, kd id dd x) (same_kids n ++ item_kids n ++ member_kids n ++ opt_list (n_propertyNames n)).
  Proof.
    intros H. unfold describes in H. repeat (destruct H as [? H]).
    assert (OPT : forall key r, opt_ok kd dd mm key r -> Forall (fun id => exists x, kd id dd x) (opt_list r)).
    { intros key r Ho. unfold opt_ok in Ho. destruct (assoc _ _); [destruct Ho as (id & -> & Hk); simpl; eauto|subst; simpl; auto]. }
    assert (GOPT : forall b key r, gated b r (opt_ok kd dd mm key r) -> Forall (fun id => exists x, kd id dd x) (opt_list r)).
    { intros b key r Ho. unfold gated in Ho. destruct b; eauto. subst. constructor. }
    assert (SC : forall key ids, schemas_ok kd dd mm key ids -> Forall (fun id => exists x, kd id dd x) ids).
    { intros key ids Ho. unfold schemas_ok in Ho. destruct (assoc _ _) as [[]|]; subst; try tauto; auto. eapply Forall2_right; [|exact Ho]. simpl. intros a b K. exists a. exact K. }
    assert (AD : forall key r, addl_ok kd dd mm key r -> Forall (fun id => exists x, kd id dd x) (addl_ids r)).
    { intros key r Ho. unfold addl_ok in Ho. destruct (assoc _ _) as [[]|]; try (subst; constructor; fail); destruct Ho as (id & -> & Hk); simpl; eauto. }
    unfold same_kids, item_kids, member_kids. rewrite !Forall_app.
    repeat match goal with |- _ /\ _ => apply conj end; try (eauto; fail).
    - match goal with X : deps_ok _ _ _ _ |- _ => rename X into Hd end. unfold deps_ok in Hd. destruct (assoc _ _) as [[]|]; try tauto; [|rewrite Hd; constructor].
      destruct Hd as (es & ls & _ & HF & ->). clear - HF. induction HF as [|e l es ls He _ IH]; simpl; [constructor|].
      unfold dep_ids in *. rewrite flat_map_app, Forall_app. split; auto. clear IH. unfold dep_ok in He.
      destruct (snd e); try (destruct He as (id & -> & Hk); simpl; eauto; fail).
      destruct He as (names & _ & ->). destruct names; simpl; constructor.
    - match goal with X : items_ok _ _ _ _ _ |- _ => rename X into Hi end. unfold items_ok in Hi. destruct (assoc _ _) as [[]|];
        try (destruct Hi as [_ (id & -> & Hk)]; eauto; fail).
      + destruct Hi as [_ HF]. eapply Forall2_right; [|exact HF]. simpl. intros a b K. exists a. exact K.
      + destruct Hi as [-> _]. constructor.
    - match goal with X : props_ok _ _ _ _ _ |- _ => rename X into Hi end. unfold props_ok in Hi. destruct (assoc _ _) as [[]|]; try tauto; [|subst; rewrite Hi; constructor].
      destruct Hi as (es & _ & HF). eapply Forall2_right; [|exact HF]. simpl. intros a b [Hk _]. eauto.
    - match goal with X : pats_ok _ _ _ _ _ |- _ => rename X into Hi end. unfold pats_ok in Hi. destruct (assoc _ _) as [[]|]; try tauto; [|subst; rewrite Hi; constructor].
      destruct Hi as (es & _ & HF). clear - HF. induction HF as [|a b es l Hab _ IH]; simpl; constructor; auto. destruct Hab as (_ & _ & Hk). eauto.
  Qed.

  Lemma describes_node_ok s nm n : wf s -> describes lim re_ok (kid s) nm d m n ->
    (forall r, n_ref n = Some r -> r < length (st_heap s)) -> node_ok (st_heap s) n.
  Proof.
    intros W H Hr. split; [|split].
    - unfold kids. apply Forall_app. split.
      + destruct (n_ref n); simpl; auto.
      + eapply Forall_impl; [|eapply describes_kids; exact H]. intros id (x & K). eapply kid_lt; eauto.
    - unfold describes in H. repeat (destruct H as [? H]). match goal with X : items_ok _ _ _ _ _ |- _ => rename X into Hi end.
      unfold items_ok in Hi. destruct (assoc _ _) as [[]|]; try (destruct Hi as [_ (id & -> & _)]; discriminate); destruct Hi; congruence.
    - unfold describes in H. repeat (destruct H as [? H]). match goal with X : mult_ok _ _ _ |- _ => rename X into Hi end.
      unfold mult_ok in Hi. intros q Hq. destruct (assoc _ _); [|congruence]. destruct Hi as (q' & E & _ & L). rewrite E in Hq. injection Hq as <-.
      intros E0. rewrite E0 in L. discriminate.
  Qed.

  Ltac kidstep H := eapply (bind_step _ _ _ _ H);
    [intros ? ? ? L; first [apply props_mono|apply addl_mono|apply pats_mono|apply gopt_mono|apply deps_mono|apply items_mono|apply schemas_mono|apply opt_mono];
      intros; first [eapply le_kid; eassumption|eapply le_named; eassumption]|].

  Lemma p_keywords_step o a refid : fair o -> pa_draft a = d ->
    step (p_keywords ce rec o a myid refid m) (fun n s =>
      (forall r, refid = Some r -> r < length (st_heap s)) ->
      n_property n = pa_prop a /\ n_pass n = None /\ n_ref n = refid /\
      node_ok (st_heap s) n /\ describes lim re_ok (kid s) (named s) d m n).
  Proof.
    intros F Ed. assert (FS : forall i, fair (shift o i)) by (intros; apply shift_fair; auto).
    unfold p_keywords. rewrite Ed.
    eapply bind_pure; [apply p_type_pure|intros types H1].
    kidstep (p_properties_step _ (FS 1)). intros props.
    kidstep (p_additional_step _ "additionalProperties" (FS 2)). intros addprops.
    kidstep (p_patternProperties_step _ (FS 3)). intros pats.
    kidstep (p_propertyNames_step _ (FS 4)). intros pnames.
    kidstep (p_dependencies_step _ (FS 5)). intros deps.
    kidstep (p_items_step _ (FS 6)). intros items.
    kidstep (p_additional_step _ "additionalItems" (FS 7)). intros additems.
    eapply bind_pure; [apply p_multipleOf_pure|intros mult Hmul].
    eapply bind_pure; [apply p_bound_pure|intros mins Hmin].
    eapply bind_pure; [apply p_bound_pure|intros maxs Hmax].
    eapply bind_pure; [apply p_natural_pure|intros minLen HminLen].
    eapply bind_pure; [apply p_natural_pure|intros maxLen HmaxLen].
    eapply bind_pure; [apply p_le_pure|intros _ _].
    eapply bind_pure; [apply p_pattern_pure|intros pat Hpat].
    eapply bind_pure; [apply p_format_pure|intros fmt Hfmt].
    eapply bind_pure; [apply p_natural_pure|intros minProps HminProps].
    eapply bind_pure; [apply p_natural_pure|intros maxProps HmaxProps].
    eapply bind_pure; [apply p_le_pure|intros _ _].
    eapply bind_pure; [apply p_required_pure|intros req Hreq].
    eapply bind_pure; [apply p_natural_pure|intros minItems HminItems].
    eapply bind_pure; [apply p_natural_pure|intros maxItems HmaxItems].
    eapply bind_pure; [apply p_uniqueItems_pure|intros uniq Huniq].
    kidstep (p_contains_step _ (FS 8)). intros cont.
    eapply bind_pure; [apply p_const_pure|intros cst Hcst].
    eapply bind_pure; [apply p_enum_pure|intros enm Henm].
    kidstep (p_schemas_step _ "oneOf" "oneOf" (FS 9)). intros oneOf.
    kidstep (p_schemas_step _ "anyOf" "anyOf" (FS 10)). intros anyOf.
    kidstep (p_schemas_step _ "allOf" "anyOf" (FS 11)). intros allOf.
    kidstep (p_schema_step _ "not" (MustBeOfAn "not" TYPE_OBJECT) (FS 12)). intros nt.
    kidstep (p_cond_step _ "if" (FS 13)). intros cif.
    kidstep (p_cond_step _ "then" (FS 14)). intros cthen.
    kidstep (p_cond_step _ "else" (FS 15)). intros celse.
    intros s n s' W E. unfold cret in E. injection E as <- <-. split; [exact W|]. split; [apply grows_refl|].
    intros. match goal with |- _ /\ _ /\ _ /\ _ /\ ?D => assert (HD : D) end.
    { unfold describes. cbn [n_types n_props n_additionalProperties n_patternProperties n_propertyNames n_dependencies n_items n_items_single
        n_additionalItems n_multipleOf n_minimum n_exclusiveMinimum n_maximum n_exclusiveMaximum n_minLength n_maxLength n_pattern n_format
        n_minProperties n_maxProperties n_required n_minItems n_maxItems n_uniqueItems n_contains n_const n_enum n_oneOf n_anyOf n_allOf n_not n_if n_then n_else].
      repeat match goal with |- _ /\ _ => apply conj end; assumption. }
    split; [reflexivity|]. split; [reflexivity|]. split; [reflexivity|]. split; [|exact HD].
    eapply describes_node_ok; eauto.
  Qed.

End Kids.

Section Refs.
  Variable ce : cenv.
  Variable pd : policy.
  Notation wf := (wf ce pd).
  Notation grows := (grows ce).
  Notation cell := (cell ce).

  Lemma store_step d id x n s s' : wf s -> kid s id d x -> named s id (n_property n) -> node_for ce s n d x ->
    store id n s = COk tt s' -> wf s' /\ grows (Some id) s s' /\ cell s' id.
  Proof.
    intros W K N H E. unfold store in E. injection E as <-. pose proof W as (W1 & W2 & W3 & W4). pose proof (kid_lt _ _ _ _ _ _ W K) as Hlt.
    set (s' := CState _ _ _ _).
    assert (L : le s s').
    { unfold s', le, kid, named. cbn [st_heap st_src st_pool st_refs]. split; [|split; [|split; [|split]]]; auto.
      - rewrite set_nth_length. lia.
      - intros i k (ni & Hi & Ei). destruct (Nat.eq_dec id i) as [->|Hne].
        + exists n. split; [apply set_nth_same; auto|]. destruct N as (n0 & Hn0 & En0). congruence.
        + exists ni. split; auto. rewrite set_nth_other; auto. }
    split; [|split].
    - split; [|split; [|split]]; auto. unfold s'. cbn [st_heap st_src]. rewrite set_nth_length. auto.
    - split; auto. split.
      + intros j Hj Hne. unfold s'. cbn [st_heap]. apply set_nth_other. congruence.
      + intros j Hj. unfold s' in Hj. cbn [st_heap] in Hj. rewrite set_nth_length in Hj. lia.
    - exists n, d, x. split; [apply set_nth_same; auto|]. split; [exact K|]. eapply node_for_mono; eauto.
  Qed.
  (** What GetDocument finds is as good as what the pool holds. *)
  Hypothesis HGD : forall o m k r s dsp s', fair o -> good pd (VMap m) -> assoc "$ref" m = Some (VStr k) -> u_parse ce k = Some r ->
    py_pool pd (st_pool s) -> GetDocument ce o r s = COk dsp s' ->
    py_pool pd (st_pool s') /\ good pd (sp_doc dsp) /\ (forall x, sp_draft dsp = Some x -> pd x).

  Variable rec : oracle -> pargs -> nat -> value -> comp unit.
  Hypothesis HR : rec_ok ce pd rec.
  Variable d : draft.
  Hypothesis Hp : pd d.
  Variable myid : string.
  (** *** References *)

  Lemma met_mono p p' r x y : pool_le p p' -> met ce pd p r x y -> met ce pd p' r x y.
  Proof.
    intros L (o & s & dsp & s' & d0 & H0 & H1 & H2 & H3 & H4). exists o, s, dsp, s', d0. split; auto. split; auto. split; auto. split; auto.
    eapply pool_le_trans; eauto.
  Qed.

  Lemma set_nth_snoc {A} (l : list A) x y : set_nth (length l) y (l ++ [x]) = l ++ [y].
  Proof. induction l; simpl; congruence. Qed.

  Lemma assoc_snoc_old {A} k k' (l : list (string * A)) x y : assoc k l = Some x -> assoc k (l ++ [(k', y)]) = Some x.
  Proof. induction l as [|[a b] l IH]; simpl; [discriminate|]. destruct (String.eqb k a); auto. Qed.
  Lemma assoc_snoc_new {A} k (l : list (string * A)) y : assoc k l = None -> assoc k (l ++ [(k, y)]) = Some y.
  Proof. induction l as [|[a b] l IH]; simpl; [rewrite String.eqb_refl; auto|]. destruct (String.eqb k a); auto. discriminate. Qed.
  Lemma assoc_snoc_inv {A} k k' (l : list (string * A)) x y : assoc k (l ++ [(k', y)]) = Some x -> assoc k l = Some x \/ (k = k' /\ x = y).
  Proof.
    induction l as [|[a b] l IH]; simpl.
    - destruct (String.eqb_spec k k'); [intros [= ->]; auto|discriminate].
    - destruct (String.eqb k a); auto.
  Qed.

  Lemma parseReference_step o m k r s rid s' : fair o -> good pd (VMap m) -> assoc "$ref" m = Some (VStr k) -> u_parse ce k = Some r -> wf s -> assoc r (st_refs s) = None ->
    parseReference ce rec o d myid r s = COk rid s' ->
    wf s' /\ grows None s s' /\ assoc r (st_refs s') = Some rid /\ rid < length (st_heap s').
  Proof.
    intros F Gm Em Eu W Hn E. pose proof W as W0. destruct W as (W1 & W2 & W3 & W4). unfold parseReference in E. apply cbind_ok in E. destruct E as (i & s1 & E1 & E).
    unfold alloc in E1. injection E1 as <- <-. apply cbind_ok in E. destruct E as ([] & s2 & E2 & E).
    unfold refs_add in E2. cbn [st_heap st_src st_pool st_refs] in E2. rewrite Hn in E2. injection E2 as <-.
    apply cbind_ok in E. destruct E as (dsp & s3 & E3 & E).
    pose proof (GetDocument_le _ _ _ _ _ _ E3) as (G1 & G2 & G3 & G4). cbn [st_heap st_src st_pool st_refs] in *.
    pose proof (fun X => HGD _ _ _ _ _ _ _ (shift_fair _ 0 F) Gm Em Eu X E3) as HG. specialize (HG W2). destruct HG as (P1 & P2 & P3).
    apply cbind_ok in E. destruct E as (b & s4 & E4 & E). apply ck_pure in E4. destruct E4 as (-> & _). destruct b; [|discriminate].
    cbn [negb] in E. set (d' := match sp_draft dsp with Some x => x | None => d end) in *.
    assert (Hd' : pd d') by (unfold d'; destruct (sp_draft dsp); auto).
    apply cbind_ok in E. destruct E as ([] & s5 & E5 & E). injection E5 as E5. apply cbind_ok in E. destruct E as ([] & s6 & E6 & E). unfold cret in E. injection E as <- <-.
    rewrite G1, G2, G3 in E5. rewrite <- W1, set_nth_snoc in E5. rewrite W1 in E5.
    assert (L : le s s5).
    { subst s5. unfold le, kid, named. cbn [st_heap st_src st_pool st_refs]. split; [|split; [|split; [|split]]]; auto.
      - intros. apply nth_error_snoc_old. auto.
      - rewrite app_length. lia.
      - intros id k0 (n & H & E). exists n. split; auto. apply nth_error_snoc_old. auto.
      - intros. apply assoc_snoc_old. auto. }
    assert (K5 : kid s5 (length (st_heap s)) d' (sp_doc dsp)).
    { subst s5. unfold kid. cbn [st_src]. rewrite <- W1. apply nth_error_snoc. }
    assert (N5 : named s5 (length (st_heap s)) "$ref").
    { subst s5. exists (empty_node "$ref"). split; auto. cbn [st_heap]. apply nth_error_snoc. }
    assert (A5 : assoc r (st_refs s5) = Some (length (st_heap s))).
    { subst s5. cbn [st_refs]. apply assoc_snoc_new. auto. }
    assert (WF5 : wf s5).
    { split; [|split; [|split]].
      - subst s5. cbn [st_heap st_src]. rewrite !app_length. simpl. lia.
      - subst s5. exact P1.
      - intros id x y K. subst s5. unfold kid in K. cbn [st_src] in K. apply nth_error_snoc_inv in K. destruct K as [K|[_ K]].
        + eapply W3; eauto.
        + injection K as -> ->. auto.
      - intros r' rid Er. pose proof Er as Er'. rewrite <- E5 in Er'. cbn [st_refs] in Er'. apply assoc_snoc_inv in Er'. destruct Er' as [Er'|[-> ->]].
        + destruct (W4 _ _ Er') as (x & y & K & M). exists x, y. split; [apply L; auto|]. subst s5. eapply met_mono; eauto.
        + exists d', (sp_doc dsp). split; auto. eexists _, _, _, _, d. split; [apply (shift_fair _ 0 F)|]. split; [|split; [exact E3|]]; [exact W2|].
          split; [subst s5; apply pool_le_refl|]. auto. }
    apply HR in E6; [|apply shift_fair; auto|auto|auto|auto]. destruct E6 as (W6 & G6 & C6).
    split; auto. split.
    - apply (grows_fresh _ s s5 s6); auto.
      + subst s5. cbn [st_heap]. rewrite app_length. simpl. lia.
      + intros j Hj. subst s5. cbn [st_heap]. apply nth_error_app1. auto.
    - split; [apply G6; auto|]. destruct C6 as (n & _ & _ & C & _). eapply nth_error_lt; eauto.
  Qed.

End Refs.

Section Compile.
  Variable ce : cenv.
  Notation lim := (e_ratlim (c_go ce)).
  Notation re_ok := (e_re_ok (c_go ce)).
  Variable pd : policy.
  Hypothesis HGD : forall o m k r s dsp s', fair o -> good pd (VMap m) -> assoc "$ref" m = Some (VStr k) -> u_parse ce k = Some r ->
    py_pool pd (st_pool s) -> GetDocument ce o r s = COk dsp s' ->
    py_pool pd (st_pool s') /\ good pd (sp_doc dsp) /\ (forall x, sp_draft dsp = Some x -> pd x).

  Lemma parseSchemaNode_ok rec : rec_ok ce pd rec -> rec_ok ce pd (parseSchemaNode ce rec).
  Proof.
    intros HR o a id doc s s' F W K N E. assert (FS : forall i, fair (shift o i)) by (intros; apply shift_fair; auto).
    pose proof W as (W1 & W2 & W3 & W4). destruct (W3 _ _ _ K) as [Hd Hp]. pose proof (kid_lt _ _ _ _ _ _ W K) as Hlt.
    unfold parseSchemaNode in E.
    apply cbind_ok in E. destruct E as (isb & s1 & E1 & E).
    assert (H1 : s1 = s /\ (isb = true -> draft_ge6 (pa_draft a) = true)).
    { destruct (draft_ge6 (pa_draft a)) eqn:Eg; [apply ck_pure in E1; destruct E1 as [-> _]; auto|]. unfold cret in E1. injection E1 as <- <-. split; auto. }
    destruct H1 as [-> H1]. destruct isb.
    { destruct doc; try discriminate. refine (store_step ce pd _ id _ (pass_node _ _) s s' W K N _ E).
      split; [split; [constructor|split; discriminate]|]. split; auto. }
    clear E1 H1. apply cbind_ok in E. destruct E as (ism & s1 & E1 & E). apply ck_pure in E1. destruct E1 as [-> _].
    destruct ism; [|discriminate]. simpl in E. destruct doc as [| | | | | |m|]; try discriminate.
    apply cbind_ok in E. destruct E as (myid & s1 & E1 & E). apply p_id_pure in E1. destruct E1 as [-> _].
    apply cbind_ok in E. destruct E as ([] & s1 & E1 & E). apply (p_definitions_step ce pd rec HR _ Hp _ _ Hd _ (FS 0)) in E1; auto.
    destruct E1 as (WF1 & G1 & _).
    apply cbind_ok in E. destruct E as ([] & s2 & E1 & E). apply p_string_only_pure in E1. destruct E1 as [-> _].
    apply cbind_ok in E. destruct E as ([] & s2 & E1 & E). apply p_string_only_pure in E1. destruct E1 as [-> _].
    apply cbind_ok in E. destruct E as ([] & s2 & E1 & E). apply p_string_only_pure in E1. destruct E1 as [-> Hs].
    pose proof G1 as (L1 & _).
    assert (DONE : forall n t, wf ce pd t -> grows ce None s1 t -> n_property n = pa_prop a -> node_for ce t n (pa_draft a) (VMap m) ->
      store id n t = COk tt s' -> wf ce pd s' /\ grows ce (Some id) s s' /\ cell ce s' id).
    { intros n t Wt Gt Hn Hf Es. pose proof Gt as (Lt & _).
      eapply store_step in Es; eauto; [|apply Lt, L1; auto|rewrite Hn; apply Lt, L1; auto].
      destruct Es as (Wn & Gn & Cn). split; auto. split; auto. eapply grows_trans; [eapply grows_trans0; eauto|exact Gn|].
      intros j [= <-]. auto. }
    destruct (assoc "$ref" m) as [v|] eqn:Er.
    - destruct Hs as (k & ->). destruct (u_parse ce k) as [r|] eqn:Eu; [|discriminate].
      apply cbind_ok in E. destruct E as (hit & s2 & E1 & E). unfold refs_get in E1. injection E1 as <- <-.
      destruct (assoc r (st_refs s1)) as [rid|] eqn:Eh.
      + apply cbind_ok in E. destruct E as (n & s2 & E1 & E).
        apply (p_keywords_step ce pd rec HR _ Hp _ _ Hd _ _ _ F eq_refl) in E1; auto. destruct E1 as (WF2 & G2 & HN).
        pose proof G2 as (L2 & _).
        assert (A2 : assoc r (st_refs s2) = Some rid) by (apply L2; auto).
        destruct HN as (N1 & N2 & N3 & N4 & N5).
        { intros r0 [= <-]. destruct WF2 as (? & _ & _ & WR). destruct (WR _ _ A2) as (x & y & Kr & _). unfold kid in Kr. apply nth_error_lt in Kr. lia. }
        eapply DONE; eauto. split; auto. split; auto. rewrite Er. exists r, rid. auto.
      + apply cbind_ok in E. destruct E as (rid & s2 & E1 & E).
        apply (parseReference_step ce pd HGD rec HR _ Hp _ _ _ _ _ _ _ _ (FS 16) Hd Er Eu) in E1; auto. destruct E1 as (WF2 & G2 & A2 & Hl2).
        refine (DONE (ref_node (pa_prop a) rid) s2 WF2 G2 eq_refl _ E). split; [|split; auto; rewrite Er; exists r, rid; auto].
        split; [constructor; [auto|constructor]|split; discriminate].
    - apply cbind_ok in E. destruct E as (n & s2 & E1 & E).
      apply (p_keywords_step ce pd rec HR _ Hp _ _ Hd _ _ _ F eq_refl) in E1; auto. destruct E1 as (WF2 & G2 & HN).
      destruct HN as (N1 & N2 & N3 & N4 & N5); [discriminate|].
      eapply DONE; eauto. split; auto. split; auto. rewrite Er. auto.
  Qed.

  Lemma parseSchema_ok fuel : rec_ok ce pd (parseSchema ce fuel).
  Proof.
    induction fuel as [|fuel IH]; [intros ? ? ? ? ? ? ? ? ? ? E; discriminate E|].
    exact (parseSchemaNode_ok _ IH).
  Qed.

  (** Compilation fills the state with proper cells. *)
  Theorem parse_ok fuel o docref d doc p id s' : fair o -> py_pool pd p -> good pd doc -> pd d ->
    parse ce fuel o docref d doc (CState [] [] p []) = COk id s' ->
    id = 0 /\ wf ce pd s' /\ pool_le p (st_pool s') /\ kid s' 0 d doc /\
    forall j, j < length (st_heap s') -> cell ce s' j.
  Proof.
    intros F Hp Hd Hdr E. set (s := CState [] [] p []) in *.
    assert (W : wf ce pd s).
    { split; [reflexivity|]. split; [exact Hp|]. split; [intros i ? ? K; destruct i; discriminate|discriminate]. }
    unfold parse in E. apply cbind_ok in E. destruct E as (i & s1 & E1 & E). unfold alloc in E1. injection E1 as <- <-.
    apply cbind_ok in E. destruct E as ([] & s2 & E2 & E). unfold cret in E. injection E as <- <-. split; auto.
    change (CState _ _ _ _) with (with_cell s STRING_ROOT_SCHEMA_PROPERTY d doc) in E2.
    pose proof (kid_alloc ce pd s STRING_ROOT_SCHEMA_PROPERTY d doc W) as K.
    apply parseSchema_ok in E2; auto; [|apply wf_alloc; auto|apply named_alloc]. destruct E2 as (W2 & G & C). split; auto.
    pose proof G as (L & Go & Gn). split; [apply L|]. split; [apply L, K|].
    intros j Hj. destruct j; auto. apply Gn. simpl. lia.
  Qed.
End Compile.
