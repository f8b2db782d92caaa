(** The root of a compiled schema is nobody's property. *)
From Verif Require Export LoadAlike.
From Coq Require Import Lia.
Open Scope nat_scope.

Definition rootless (h : heap) : Prop := 0 < length h /\ Forall (fun n => Forall (lt 0) (n_props n)) h.
Definition keeps {A} (x : comp A) (Q : A -> Prop) : Prop :=
  forall s a s', rootless (st_heap s) -> x s = COk a s' -> rootless (st_heap s') /\ Q a.

Lemma keeps_ret {A} (a : A) (Q : A -> Prop) : Q a -> keeps (cret a) Q.
Proof. intros H s b s' R [= <- <-]. auto. Qed.
Lemma keeps_fail {A} e (Q : A -> Prop) : keeps (cfail e) Q.
Proof. intros s b s' R. discriminate. Qed.
Lemma keeps_panic {A} (Q : A -> Prop) : keeps cpanic Q.
Proof. intros s b s' R. discriminate. Qed.
Lemma keeps_bind {A B} (x : comp A) (f : A -> comp B) P Q : keeps x P -> (forall a, P a -> keeps (f a) Q) -> keeps (cbind x f) Q.
Proof.
  intros H1 H2 s b s' R E. unfold cbind in E. destruct (x s) as [a s1| | |] eqn:E1; try discriminate.
  destruct (H1 _ _ _ R E1) as [R1 Pa]. exact (H2 _ Pa _ _ _ R1 E).
Qed.
Lemma keeps_any {A} (x : comp A) P : keeps x P -> keeps x (fun _ => True).
Proof. intros H s a s' R E. destruct (H _ _ _ R E). auto. Qed.
Lemma keeps_bind' {A B} (x : comp A) (f : A -> comp B) Q : keeps x (fun _ => True) -> (forall a, keeps (f a) Q) -> keeps (cbind x f) Q.
Proof. intros H1 H2. eapply keeps_bind; [exact H1|auto]. Qed.
Lemma keeps_cmap {A B} (f : nat -> A -> comp B) Q : (forall i x, keeps (f i x) Q) -> forall l i, keeps (cmap f i l) (Forall Q).
Proof.
  intros H. induction l as [|x l IH]; intros i; cbn [cmap]; [apply keeps_ret; constructor|].
  eapply keeps_bind; [apply H|]. intros y Hy. eapply keeps_bind; [apply IH|]. intros ys Hys. apply keeps_ret. auto.
Qed.
Lemma keeps_heap {A} (x : comp A) : (forall s a s', x s = COk a s' -> st_heap s' = st_heap s) -> keeps x (fun _ => True).
Proof. intros H s a s' R E. rewrite (H _ _ _ E). auto. Qed.
Lemma keeps_lift {A} (x : out A) : keeps (lift_out x) (fun _ => True).
Proof. apply keeps_heap. intros s a s'. unfold lift_out. destruct x; try discriminate. intros [= <- <-]. auto. Qed.
Lemma keeps_store id n : Forall (lt 0) (n_props n) -> keeps (store id n) (fun _ => True).
Proof.
  intros H s a s' [R1 R2]. unfold store. intros [= <- <-]. cbn [st_heap]. split; auto. split; [rewrite set_nth_length; auto|].
  revert R2. generalize (st_heap s) id. clear - H. induction h as [|x h IH]; intros i F; [destruct i; constructor|]. inversion F; subst. destruct i; cbn [set_nth]; constructor; auto.
Qed.
Lemma keeps_alloc p d x : keeps (alloc p d x) (lt 0).
Proof.
  intros s a s' [R1 R2]. unfold alloc. intros [= <- <-]. cbn [st_heap]. split; auto. split; [rewrite app_length; simpl; lia|].
  apply Forall_app. split; auto. repeat constructor.
Qed.

Ltac keeps1 :=
  first [apply keeps_fail|apply keeps_panic|apply keeps_lift|apply keeps_ret; exact I|eapply keeps_bind'; [|intros]|
         match goal with |- keeps (match ?x with _ => _ end) _ => destruct x end].

Section Keeps.
  Variable ce : cenv.
  Variable rec : oracle -> pargs -> nat -> value -> comp unit.
  Hypothesis Hrec : forall o a id v, keeps (rec o a id v) (fun _ => True).
  Lemma child_keeps o p d i v : keeps (child rec o p d i v) (lt 0).
  Proof. unfold child. eapply keeps_bind; [apply keeps_alloc|]. intros id Hid. eapply keeps_bind'; [apply Hrec|]. intros _. apply keeps_ret. auto. Qed.
  Lemma child_any o p d i v : keeps (child rec o p d i v) (fun _ => True).
  Proof. eapply keeps_any, child_keeps. Qed.
  Ltac k := repeat first [apply child_any|keeps1|unfold ck].
  Lemma cmap_any {A B} (f : nat -> A -> comp B) l i : (forall i x, keeps (f i x) (fun _ => True)) -> keeps (cmap f i l) (fun _ => True).
  Proof. intros H. eapply keeps_any, keeps_cmap. exact H. Qed.
  Lemma add_types_keeps l : forall t, keeps (add_types t l) (fun _ => True).
  Proof. induction l as [|x l IH]; intros t; cbn [add_types]; [k|]. destruct x; k; auto. unfold types_add; k. Qed.
  Lemma add_required_keeps l : forall t, keeps (add_required ce t l) (fun _ => True).
  Proof. induction l as [|x l IH]; intros t; cbn [add_required]; k. all: try destruct x; k; apply IH. Qed.
  Lemma add_enum_keeps l : forall t, keeps (add_enum t l) (fun _ => True).
  Proof. induction l as [|x l IH]; intros t; cbn [add_enum]; k. apply IH. Qed.
  Lemma dep_strings_keeps l : keeps (dep_strings ce l) (fun _ => True).
  Proof. induction l as [|x l IH]; cbn [dep_strings]; k; auto. Qed.
  Lemma p_properties_keeps o d i m : keeps (p_properties ce rec o d i m) (Forall (lt 0)).
  Proof. unfold p_properties. destruct (assoc _ m); [|apply keeps_ret; constructor]. k. apply keeps_cmap. intros. apply child_keeps. Qed.
  Lemma p_schema_keeps o key d i e m : keeps (p_schema ce rec o key d i e m) (fun _ => True).
  Proof. unfold p_schema. k. Qed.
  Lemma p_bound_keeps key xkey d m : keeps (p_bound ce key xkey d m) (fun _ => True).
  Proof. unfold p_bound. k. Qed.
  Lemma p_keywords_keeps o a i r m : keeps (p_keywords ce rec o a i r m) (fun n => Forall (lt 0) (n_props n)).
  Proof.
    unfold p_keywords. eapply keeps_bind'; [unfold p_type, types_add; k; apply add_types_keeps|intros].
    eapply keeps_bind; [apply p_properties_keeps|intros props Hp].
    repeat (eapply keeps_bind'; [|intros]).
    all: try (unfold p_additional, p_natural, p_le, p_uniqueItems, p_contains, p_const, p_propertyNames, p_cond, p_multipleOf, p_pattern, p_format; k; fail).
    all: try (unfold p_propertyNames, p_cond; k; apply p_schema_keeps).
    all: try apply p_schema_keeps; try apply p_bound_keeps.
    - unfold p_patternProperties. k. apply cmap_any. intros. k.
    - unfold p_dependencies. k. apply cmap_any. intros ? [kk x]. unfold p_dependency. cbn [snd fst]. destruct x; k. apply dep_strings_keeps.
    - unfold p_items. k. apply cmap_any. intros; k.
    - unfold p_required. k. apply add_required_keeps.
    - unfold p_enum. k. apply add_enum_keeps.
    - unfold p_schemas. k. apply cmap_any. intros; k.
    - unfold p_schemas. k. apply cmap_any. intros; k.
    - unfold p_schemas. k. apply cmap_any. intros; k.
    - apply keeps_ret. exact Hp.
  Qed.
  Lemma GetDocument_keeps o r : keeps (GetDocument ce o r) (fun _ => True).
  Proof. apply keeps_heap. intros s a s' E. apply GetDocument_le in E. apply E. Qed.
  Lemma node_keeps o a id v : keeps (parseSchemaNode ce rec o a id v) (fun _ => True).
  Proof.
    unfold parseSchemaNode. eapply keeps_bind'; [k|intros isb]. destruct isb; [destruct v; k; apply keeps_store; constructor|].
    eapply keeps_bind'; [k|intros ism]. destruct ism; [|k]. cbn [negb]. destruct v as [| | | | | |m|]; try (k; fail).
    eapply keeps_bind'; [unfold p_id; k|intros myid]. eapply keeps_bind'; [unfold p_definitions; k; apply cmap_any; intros; k|intros _].
    eapply keeps_bind'; [unfold p_string_only; k|intros _]. eapply keeps_bind'; [unfold p_string_only; k|intros _]. eapply keeps_bind'; [unfold p_string_only; k|intros _].
    assert (KW : forall r, keeps (let! n := p_keywords ce rec o a myid r m in store id n) (fun _ => True)).
    { intros r. eapply keeps_bind; [apply p_keywords_keeps|intros]. apply keeps_store. auto. }
    destruct (assoc "$ref" m) as [x|]; [|apply KW]. destruct x as [| | | |t| | |]; try apply KW. destruct (u_parse ce t) as [r|]; [|k].
    eapply keeps_bind'; [apply keeps_heap; intros s y s'; unfold refs_get; intros [= <- <-]; auto|]. intros hit. destruct hit as [rid|]; [apply KW|].
    eapply keeps_bind'; [|intros rid; apply keeps_store; constructor].
    intros s y s' R. unfold parseReference. generalize (length (st_heap s)). intros id0 E. revert E. revert R. revert s y s'.
    match goal with |- forall s y s', _ -> ?f s = _ -> _ => change (keeps f (fun _ => True)) end.
    eapply keeps_bind'; [eapply keeps_any, keeps_alloc|intros _]. eapply keeps_bind'; [apply keeps_heap; intros s y s'; unfold refs_add; intros [= <- <-]; auto|intros _].
    eapply keeps_bind'; [apply GetDocument_keeps|intros dsp]. eapply keeps_bind'; [k|intros b]. destruct b; [|k]. cbn [negb].
    eapply keeps_bind'; [apply keeps_heap; intros s y s' [= <- <-]; auto|intros _]. eapply keeps_bind'; [apply Hrec|intros _]. k.
  Qed.
End Keeps.

Lemma parseSchema_keeps ce fuel : forall o a id v, keeps (parseSchema ce fuel o a id v) (fun _ => True).
Proof. induction fuel as [|k IH]; intros; cbn [parseSchema]; [intros s x s' _; discriminate|]. apply node_keeps. exact IH. Qed.

Lemma parse_rootless ce fuel o r d v s id s' : st_heap s = [] -> parse ce fuel o r d v s = COk id s' -> id = 0 /\ rootless (st_heap s').
Proof.
  unfold parse. intros H E. apply cbind_ok in E. destruct E as (i & s1 & E1 & E). apply cbind_ok in E. destruct E as ([] & s2 & E2 & E). injection E as <- <-.
  unfold alloc in E1. rewrite H in E1. injection E1 as <- <-. split; auto.
  eapply parseSchema_keeps; [|exact E2]. cbn [st_heap]. split; [auto|]. repeat constructor.
Qed.

Lemma compile_rootless w fuel o sl l sch sl' : Compile w fuel o sl l = LOk sch sl' -> s_root sch = 0 /\ rootless (s_heap sch).
Proof.
  unfold Compile. intros E. destruct (compile_doc w _ sl l) as [rd sl1| | |]; try discriminate. cbn [lbind] in E.
  destruct (if sl_validate sl1 then _ else _) as [u sl2| | |]; try discriminate. cbn [lbind] in E. unfold compile_parse in E.
  destruct (if sl_auto sl2 then _ else _) as [d sl3| | |]; try discriminate. cbn [lbind] in E. unfold run_comp in E.
  destruct (parse _ _ _ _ _ _ _) as [id s'| | |] eqn:EP; try discriminate. cbn [lbind] in E. injection E as <- <-. cbn [s_root s_heap fst snd].
  eapply parse_rootless; [|exact EP]. reflexivity.
Qed.

(** Renaming the root changes no outcome. *)
Lemma mapi_ext_in {A B} (f g : nat -> A -> B) l : (forall i x, In x l -> f i x = g i x) -> forall i, mapi f i l = mapi g i l.
Proof. intros H. induction l as [|x l IH]; intros i; cbn [mapi]; auto. f_equal; [apply H; left; auto|apply IH]. intros j y Hy. apply H. right. auto. Qed.
Lemma le_out_eq {A} (x y : out A) : le_out x y -> le_out y x -> x = y.
Proof. unfold le_out. intuition congruence. Qed.

Section Rename.
  Variable env : goenv.
  Variables h h' : heap.
  Section Node.
    Variable rec : oracle -> nat -> value -> ctx -> out result.
    Variable n : node.
    Hypothesis Hn : forall p, In p (n_props n) -> prop_name h p = prop_name h' p.
    Lemma described_same k : described h k (n_props n) = described h' k (n_props n).
    Proof. induction (n_props n) as [|p l IH]; cbn [described]; auto. rewrite (Hn p) by (left; auto). rewrite IH; auto. intros q Hq. apply Hn. right. auto. Qed.
    Lemma object_checks_same o m c : object_checks env h rec o n m c = object_checks env h' rec o n m c.
    Proof.
      unfold object_checks. replace (mapi (v_property h rec (shift o 2) m c) 0 (n_props n)) with (mapi (v_property h' rec (shift o 2) m c) 0 (n_props n)).
      2: { apply mapi_ext_in. intros i p Hp. unfold v_property. rewrite (Hn p Hp). auto. }
      replace (validateObject env h rec (shift o 1) n m c) with (validateObject env h' rec (shift o 1) n m c); auto.
      unfold validateObject. replace (v_members env h rec (shift (shift o 1) 0) n m c) with (v_members env h' rec (shift (shift o 1) 0) n m c); auto.
      unfold v_members. f_equal. apply mapi_ext_in. intros i [k x] _. unfold v_member. rewrite described_same. auto.
    Qed.
    Lemma validateNode_same o v c : validateNode env h rec o n v c = validateNode env h' rec o n v c.
    Proof.
      unfold validateNode. destruct (n_pass n) as [[]|]; auto. destruct (n_ref n); auto. destruct v; auto.
      - rewrite object_checks_same. auto.
      - destruct (_ && _)%bool; auto. destruct (convertDocumentNode _) as [w| |]; auto. destruct w; auto. cbn [obind]. apply object_checks_same.
    Qed.
  End Node.
End Rename.

(** The node with another name. *)
Definition renamed (name : string) (n : node) : node :=
  Node name (n_pass n) (n_types n) (n_ref n) (n_items n) (n_items_single n) (n_props n)
    (n_multipleOf n) (n_maximum n) (n_exclusiveMaximum n) (n_minimum n) (n_exclusiveMinimum n)
    (n_minLength n) (n_maxLength n) (n_pattern n) (n_format n) (n_minProperties n)
    (n_maxProperties n) (n_required n) (n_dependencies n) (n_additionalProperties n)
    (n_patternProperties n) (n_propertyNames n) (n_minItems n) (n_maxItems n)
    (n_uniqueItems n) (n_contains n) (n_additionalItems n) (n_const n) (n_enum n)
    (n_oneOf n) (n_anyOf n) (n_allOf n) (n_not n) (n_if n) (n_then n) (n_else n).

Lemma rename_same env h name r : rootless h -> nth_error h 0 = Some r ->
  forall k o id v c, validateRecursive env (set_nth 0 (renamed name r) h) k o id v c = validateRecursive env h k o id v c.
Proof.
  intros [_ R] E0. set (h' := set_nth 0 (renamed name r) h).
  assert (PN : forall p, 0 < p -> prop_name h p = prop_name h' p).
  { intros p Hp. unfold prop_name, h'. rewrite set_nth_other by lia. auto. }
  induction k as [|k IH]; intros o id v c; cbn [validateRecursive]; auto.
  assert (C : forall n, In n h -> validateNode env h' (validateRecursive env h' k) o n v c = validateNode env h (validateRecursive env h k) o n v c).
  { intros n Hn. rewrite Forall_forall in R. specialize (R n Hn). rewrite Forall_forall in R.
    rewrite <- (validateNode_same env h h' _ n (fun p Hp => PN p (R p Hp))).
    apply le_out_eq; apply le_validateNode; intros; rewrite IH; apply le_out_refl. }
  destruct id as [|id].
  - unfold h' at 1. rewrite set_nth_same by (apply nth_error_Some; congruence). rewrite E0. rewrite <- C by (eapply nth_error_In; eauto). reflexivity.
  - unfold h' at 1. rewrite set_nth_other by lia. destruct (nth_error h (S id)) as [n|] eqn:En; auto. apply C. eapply nth_error_In; eauto.
Qed.

Theorem root_name_unobservable w fuel o sl l sch sl' name : Compile w fuel o sl l = LOk sch sl' ->
  forall k o' v, validateDocument (w_go w) (s_heap (SetRootSchemaName name sch)) k o' (s_root (SetRootSchemaName name sch)) v =
    validateDocument (w_go w) (s_heap sch) k o' (s_root sch) v.
Proof.
  intros E k o' v. destruct (compile_rootless _ _ _ _ _ _ _ E) as [E0 R]. unfold SetRootSchemaName. rewrite E0.
  destruct (nth_error (s_heap sch) 0) as [r|] eqn:Er; [|rewrite E0; auto]. cbn [s_heap s_root]. unfold validateDocument.
  exact (rename_same (w_go w) (s_heap sch) name r R Er k o' 0 v [STRING_CONTEXT_ROOT]).
Qed.
