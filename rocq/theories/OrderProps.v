(** Loaders that know the same documents; the order of AddSchema. *)
From Coq Require Import Lia Permutation.
From Verif Require Export PoolProps LoaderFacts SpecOrder.
Open Scope nat_scope.

(** ** Pools that answer alike *)
Definition peq (p q : pool) : Prop := forall r, assoc r p = assoc r q.
Lemma peq_aset r e p q : peq p q -> peq (aset r e p) (aset r e q).
Proof. intros H k. rewrite !assoc_aset. destruct (String.eqb k r); auto. Qed.
Definition oeq {A} (R : A -> A -> Prop) (x y : out A) : Prop :=
  match x, y with Ok a, Ok b => R a b | Panic, Panic => True | NoFuel, NoFuel => True | _, _ => False end.
Lemma oeq_bind {A B} (R : A -> A -> Prop) (Q : B -> B -> Prop) x y f g : oeq R x y -> (forall a b, R a b -> oeq Q (f a) (g b)) -> oeq Q (obind x f) (obind y g).
Proof. destruct x, y; cbn; try tauto; auto. Qed.
Lemma oeq_refl {A} (x : out A) : oeq eq x x.
Proof. destruct x; cbn; auto. Qed.
Definition prr_eq (a b : prr) : Prop := pr_doc a = pr_doc b /\ pr_err a = pr_err b /\ peq (pr_pool a) (pr_pool b).
Definition pair_eq {A} (a b : A * pool) : Prop := fst a = fst b /\ peq (snd a) (snd b).

Section Rewriting.
  Variable ce : cenv.
  Variable rec : oracle -> value -> string -> option draft -> pool -> out prr.
  Hypothesis Hrec : forall o v b d p q, peq p q -> oeq prr_eq (rec o v b d p) (rec o v b d q).
  Lemma list_peq l : forall o i b d p q, peq p q -> oeq pair_eq (prr_list rec o i b d l p) (prr_list rec o i b d l q).
  Proof.
    induction l as [|x l IH]; intros o i b d p q H; cbn [prr_list]; [cbn; split; auto|].
    eapply oeq_bind; [apply Hrec; exact H|]. intros r r' (E1 & _ & E3). eapply oeq_bind; [apply IH; exact E3|].
    intros y y' [F1 F2]. cbn. split; auto. cbn. congruence.
  Qed.
  Lemma map_peq es : forall m o i b d p q, peq p q -> oeq pair_eq (prr_map rec o i b d es m p) (prr_map rec o i b d es m q).
  Proof.
    induction es as [|[k x] es IH]; intros m o i b d p q H; cbn [prr_map]; [cbn; split; auto|].
    eapply oeq_bind; [apply Hrec; exact H|]. intros r r' (E1 & _ & E3). rewrite E1. apply IH. exact E3.
  Qed.
  Lemma member_peq o b d k x p q : peq p q -> oeq pair_eq (prr_member rec o b d k x p) (prr_member rec o b d k x q).
  Proof.
    intros H. unfold prr_member. destruct (literal_key k); [cbn; split; auto|]. destruct (map_key k).
    - destruct x; try (cbn; split; auto; fail). eapply oeq_bind; [apply map_peq; exact H|]. intros y y' [F1 F2]. cbn. split; auto. cbn. congruence.
    - eapply oeq_bind; [apply Hrec; exact H|]. intros r r' (E1 & _ & E3). cbn. split; auto.
  Qed.
  Lemma members_peq es : forall m o i b d p q, peq p q -> oeq pair_eq (prr_members rec o i b d es m p) (prr_members rec o i b d es m q).
  Proof.
    induction es as [|[k x] es IH]; intros m o i b d p q H; cbn [prr_members]; [cbn; split; auto|].
    eapply oeq_bind; [apply member_peq; exact H|]. intros r r' (E1 & E3). rewrite E1. apply IH. exact E3.
  Qed.
  Lemma node_peq o v b d p q : peq p q -> oeq prr_eq (parseReferencesNode ce rec o v b d p) (parseReferencesNode ce rec o v b d q).
  Proof.
    intros H. unfold parseReferencesNode. destruct v; try (cbn; split; [|split]; auto; fail).
    - eapply oeq_bind; [apply list_peq; exact H|]. intros y y' [F1 F2]. cbn. split; [|split]; cbn; auto. congruence.
    - eapply oeq_bind; [apply oeq_refl|]. intros lid ? <-. destruct lid as [r|].
      + rewrite (H r). destruct (assoc r q); [cbn; split; [|split]; auto|]. eapply oeq_bind; [apply oeq_refl|]. intros m1 ? <-.
        eapply oeq_bind; [apply members_peq; apply peq_aset; exact H|]. intros y y' [F1 F2]. cbn. split; [|split]; cbn; auto; [congruence|]. rewrite F1. apply peq_aset. exact F2.
      + eapply oeq_bind; [apply oeq_refl|]. intros m1 ? <-. eapply oeq_bind; [apply members_peq; exact H|]. intros y y' [F1 F2]. cbn. split; [|split]; cbn; auto. congruence.
  Qed.
End Rewriting.
Lemma recursive_peq ce k : forall o v b d p q, peq p q -> oeq prr_eq (parseReferencesRecursive ce k o v b d p) (parseReferencesRecursive ce k o v b d q).
Proof. induction k as [|k IH]; intros; cbn [parseReferencesRecursive]; [exact I|apply node_peq; auto]. Qed.
Lemma references_peq ce o v r b p q : peq p q -> oeq prr_eq (parseReferences ce o v r b p) (parseReferences ce o v r b q).
Proof.
  intros H. unfold parseReferences. rewrite (H r). destruct (b && _)%bool; [cbn; split; [|split]; auto|].
  eapply oeq_bind; [apply oeq_refl|]. intros d ? <-. destruct d as [e|d]; [cbn; split; [|split]; auto|].
  eapply oeq_bind; [apply recursive_peq; exact H|]. intros x y (E1 & E2 & E3). destruct b; cbn; split; [|split| |split]; auto. cbn. rewrite E1. apply peq_aset. exact E3.
Qed.

(** ** The compiler *)
Definition seq_ (s s' : cstate) : Prop := st_heap s = st_heap s' /\ st_src s = st_src s' /\ st_refs s = st_refs s' /\ peq (st_pool s) (st_pool s').
Definition ceq {A} (x y : cres A) : Prop :=
  match x, y with COk a s, COk b s' => a = b /\ seq_ s s' | CErr e s, CErr e' s' => e = e' /\ seq_ s s' | CPanic, CPanic => True | CNoFuel, CNoFuel => True | _, _ => False end.
Definition agree {A} (c : comp A) : Prop := forall s s', seq_ s s' -> ceq (c s) (c s').
Lemma agree_ret {A} (a : A) : agree (cret a).
Proof. intros s s' H. cbn. auto. Qed.
Lemma agree_fail {A} e : agree (@cfail A e).
Proof. intros s s' H. cbn. auto. Qed.
Lemma agree_panic {A} : agree (@cpanic A).
Proof. intros s s' H. cbn. auto. Qed.
Lemma agree_lift {A} (x : out A) : agree (lift_out x).
Proof. intros s s' H. destruct x; cbn; auto. Qed.
Lemma agree_bind {A B} (c : comp A) (f : A -> comp B) : agree c -> (forall a, agree (f a)) -> agree (cbind c f).
Proof. intros Hc Hf s s' H. specialize (Hc s s' H). unfold cbind. destruct (c s), (c s'); cbn in *; try tauto. destruct Hc as [<- Hc]. apply Hf. exact Hc. Qed.
Lemma agree_alloc prop d doc : agree (alloc prop d doc).
Proof. intros s s' (H1 & H2 & H3 & H4). cbn. rewrite H1, H2, H3. split; auto. repeat split; auto. Qed.
Lemma agree_store id n : agree (store id n).
Proof. intros s s' (H1 & H2 & H3 & H4). cbn. rewrite H1, H2, H3. split; auto. repeat split; auto. Qed.
Lemma agree_refs_get r : agree (refs_get r).
Proof. intros s s' H. pose proof H as (H1 & H2 & H3 & H4). cbn. rewrite H3. auto. Qed.
Lemma agree_refs_add r id : agree (refs_add r id).
Proof. intros s s' (H1 & H2 & H3 & H4). cbn. rewrite H1, H2, H3. split; auto. repeat split; auto. Qed.
Lemma agree_cmap {A B} (f : nat -> A -> comp B) : (forall i x, agree (f i x)) -> forall l i, agree (cmap f i l).
Proof.
  intros H. induction l as [|x l IH]; intros i; cbn [cmap]; [apply agree_ret|]. apply agree_bind; auto. intros y. apply agree_bind; auto. intros ys. apply agree_ret.
Qed.
Lemma GetDocument_agree ce o r : agree (GetDocument ce o r).
Proof.
  intros s s' H. pose proof H as (H1 & H2 & H3 & H4). unfold GetDocument, cbind, get_pool. rewrite (H4 r). destruct (assoc r (st_pool s')); [cbn; auto|].
  rewrite (H4 (u_strip ce r)). destruct (assoc (u_strip ce r) (st_pool s')) as [d|].
  - destruct (pointer_get _ _); [|cbn; auto]. cbn. split; auto. repeat split; cbn; auto. apply peq_aset. auto.
  - destruct (negb _); [cbn; auto|]. destruct (c_fetch ce r) as [v|]; [|cbn; auto].
    pose proof (references_peq ce o v (u_strip ce r) true _ _ H4) as E. destruct (parseReferences ce o v _ true (st_pool s)) as [x| |], (parseReferences ce o v _ true (st_pool s')) as [y| |]; cbn in *; try tauto.
    destruct E as (E1 & E2 & E3). rewrite E1. destruct (parseSchemaURL ce (pr_doc y)); cbn; auto. destruct (pointer_get _ _); cbn; split; auto; repeat split; auto.
Qed.
Ltac agree1 := first
  [ apply agree_ret | apply agree_fail | apply agree_panic | apply agree_lift | apply agree_alloc | apply agree_store | apply agree_refs_get | apply agree_refs_add
  | apply GetDocument_agree | (apply agree_bind; [|intros ?]) | (apply agree_cmap; intros ? ?)
  | match goal with H : forall o a i v, agree (_ o a i v) |- _ => apply H end
  | match goal with |- agree (match ?x with _ => _ end) => destruct x end
  | match goal with |- agree (if ?x then _ else _) => destruct x end ].
Ltac agree := repeat agree1.
Section Parse.
  Variable ce : cenv.
  Variable rec : oracle -> pargs -> nat -> value -> comp unit.
  Hypothesis Hrec : forall o a i v, agree (rec o a i v).
  Lemma child_agree o p d i v : agree (child rec o p d i v).
  Proof. unfold child. agree. Qed.
  Lemma types_agree l : forall t, agree (add_types t l).
  Proof. induction l as [|x l IH]; intros t; cbn [add_types]; [agree|]. destruct x; try agree1. unfold types_add. agree. apply IH. Qed.
  Lemma required_agree l : forall t, agree (add_required ce t l).
  Proof. induction l as [|x l IH]; intros t; cbn [add_required]; unfold ck; agree. apply IH. Qed.
  Lemma enum_agree l : forall t, agree (add_enum t l).
  Proof. induction l as [|x l IH]; intros t; cbn [add_enum]; agree. apply IH. Qed.
  Lemma deps_agree l : agree (dep_strings ce l).
  Proof. induction l as [|x l IH]; cbn [dep_strings]; unfold ck; agree; apply IH. Qed.
  Ltac kids := repeat first [apply child_agree | apply types_agree | apply required_agree | apply enum_agree | apply deps_agree | agree1].
  Lemma keywords_agree o a i r m : agree (p_keywords ce rec o a i r m).
  Proof.
    unfold p_keywords. cbv zeta.
    repeat (apply agree_bind; [|intros ?]); try apply agree_ret;
      unfold p_type, types_add, p_multipleOf, p_bound, p_natural, p_le, p_pattern, p_format, p_required, p_uniqueItems, p_const, p_enum,
        p_properties, p_additional, p_patternProperties, p_propertyNames, p_dependencies, p_items, p_contains, p_schemas, p_cond, p_schema, p_dependency, ck; cbv zeta; kids.
  Qed.
  Lemma parseReference_agree o d i r : agree (parseReference ce rec o d i r).
  Proof.
    assert (G : forall id, agree (let! _ := alloc "$ref" d VNil in
       let! _ := refs_add r id in
       let! dsp := GetDocument ce (shift o 0) r in
       let! b := ck ce (sp_doc dsp) [KMap; KBool] in
       if negb b then cfail (MustBeOfType "valid schema" TYPE_OBJECT) else
       let d' := match sp_draft dsp with Some x => x | None => d end in
       let! _ := (fun s' => COk tt (CState (st_heap s') (set_nth id (d', sp_doc dsp) (st_src s'))
                                           (st_pool s') (st_refs s'))) in
       let! _ := rec (shift o 1) (PArgs "$ref" d' false r i) id (sp_doc dsp) in
       cret id)).
    { intros id. unfold ck. cbv zeta. agree; try (intros s s' (H1 & H2 & H3 & H4); cbn; rewrite H1, H2, H3; split; auto; repeat split; auto; fail). }
    intros s s' H. unfold parseReference. pose proof H as (H1 & _). rewrite H1. exact (G _ s s' H).
  Qed.
  Lemma node_agree o a i v : agree (parseSchemaNode ce rec o a i v).
  Proof.
    unfold parseSchemaNode. cbv zeta. unfold p_definitions, p_id, p_string_only, ck.
    repeat first [apply keywords_agree | apply parseReference_agree | apply child_agree | agree1].
  Qed.
End Parse.
Lemma parseSchema_agree ce k : forall o a i v, agree (parseSchema ce k o a i v).
Proof. induction k as [|k IH]; intros o a i v; cbn [parseSchema]; [intros s s' _; exact I|apply node_agree; auto]. Qed.
Lemma parse_agree ce k o r d v : agree (parse ce k o r d v).
Proof. unfold parse. agree. apply parseSchema_agree. Qed.

(** ** The loader *)
Lemma outcome_bind {A B C D} (R : A -> B -> Prop) (Q : C -> D -> Prop) x y f g : same_outcome R x y ->
  (forall a b sl sl', R a b -> same_library sl sl' -> same_outcome Q (f a sl) (g b sl')) -> same_outcome Q (lbind x f) (lbind y g).
Proof. destruct x, y; cbn; try tauto. intros [H1 H2] H. auto. Qed.
Lemma library_cenv w sl sl' : same_library sl sl' -> cenv_of w sl = cenv_of w sl'.
Proof. intros (H1 & H2 & H3 & H4 & _). unfold cenv_of. congruence. Qed.
Lemma library_pool p q sl sl' : same_library sl sl' -> peq p q -> same_library (with_pool p sl) (with_pool q sl').
Proof. intros (H1 & H2 & H3 & H4 & _) H. repeat split; auto. Qed.
Lemma library_factory n sl sl' : same_library sl sl' -> same_library (with_factory n sl) (with_factory n sl').
Proof. intros (H1 & H2 & H3 & H4 & H5). repeat split; auto. Qed.
Lemma library_validate b sl sl' : same_library sl sl' -> same_library (with_validate b sl) (with_validate b sl').
Proof. intros (H1 & H2 & H3 & H4 & H5). repeat split; auto. Qed.
Definition run_eq {A} (x y : A * cstate) : Prop := fst x = fst y /\ seq_ (snd x) (snd y).
Lemma run_comp_same {A} (c : comp A) sl sl' : agree c -> same_library sl sl' -> same_outcome run_eq (run_comp sl c) (run_comp sl' c).
Proof.
  intros Hc H. pose proof H as (_ & _ & _ & _ & H5). unfold run_comp.
  assert (S : seq_ (CState [] [] (sl_pool sl) []) (CState [] [] (sl_pool sl') [])) by (repeat split; auto).
  specialize (Hc _ _ S). destruct (c _) as [a s|e s| |], (c (CState [] [] (sl_pool sl') [])) as [b t|e' t| |]; cbn in *; try tauto.
  - destruct Hc as [-> Hc]. split; [split; auto|]. apply library_pool; auto. apply Hc.
  - destruct Hc as [-> Hc]. split; auto. apply library_pool; auto. apply Hc.
Qed.
Lemma run_out_same {A} (x : out A) sl sl' : same_library sl sl' -> same_outcome eq (run_out sl x) (run_out sl' x).
Proof. intros H. destruct x; cbn; auto. Qed.
Section Calls.
  Variable w : world.
  Lemma references_same o v r b sl sl' : same_library sl sl' -> same_outcome eq (pool_parseReferences w o v r b sl) (pool_parseReferences w o v r b sl').
  Proof.
    intros H. unfold pool_parseReferences. rewrite <- (library_cenv w _ _ H). pose proof H as (_ & _ & _ & _ & H5).
    pose proof (references_peq (cenv_of w sl) o v r b _ _ H5) as E.
    destruct (parseReferences _ o v r b (sl_pool sl)) as [x| |], (parseReferences _ o v r b (sl_pool sl')) as [y| |]; cbn in *; try tauto.
    destruct E as (E1 & E2 & E3). rewrite E2. destruct (pr_err y); cbn; (split; [auto|]); apply library_pool; auto.
  Qed.
  Variable fuel : nat.
  Lemma doc_same o sl sl' l : same_library sl sl' -> same_outcome eq (compile_doc w o sl l) (compile_doc w o sl' l).
  Proof.
    intros H. unfold compile_doc. destruct (JsonReference w l) as [r|]; [|cbn; auto]. pose proof (library_factory (LoaderFactory l) _ _ H) as HF.
    destruct (negb _).
    - rewrite <- (library_cenv w _ _ HF). eapply outcome_bind; [apply run_comp_same; [apply GetDocument_agree|exact HF]|].
      intros a b s s' [E _] HS. cbn. rewrite E. auto.
    - destruct (fst (LoadJSON w l)); [|cbn; auto]. eapply outcome_bind; [apply references_same; exact HF|]. intros a b s s' -> HS. cbn. auto.
  Qed.
  Lemma parse_same o sl sl' r v : same_library sl sl' -> same_outcome same_schema (compile_parse w fuel o sl r v) (compile_parse w fuel o sl' r v).
  Proof.
    intros H. unfold compile_parse. apply outcome_bind with (R := eq).
    - pose proof H as (H1 & _). rewrite <- H1. destruct (sl_auto sl); [|cbn; split; auto; apply H]. rewrite <- (library_cenv w _ _ H).
      eapply outcome_bind; [apply run_out_same; exact H|]. intros a b s s' <- HS. destruct a as [e|[u [d|]]]; cbn; auto. split; auto. apply HS.
    - intros d ? s s' <- HS. rewrite <- (library_cenv w _ _ HS). eapply outcome_bind; [apply run_comp_same; [apply parse_agree|exact HS]|].
      intros a b t t' [E1 (E2 & _)] HT. cbn. split; auto. split; cbn; auto.
  Qed.
  Lemma Compile0_same o sl sl' l : same_library sl sl' -> same_outcome same_schema (Compile0 w fuel o sl l) (Compile0 w fuel o sl' l).
  Proof. intros H. unfold Compile0. eapply outcome_bind; [apply doc_same; exact H|]. intros a b s s' -> HS. apply parse_same. exact HS. Qed.
  Lemma meta_same o sl sl' v : same_library sl sl' -> same_outcome eq (validateMetaschema w fuel o sl v) (validateMetaschema w fuel o sl' v).
  Proof.
    intros H. unfold validateMetaschema. apply outcome_bind with (R := eq).
    - pose proof H as (H1 & _). rewrite <- H1. destruct (sl_auto sl); [|cbn; auto]. rewrite <- (library_cenv w _ _ H).
      eapply outcome_bind; [apply run_out_same; exact H|]. intros a b s s' <- HS. destruct a as [e|[u d]]; cbn; auto.
    - intros u ? s s' <- HS. pose proof HS as (_ & _ & H3 & _). rewrite <- H3. destruct (_ && _)%bool; [cbn; auto|].
      eapply outcome_bind; [apply Compile0_same; apply library_validate; exact HS|]. intros a b t t' [E1 E2] HT. rewrite E1, E2.
      eapply outcome_bind; [apply run_out_same; apply library_validate; exact HT|]. intros x ? r r' <- HR. destruct (Valid x); cbn; auto.
  Qed.
  Theorem Compile_same o sl sl' l : same_library sl sl' -> same_outcome same_schema (Compile w fuel o sl l) (Compile w fuel o sl' l).
  Proof.
    intros H. unfold Compile. eapply outcome_bind; [apply doc_same; exact H|]. intros a b s s' <- HS. eapply outcome_bind with (R := eq).
    - pose proof HS as (_ & H2 & _). rewrite <- H2. destruct (sl_validate s); [apply meta_same; exact HS|cbn; auto].
    - intros ? ? t t' _ HT. apply parse_same. exact HT.
  Qed.
  Theorem AddSchema_same o url l sl sl' : same_library sl sl' -> same_outcome eq (AddSchema w fuel o url l sl) (AddSchema w fuel o url l sl').
  Proof.
    intros H. unfold AddSchema. destruct (w_parse w url); [|cbn; auto]. destruct (fst (LoadJSON w l)); [|cbn; auto]. eapply outcome_bind with (R := eq).
    - pose proof H as (_ & H2 & _). rewrite <- H2. destruct (sl_validate sl); [apply meta_same; exact H|cbn; auto].
    - intros ? ? t t' _ HT. eapply outcome_bind; [apply references_same; exact HT|]. intros ? ? u u' _ HU. cbn. auto.
  Qed.
  Theorem AddSchemas_same ls : forall o sl sl', same_library sl sl' -> same_outcome eq (AddSchemas w fuel o ls sl) (AddSchemas w fuel o ls sl').
  Proof.
    induction ls as [|l ls IH]; intros o sl sl' H; cbn [AddSchemas]; [cbn; auto|]. destruct (fst (LoadJSON w l)); [|cbn; auto]. eapply outcome_bind with (R := eq).
    - pose proof H as (_ & H2 & _). rewrite <- H2. destruct (sl_validate sl); [apply meta_same; exact H|cbn; auto].
    - intros ? ? t t' _ HT. eapply outcome_bind; [apply references_same; exact HT|]. intros ? ? u u' _ HU. apply IH. exact HU.
  Qed.
End Calls.

(** ** The order of AddSchema *)
Section Order.
  Variable w : world.
  Hypothesis HU : url_laws w.
  Notation ids_of := (ids_of (w_parse w) (w_inherits w)).
  Notation resolve := (resolve (w_parse w) (w_inherits w)).
  Definition gives (auto : bool) (e : string * loader) (r : string) (s : spd) : Prop :=
    exists ref doc, w_parse w (fst e) = Some ref /\ fst (LoadJSON w (snd e)) = Some doc /\
      let dr := if auto then named_draft (w_parse w) doc else None in
      (r = ref /\ s = Spd (resolve ref doc) dr \/ r <> ref /\ exists x, In (r, x) (ids_of ref doc) /\ s = Spd x dr).
  Definition settings (sl sl' : sloader) : Prop :=
    sl_auto sl = sl_auto sl' /\ sl_validate sl = sl_validate sl' /\ sl_draft sl = sl_draft sl' /\ sl_factory sl = sl_factory sl'.
  Lemma add_gives fuel o sl url l ref doc : fair o -> addable w sl url l ref doc ->
    exists sl', AddSchema w fuel o url l sl = LOk tt sl' /\ settings sl sl' /\
      forall r e, assoc r (sl_pool sl') = Some e <-> assoc r (sl_pool sl) = Some e \/ gives (sl_auto sl) (url, l) r e.
  Proof.
    intros F A. destruct (AddSchema_registers w HU fuel o sl url l ref doc F A) as (sl' & E & E1 & E2). exists sl'. split; [exact E|].
    destruct A as (P & _ & EL & _ & Ev & _ & Er & _ & _). split.
    - unfold AddSchema in E. rewrite P, EL, Ev in E. cbn [lbind] in E. unfold pool_parseReferences in E.
      destruct (parseReferences _ _ _ _ _ _) as [x| |]; try discriminate. cbn [run_out lbind] in E. destruct (pr_err x); [discriminate|]. injection E as <-. repeat split.
    - intros r e. destruct (string_dec r ref) as [->|N].
      + split.
        * intros H. right. exists ref, doc. split; auto. split; auto. left. split; auto. rewrite E1 in H. injection H as <-. reflexivity.
        * intros [H|(ref' & doc' & P' & L' & H)]; [congruence|]. cbn [fst snd] in P', L'. assert (ref' = ref) by congruence. assert (doc' = doc) by congruence. subst ref' doc'.
          destruct H as [[_ H]|[N _]]; [|congruence]. rewrite H. exact E1.
      + rewrite (E2 r e N). split; (intros [H|H]; [auto|right]).
        * exists ref, doc. split; auto.
        * destruct H as (ref' & doc' & P' & L' & H). cbn [fst snd] in P', L'. assert (ref' = ref) by congruence. assert (doc' = doc) by congruence. subst ref' doc'.
          destruct H as [[H _]|[_ H]]; [congruence|exact H].
  Qed.
  Lemma gives_name auto e r s doc : fst (LoadJSON w (snd e)) = Some doc -> doc_ok doc -> gives auto e r s -> name_of w e r.
  Proof.
    intros EL D (ref & doc' & P & L & H). assert (doc' = doc) by congruence. subst. exists ref, doc. split; auto. split; auto.
    destruct H as [[-> _]|[_ (x & Hx & _)]]; [left; auto|right]. apply ids_positions in Hx; auto. destruct Hx as (p & b & m & Hp & Hs & _). eauto 6.
  Qed.
  Definition ready (sl : sloader) (e : string * loader) : Prop := exists ref doc, addable w sl (fst e) (snd e) ref doc.
  Lemma ready_doc sl e : ready sl e -> exists doc, fst (LoadJSON w (snd e)) = Some doc /\ doc_ok doc.
  Proof. intros (ref & doc & A). pose proof (addable_fresh w _ _ _ _ _ A) as [D _]. destruct A as (_ & _ & EL & _). eauto. Qed.
  (** Still ready when another one has been added. *)
  Lemma ready_next sl sl' e e' : ready sl e -> ready sl e' -> (forall r, name_of w e r -> ~ name_of w e' r) -> settings sl sl' ->
    (forall r s, assoc r (sl_pool sl') = Some s <-> assoc r (sl_pool sl) = Some s \/ gives (sl_auto sl) e r s) -> ready sl' e'.
  Proof.
    intros Re Re' Hn (S1 & S2 & S3 & S4) HP. destruct (ready_doc _ _ Re) as (de & Le & De). destruct Re' as (ref & doc & A1 & A2 & A3 & A4 & A5 & A6 & A7 & A8 & A9).
    assert (K : forall r, name_of w e' r -> assoc r (sl_pool sl) = None -> assoc r (sl_pool sl') = None).
    { intros r Nr E. destruct (assoc r (sl_pool sl')) as [s|] eqn:Es; auto. exfalso. apply HP in Es. destruct Es as [Es|Es]; [congruence|].
      apply (Hn r); auto. eapply gives_name; eauto. }
    exists ref, doc. split; [exact A1|]. split; [exact A2|]. split; [exact A3|]. split; [exact A4|]. split; [congruence|]. split; [rewrite <- S1; exact A6|]. split; [|split; [|exact A9]].
    - apply K; auto. exists ref, doc. split; auto. split; auto. left. reflexivity.
    - intros p b m r Hp Hs. apply K; [|eapply A8; eauto]. exists ref, doc. split; auto. split; auto. right. eauto.
  Qed.
  Theorem added_knows ls : forall sl sl', Forall (ready sl) ls -> unrelated w ls -> added w sl ls sl' ->
    settings sl sl' /\ forall r s, assoc r (sl_pool sl') = Some s <-> assoc r (sl_pool sl) = Some s \/ exists e, In e ls /\ gives (sl_auto sl) e r s.
  Proof.
    induction ls as [|[url l] ls IH]; intros sl sl' R Un A; inversion A as [|fuel o ? ? ? sl1 ? ? F E A']; subst.
    - split; [repeat split|]. intros r s. split; auto. intros [H|(e & [] & _)]. exact H.
    - inversion R as [|? ? Rh Rt]; subst. inversion Un as [|? ? Uh Ut]; subst. destruct Rh as (ref & doc & Ah). cbn [fst snd] in Ah.
      destruct (add_gives fuel o sl url l ref doc F Ah) as (sl1' & E' & S & HP). rewrite E' in E. injection E as ->.
      destruct (IH sl1 sl') as [S' HP']; auto.
      + rewrite Forall_forall in *. intros e He. apply (ready_next sl sl1 (url, l) e); auto. exists ref, doc. exact Ah.
      + pose proof S as (S1 & S2 & S3 & S4). split; [destruct S' as (T1 & T2 & T3 & T4); repeat split; congruence|].
        intros r s. rewrite HP', HP, <- S1. split.
        * intros [[H|H]|(e & He & H)]; [auto|right; exists (url, l); split; [left|]; auto|right; exists e; split; [right|]; auto].
        * intros [H|(e & [<-|He] & H)]; eauto.
  Qed.
  (** Each of them is accepted, whatever has been added before. *)
  Theorem added_goes_on ls : forall sl sl', Forall (ready sl) ls -> unrelated w ls -> forall e ls1, ls = ls1 ++ [e] -> added w sl ls1 sl' ->
    forall fuel o, fair o -> exists sl2, AddSchema w fuel o (fst e) (snd e) sl' = LOk tt sl2.
  Proof.
    induction ls as [|[url l] ls IH]; intros sl sl' R Un e ls1 El A fuel o F; [destruct ls1; discriminate|].
    inversion R as [|? ? Rh Rt]; subst. inversion Un as [|? ? Uh Ut]; subst. pose proof Rh as (ref & doc & Ah). cbn [fst snd] in Ah.
    destruct ls1 as [|e1 ls1].
    - injection El as <- ->. inversion A; subst. destruct (add_gives fuel o sl' url l ref doc F Ah) as (sl2 & E & _). eauto.
    - injection El as <- ->. inversion A as [|fuel1 o1 ? ? ? sl1 ? ? F1 E A']; subst.
      destruct (add_gives fuel1 o1 sl url l ref doc F1 Ah) as (sl1' & E' & S & HP). rewrite E' in E. injection E as ->.
      apply (IH sl1 sl') with (ls1 := ls1); auto. rewrite Forall_forall in *. intros e' He. apply (ready_next sl sl1 (url, l) e'); auto.
  Qed.
  Lemma unrelated_perm ls ls' : Permutation ls ls' -> unrelated w ls -> unrelated w ls'.
  Proof.
    unfold unrelated. induction 1 as [|x l l' HP IH|x y l|l l' l'' H1 IH1 H2 IH2]; intros H; auto.
    - inversion H as [|? ? Hh Ht]; subst. constructor; auto. rewrite Forall_forall in *. intros e He. apply Hh. eapply Permutation_in; [apply Permutation_sym|]; eauto.
    - inversion H as [|? ? Hh Ht]; subst. inversion Ht as [|? ? Hh' Ht']; subst. inversion Hh as [|? ? Hxy Hh2]; subst.
      constructor; [constructor; auto; intros r A B; exact (Hxy r B A)|]. constructor; auto.
  Qed.
  Theorem order_irrelevant sl ls ls' sl1 sl2 : Permutation ls ls' -> Forall (ready sl) ls -> unrelated w ls ->
    added w sl ls sl1 -> added w sl ls' sl2 -> same_library sl1 sl2.
  Proof.
    intros P R Un A1 A2. destruct (added_knows ls sl sl1 R Un A1) as [(S1 & S2 & S3 & S4) K1].
    assert (R' : Forall (ready sl) ls') by (rewrite Forall_forall in *; intros e He; apply R; eapply Permutation_in; [apply Permutation_sym|]; eauto).
    destruct (added_knows ls' sl sl2 R' (unrelated_perm _ _ P Un) A2) as [(T1 & T2 & T3 & T4) K2].
    split; [congruence|]. split; [congruence|]. split; [congruence|]. split; [congruence|].
    assert (X : forall r s, assoc r (sl_pool sl1) = Some s <-> assoc r (sl_pool sl2) = Some s).
    { intros r s. rewrite K1, K2. split; (intros [H|(e & He & H)]; [auto|right; exists e; split; auto]); (eapply Permutation_in; [|eauto]; auto using Permutation_sym). }
    intros r. destruct (assoc r (sl_pool sl1)) as [s|] eqn:E1; [symmetry; apply X; auto|]. destruct (assoc r (sl_pool sl2)) as [s|] eqn:E2; auto. apply X in E2. congruence.
  Qed.
  Theorem order_goes_on sl ls : Forall (ready sl) ls -> unrelated w ls ->
    forall ls1 e ls2 sl1, Permutation ls (ls1 ++ e :: ls2) -> added w sl ls1 sl1 -> forall fuel o, fair o -> exists sl2, AddSchema w fuel o (fst e) (snd e) sl1 = LOk tt sl2.
  Proof.
    intros R Un ls1 e ls2 sl1 P A fuel o F.
    assert (R' : Forall (ready sl) (ls1 ++ e :: ls2)) by (rewrite Forall_forall in *; intros e' He; apply R; eapply Permutation_in; [apply Permutation_sym|]; eauto).
    pose proof (unrelated_perm _ _ P Un) as Un'. apply (added_goes_on (ls1 ++ [e]) sl sl1) with (ls1 := ls1); auto.
    - rewrite Forall_forall in *. intros e' He. apply R'. apply in_app_iff in He. apply in_app_iff. destruct He as [He|[->|[]]]; [left|right; left]; auto.
    - clear - Un'. unfold unrelated in *. induction ls1 as [|x l IH]; cbn [app] in *; [repeat constructor|]. inversion Un' as [|? ? Hh Ht]; subst. constructor; auto.
      rewrite Forall_forall in *. intros e' He. apply Hh. apply in_app_iff in He. apply in_app_iff. destruct He as [He|[->|[]]]; [left|right; left]; auto.
  Qed.
  Theorem order_compile sl ls ls' sl1 sl2 : Permutation ls ls' -> Forall (ready sl) ls -> unrelated w ls ->
    added w sl ls sl1 -> added w sl ls' sl2 ->
    forall fuel o l, same_outcome same_schema (Compile w fuel o sl1 l) (Compile w fuel o sl2 l).
  Proof. intros P R Un A1 A2 fuel o l. apply Compile_same. eapply order_irrelevant; eauto. Qed.
End Order.
