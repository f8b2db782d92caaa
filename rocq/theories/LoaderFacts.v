(** What calls on a SchemaLoader do to it, whether they succeed or fail. *)
From Verif Require Export LoadPanic PathFacts.
From Coq Require Import Lia.
Open Scope nat_scope.

(** ** The compiler only ever adds to the pool *)
Definition grows {A} (c : comp A) : Prop := forall s, match c s with COk _ s' | CErr _ s' => pool_le (st_pool s) (st_pool s') | _ => True end.
Lemma grows_still {A} (c : comp A) : still c -> grows c.
Proof. intros H s. specialize (H s). destruct (c s) as [a s'|e s'| |]; auto; subst; auto. Qed.
Lemma grows_bind {A B} (c : comp A) (f : A -> comp B) : grows c -> (forall a, grows (f a)) -> grows (cbind c f).
Proof.
  intros H1 H2 s. specialize (H1 s). unfold cbind. destruct (c s) as [a s'|e s'| |]; auto. specialize (H2 a s'). destruct (f a s') as [b s2|e s2| |]; auto; eapply pool_le_trans; eauto.
Qed.
Lemma grows_ret {A} (a : A) : grows (cret a).
Proof. intros s. cbn. auto. Qed.
Lemma grows_fail {A} e : grows (@cfail A e).
Proof. intros s. cbn. auto. Qed.
Lemma grows_panic {A} : grows (@cpanic A).
Proof. intros s. exact I. Qed.
Lemma grows_lift {A} (x : out A) : grows (lift_out x).
Proof. apply grows_still, still_lift. Qed.
Lemma grows_alloc prop d doc : grows (alloc prop d doc).
Proof. intros s. cbn. auto. Qed.
Lemma grows_store id n : grows (store id n).
Proof. intros s. cbn. auto. Qed.
Lemma grows_refs_get r : grows (refs_get r).
Proof. intros s. cbn. auto. Qed.
Lemma grows_refs_add r id : grows (refs_add r id).
Proof. intros s. cbn. auto. Qed.
Lemma grows_cmap {A B} (f : nat -> A -> comp B) : (forall i x, grows (f i x)) -> forall l i, grows (cmap f i l).
Proof.
  intros H. induction l as [|x l IH]; intros i; cbn [cmap]; [apply grows_ret|]. apply grows_bind; auto. intros y. apply grows_bind; auto. intros ys. apply grows_ret.
Qed.
Lemma GetDocument_grows ce o r : grows (GetDocument ce o r).
Proof.
  intros s. unfold GetDocument, cbind, get_pool. destruct (assoc r (st_pool s)) as [d|] eqn:Er; [cbn; auto|].
  destruct (assoc (u_strip ce r) (st_pool s)) as [d|] eqn:Eb.
  - destruct (pointer_get _ _); [|cbn; auto]. cbn. apply pool_le_add; auto.
  - destruct (negb _); [cbn; auto|]. destruct (c_fetch ce r); [|cbn; auto]. destruct (parseReferences _ _ _ _ _ _) as [q| |] eqn:E; cbn; auto.
    apply parseReferences_le in E. destruct (parseSchemaURL ce (pr_doc q)); cbn; auto. destruct (pointer_get _ _); cbn; auto.
Qed.

Ltac grows1 := first
  [ apply grows_ret | apply grows_fail | apply grows_panic | apply grows_lift | apply grows_alloc | apply grows_store | apply grows_refs_get | apply grows_refs_add
  | apply GetDocument_grows | (apply grows_still; solve [auto with still nocore]) | (apply grows_bind; [|intros ?]) | (apply grows_cmap; intros ? ?)
  | match goal with H : forall o a i v, grows (_ o a i v) |- _ => apply H end
  | match goal with |- grows (match ?x with _ => _ end) => destruct x end
  | match goal with |- grows (if ?x then _ else _) => destruct x end ].
Ltac grows := repeat grows1.
Section Parse.
  Variable ce : cenv.
  Variable rec : oracle -> pargs -> nat -> value -> comp unit.
  Hypothesis Hrec : forall o a i v, grows (rec o a i v).
  Lemma child_grows o p d i v : grows (child rec o p d i v).
  Proof. unfold child. grows. Qed.
  Ltac kids := repeat first [apply child_grows | grows1].
  Lemma keywords_grows o a i r m : grows (p_keywords ce rec o a i r m).
  Proof.
    unfold p_keywords. cbv zeta.
    repeat (apply grows_bind; [|intros ?]); try (apply grows_still; solve [auto with still nocore]); try apply grows_ret;
      unfold p_properties, p_additional, p_patternProperties, p_propertyNames, p_dependencies, p_items, p_contains, p_schemas, p_cond, p_schema, p_dependency, ck; kids.
  Qed.
  Lemma parseReference_grows o d i r : grows (parseReference ce rec o d i r).
  Proof.
    assert (G : forall id, grows (let! _ := alloc "$ref" d VNil in
       let! _ := refs_add r id in
       let! dsp := GetDocument ce (shift o 0) r in
       let! b := ck ce (sp_doc dsp) [KMap; KBool] in
       if negb b then cfail (MustBeOfType "valid schema" TYPE_OBJECT) else
       let d' := match sp_draft dsp with Some x => x | None => d end in
       let! _ := (fun s' => COk tt (CState (st_heap s') (set_nth id (d', sp_doc dsp) (st_src s'))
                                           (st_pool s') (st_refs s'))) in
       let! _ := rec (shift o 1) (PArgs "$ref" d' false r i) id (sp_doc dsp) in
       cret id)).
    { intros id. unfold ck. cbv zeta. grows; try (intros s; cbn; auto; fail). }
    intros s. unfold parseReference. exact (G _ s).
  Qed.
  Lemma node_grows o a i v : grows (parseSchemaNode ce rec o a i v).
  Proof.
    unfold parseSchemaNode. cbv zeta. unfold p_definitions, ck.
    repeat first [apply keywords_grows | apply parseReference_grows | apply child_grows | grows1].
  Qed.
End Parse.
Lemma parseSchema_grows ce k : forall o a i v, grows (parseSchema ce k o a i v).
Proof. induction k as [|k IH]; intros o a i v; cbn [parseSchema]; [intros s; exact I|apply node_grows; auto]. Qed.
Lemma parse_grows ce k o r d v : grows (parse ce k o r d v).
Proof. unfold parse. grows. apply parseSchema_grows. Qed.

(** ** Calls on a SchemaLoader *)
Definition after {A} (P : sloader -> Prop) (x : lres A) : Prop := match x with LOk _ sl | LErr _ sl => P sl | _ => True end.
(** Nothing is forgotten, and the fields AutoDetect and Draft stay. *)
Definition keeps (sl sl' : sloader) : Prop := pool_le (sl_pool sl) (sl_pool sl') /\ sl_auto sl' = sl_auto sl /\ sl_draft sl' = sl_draft sl.
Lemma keeps_refl sl : keeps sl sl.
Proof. split; auto. Qed.
Lemma keeps_trans a b c : keeps a b -> keeps b c -> keeps a c.
Proof. intros (H1 & H2 & H3) (K1 & K2 & K3). split; [eapply pool_le_trans; eauto|]. split; congruence. Qed.
#[global] Hint Resolve keeps_refl : core.

Section Loaders.
  Variable w : world.
  (** Both what holds of the loader after success and what holds after failure. *)
  Definition both_after {A} (P Q : sloader -> Prop) (x : lres A) : Prop :=
    match x with LOk _ sl => P sl | LErr _ sl => Q sl | _ => True end.
  Lemma after_bind {A B} (P : sloader -> Prop) (x : lres A) (f : A -> sloader -> lres B) : after P x ->
    (forall a sl, x = LOk a sl -> P sl -> after P (f a sl)) -> after P (lbind x f).
  Proof. intros H1 H2. destruct x as [a sl|e sl| |]; cbn in *; auto. Qed.
  Lemma after_weak {A} (P Q : sloader -> Prop) (x : lres A) : after P x -> (forall sl, P sl -> Q sl) -> after Q x.
  Proof. intros H1 H2. destruct x; cbn in *; auto. Qed.
  Lemma after_out {A} (P : sloader -> Prop) sl (x : out A) : P sl -> after P (run_out sl x).
  Proof. intros H. destruct x; cbn; auto. Qed.
  Lemma after_comp {A} sl (c : comp A) : grows c -> after (keeps sl) (run_comp sl c).
  Proof. intros G. specialize (G (CState [] [] (sl_pool sl) [])). unfold run_comp. destruct (c _) as [a s|e s| |]; cbn in *; auto; split; auto. Qed.
  Lemma after_refs o doc ref pooled sl : after (keeps sl) (pool_parseReferences w o doc ref pooled sl).
  Proof.
    unfold pool_parseReferences. destruct (parseReferences _ _ _ _ _ _) as [q| |] eqn:E; cbn; auto. apply parseReferences_le in E.
    destruct (pr_err q); cbn; split; auto.
  Qed.
  Section Fuel.
    Variable fuel : nat.
    Lemma doc_keeps o sl l : after (keeps sl) (compile_doc w o sl l).
    Proof.
      unfold compile_doc. destruct (JsonReference w l) as [ref|]; [|cbn; auto].
      assert (K : keeps sl (with_factory (LoaderFactory l) sl)) by (split; auto).
      destruct (negb _).
      - apply after_bind; [|intros a sl1 _ H; exact H]. eapply after_weak; [apply after_comp, GetDocument_grows|]. intros sl1. apply keeps_trans. auto.
      - destruct (fst (LoadJSON w l)) as [doc|]; [|cbn; auto]. apply after_bind; [|intros a sl1 _ H; exact H].
        eapply after_weak; [apply after_refs|]. intros sl1. apply keeps_trans. auto.
    Qed.
    Lemma compile_parse_keeps o sl r doc : after (keeps sl) (compile_parse w fuel o sl r doc).
    Proof.
      unfold compile_parse. apply after_bind.
      - destruct (sl_auto sl); [|cbn; auto]. apply after_bind; [apply after_out; auto|]. intros [e|[u [d|]]] sl1 _ H; exact H.
      - intros d sl1 _ H. apply after_bind; [|intros a sl2 _ H2; exact H2]. eapply after_weak; [apply after_comp, parse_grows|]. intros sl2. apply keeps_trans. auto.
    Qed.
    Lemma Compile0_keeps o sl l : after (keeps sl) (Compile0 w fuel o sl l).
    Proof.
      unfold Compile0. apply after_bind; [apply doc_keeps|]. intros a sl1 _ H. eapply after_weak; [apply compile_parse_keeps|]. intros sl2. apply keeps_trans. auto.
    Qed.
    Lemma meta_keeps o sl doc : after (keeps sl) (validateMetaschema w fuel o sl doc).
    Proof.
      unfold validateMetaschema. apply after_bind.
      - destruct (sl_auto sl); [|cbn; auto]. apply after_bind; [apply after_out; auto|]. intros [e|[u d]] sl1 _ H; exact H.
      - intros url sl1 _ H. destruct (_ && _)%bool; [exact H|]. cbv zeta. apply after_bind.
        + eapply after_weak; [apply Compile0_keeps|]. intros sl2 K. eapply keeps_trans; [exact H|]. eapply keeps_trans; [|exact K]. split; auto.
        + intros sch sl2 _ H2. assert (K : keeps sl (with_validate true sl2)) by (destruct H2 as (A1 & A2 & A3); split; auto).
          apply after_bind; [apply after_out; auto|]. intros r sl3 _ H3. destruct (Valid r); exact H3.
    Qed.
    Lemma Compile_keeps o sl l : after (keeps sl) (Compile w fuel o sl l).
    Proof.
      unfold Compile. apply after_bind; [apply doc_keeps|]. intros a sl1 _ H. apply after_bind.
      - destruct (sl_validate sl1); [|exact H]. eapply after_weak; [apply meta_keeps|]. intros sl2. apply keeps_trans. auto.
      - intros [] sl2 _ H2. eapply after_weak; [apply compile_parse_keeps|]. intros sl3. apply keeps_trans. auto.
    Qed.
    Lemma AddSchema_keeps o url l sl : after (keeps sl) (AddSchema w fuel o url l sl).
    Proof.
      unfold AddSchema. destruct (w_parse w url) as [ref|]; [|cbn; auto]. destruct (fst (LoadJSON w l)) as [doc|]; [|cbn; auto]. apply after_bind.
      - destruct (sl_validate sl); [apply meta_keeps|cbn; auto].
      - intros [] sl1 _ H. apply after_bind; [|intros a sl2 _ H2; exact H2]. eapply after_weak; [apply after_refs|]. intros sl2. apply keeps_trans. auto.
    Qed.
    Lemma AddSchemas_keeps ls : forall o sl, after (keeps sl) (AddSchemas w fuel o ls sl).
    Proof.
      induction ls as [|l ls IH]; intros o sl; cbn [AddSchemas]; [cbn; auto|]. destruct (fst (LoadJSON w l)) as [doc|]; [|cbn; auto]. apply after_bind.
      - destruct (sl_validate sl); [apply meta_keeps|cbn; auto].
      - intros [] sl1 _ H. apply after_bind.
        + eapply after_weak; [apply after_refs|]. intros sl2. apply keeps_trans. auto.
        + intros x sl2 _ H2. eapply after_weak; [apply IH|]. intros sl3. apply keeps_trans. auto.
    Qed.
  End Fuel.

  (** A history: calls on one SchemaLoader, failed ones included, and
      assignments to its fields. *)
  Inductive history (sl0 : sloader) : sloader -> Prop :=
  | history_start : history sl0 sl0
  | history_call sl fuel o c sl' : history sl0 sl ->
      (do_call w fuel o c sl = LOk tt sl' \/ exists e, do_call w fuel o c sl = LErr e sl') -> history sl0 sl'.
  Lemma call_grows fuel o c sl : after (fun sl' => pool_le (sl_pool sl) (sl_pool sl')) (do_call w fuel o c sl).
  Proof.
    destruct c as [l|u l|ls|b|b|d]; cbn [do_call]; try (cbn; auto; fail).
    - pose proof (Compile_keeps fuel o sl l) as K. destruct (Compile w fuel o sl l); cbn in *; auto; apply K.
    - eapply after_weak; [apply AddSchema_keeps|intros sl' K; apply K].
    - eapply after_weak; [apply AddSchemas_keeps|intros sl' K; apply K].
  Qed.
  Lemma history_grows sl sl' : history sl sl' -> pool_le (sl_pool sl) (sl_pool sl').
  Proof.
    induction 1 as [|sl1 fuel o c sl' _ IH E]; [auto|]. eapply pool_le_trans; [exact IH|]. pose proof (call_grows fuel o c sl1) as G.
    destruct E as [E|[e E]]; rewrite E in G; exact G.
  Qed.

  (** *** Registering a URL twice *)
  Lemma refs_exists o doc ref sl e : assoc ref (sl_pool sl) = Some e -> pool_parseReferences w o doc ref true sl = LErr (EExists ref) (with_pool (sl_pool sl) sl).
  Proof. intros E. unfold pool_parseReferences, parseReferences. rewrite E. reflexivity. Qed.
  Lemma AddSchema_exists fuel o url l sl ref e : w_parse w url = Some ref -> assoc ref (sl_pool sl) = Some e ->
    match AddSchema w fuel o url l sl with LOk _ _ => False | _ => True end.
  Proof.
    intros E1 E2. unfold AddSchema. rewrite E1. destruct (fst (LoadJSON w l)) as [doc|]; [|exact I].
    assert (K : after (keeps sl) (if sl_validate sl then validateMetaschema w fuel (shift o 0) sl doc else LOk tt sl)) by (destruct (sl_validate sl); [apply meta_keeps|cbn; auto]).
    destruct (if sl_validate sl then _ else _) as [[] sl1|e1 sl1| |]; cbn [lbind]; auto. destruct K as (K & _). rewrite (refs_exists _ _ _ _ _ (K _ _ E2)). exact I.
  Qed.
  (** Without meta-schema validation it is that error, and nothing changes. *)
  Lemma AddSchema_exists_error fuel o url l sl ref e : w_parse w url = Some ref -> assoc ref (sl_pool sl) = Some e -> fst (LoadJSON w l) <> None -> sl_validate sl = false ->
    AddSchema w fuel o url l sl = LErr (EExists ref) sl.
  Proof.
    intros E1 E2 E3 E4. unfold AddSchema. rewrite E1, E4. destruct (fst (LoadJSON w l)) as [doc|]; [|congruence]. cbn [lbind].
    rewrite (refs_exists _ _ _ _ _ E2). cbn [lbind]. destruct sl; reflexivity.
  Qed.
  (** Compiling a document that is not given by reference registers it under the
      URL "". *)
  Lemma Compile_exists fuel o sl l e : url_laws w -> (forall fs s, l <> LRef fs s) -> fst (LoadJSON w l) <> None -> assoc "" (sl_pool sl) = Some e ->
    Compile w fuel o sl l = LErr (EExists "") (with_factory 0 sl).
  Proof.
    intros (HU & _) Hl HL E. unfold Compile, compile_doc.
    assert (J : JsonReference w l = Some "" /\ LoaderFactory l = 0) by (destruct l; try (split; [exact HU|reflexivity]); destruct (Hl _ _ eq_refl)).
    destruct J as [-> ->]. cbn [String.eqb negb]. destruct (fst (LoadJSON w l)) as [doc|]; [|congruence].
    rewrite (refs_exists _ doc "" (with_factory 0 sl) e E). cbn [lbind]. destruct sl; reflexivity.
  Qed.
  Lemma compile_doc_registers o sl l r sl' : url_laws w -> (forall fs s, l <> LRef fs s) -> compile_doc w o sl l = LOk r sl' -> exists e, assoc "" (sl_pool sl') = Some e.
  Proof.
    intros (HU & _) Hl. unfold compile_doc.
    assert (J : JsonReference w l = Some "" /\ LoaderFactory l = 0) by (destruct l; try (split; [exact HU|reflexivity]); destruct (Hl _ _ eq_refl)).
    destruct J as [-> ->]. cbn [String.eqb negb]. destruct (fst (LoadJSON w l)) as [doc|]; [|discriminate]. unfold pool_parseReferences.
    destruct (parseReferences _ _ _ _ _ _) as [q| |] eqn:E; cbn; try discriminate. destruct (pr_err q) eqn:Ee; [discriminate|]. intros [= <- <-]. cbn [sl_pool with_pool].
    unfold parseReferences in E. destruct (true && _)%bool; [injection E as <-; discriminate|]. apply obind_ok in E. destruct E as ([er|d] & Ed & E); [injection E as <-; discriminate|].
    apply obind_ok in E. destruct E as (q' & Eq & E). injection E as <-. cbn. rewrite assoc_aset, String.eqb_refl. eauto.
  Qed.
End Loaders.
