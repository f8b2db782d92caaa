(** Validation with a compiled schema: it returns, and its verdict is what the
    documents mean. *)
From Verif Require Export LoadAny ValidateRun.
From Coq Require Import Lia.
Open Scope nat_scope.

Section Total.
  Variable w : world.
  Hypothesis HU : url_laws w.
  Notation lim := (e_ratlim (w_go w)).
  Notation resolve := (resolve (w_parse w) (w_inherits w)).
  Notation ids_of := (ids_of (w_parse w) (w_inherits w)).
  Notation meaning T := (meaning (pat (w_go w)) (fmt (w_go w)) same T).

  (** The documents a load makes available suffice: every reference leads to one
      of them or into one of them. *)
  Definition self_contained (sl : sloader) (doc : value) : Prop :=
    let p0 := known_documents w sl doc in
    fresh (sl_pool sl) (ids_of "" doc) /\
    (forall r e, assoc r (sl_pool sl) = Some e -> doc_ok (sp_doc e) /\ closed_refs (cenv_of w sl) p0 (sp_doc e)) /\
    settled p0 (root_draft w sl doc) /\ closed_refs (cenv_of w sl) p0 (resolve "" doc).

  Theorem compile_total sl fuel o l doc sch sl' :
    fair o -> (forall fs s, l <> LRef fs s) -> loader_fit l -> fst (LoadJSON w l) = Some doc -> all_numbers (moderate lim) doc ->
    sl_validate sl = false -> self_contained sl doc ->
    Compile w fuel o sl l = LOk sch sl' ->
    let T := leads_to (cenv_of w sl) (known_documents w sl doc) (root_draft w sl doc) in
    guarded T (root_draft w sl doc) (resolve "" doc) ->
    forall v, usual lim v ->
    (forall d' m x, needed T (root_draft w sl doc) (resolve "" doc) v d' (VMap m) x -> assoc "$ref" m = None -> fits lim m x) ->
    forall o', fair o' ->
    exists r, returns (w_go w) (s_heap sch) (s_root sch) o' v r /\
      (Valid r = true <-> meaning T (root_draft w sl doc) (resolve "" doc) v).
  Proof.
    intros F Hl Hfit EL Hm Hv (Hf & Hpool & Hset & Hcl) EC T G v ORD REG o' F'.
    pose proof (LoadJSON_doc_ok w l doc Hfit EL) as Hd.
    pose proof (compile_acyclic w HU sl fuel o l doc sch sl' F Hl EL Hd Hm Hv Hf Hpool Hset Hcl EC G) as AC.
    assert (M : meaning_at (pat (w_go w)) (fmt (w_go w)) same T (root_draft w sl doc) (resolve "" doc) v (meaning T)).
    { apply meaning_exists. eapply guarded_well_founded; [exact G|constructor]. }
    pose proof (compile_verdict w HU sl fuel o l doc sch sl' F Hl EL Hd Hm Hv Hf Hpool Hset Hcl EC v _ ORD REG M) as CV.
    destruct (terminates (w_go w) (s_heap sch) (s_root sch) v o' F' AC) as [[r R]|[k P]].
    - exists r. split; auto. destruct R as [k R]. apply (proj2 (CV k o' F') r R).
    - exfalso. exact (proj1 (CV k o' F') P).
  Qed.

  (** On a new SchemaLoader nothing is known but the document itself and its
      identified subschemas. *)
  Lemma new_self_contained doc : NoDup (map fst (ids_of "" doc)) ->
    closed_refs (cenv_of w NewSchemaLoader) (known_documents w NewSchemaLoader doc) (resolve "" doc) ->
    self_contained NewSchemaLoader doc.
  Proof.
    intros ND C. unfold self_contained. repeat match goal with |- _ /\ _ => apply conj end; auto.
    - split; auto.
    - intros r e E. discriminate.
    - unfold settled, known_documents, root_draft. destruct (doc_draft _ doc) as [d|] eqn:Ed.
      + left. intros r e. cbn [NewSchemaLoader sl_pool]. rewrite app_nil_r, assoc_entries. destruct (assoc r _); [|discriminate]. intros E. injection E as <-. discriminate.
      + right. intros r e x. cbn [NewSchemaLoader sl_pool]. rewrite app_nil_r, assoc_entries. destruct (assoc r _); [|discriminate]. intros E. injection E as <-. discriminate.
  Qed.
End Total.

(** The same for NewSchema. *)
Theorem new_total w : url_laws w -> forall fuel o l doc sch sl',
  fair o -> (forall fs s, l <> LRef fs s) -> loader_fit l -> fst (LoadJSON w l) = Some doc ->
  all_numbers (moderate (e_ratlim (w_go w))) doc -> NoDup (map fst (ids_of (w_parse w) (w_inherits w) "" doc)) ->
  let ce := cenv_of w NewSchemaLoader in
  let p := known_documents w NewSchemaLoader doc in
  let d := root_draft w NewSchemaLoader doc in
  let s := resolve (w_parse w) (w_inherits w) "" doc in
  let T := leads_to ce p d in
  closed_refs ce p s -> NewSchema w fuel o l = LOk sch sl' ->
  forall v, usual (e_ratlim (w_go w)) v ->
  (forall d' m x, needed T d s v d' (VMap m) x -> assoc "$ref" m = None -> fits (e_ratlim (w_go w)) m x) ->
  (** any judgement obeying the rules *)
  (forall V, meaning_at (pat (w_go w)) (fmt (w_go w)) same T d s v V ->
     forall o' r, fair o' -> returns (w_go w) (s_heap sch) (s_root sch) o' v r -> (Valid r = true <-> V d s v)) /\
  (guarded T d s -> forall o', fair o' ->
     exists r, returns (w_go w) (s_heap sch) (s_root sch) o' v r /\
       (Valid r = true <-> meaning (pat (w_go w)) (fmt (w_go w)) same T d s v)).
Proof.
  intros HU fuel o l doc sch sl' F Hl Hfit EL Hm ND ce p d s T Hcl EC v ORD REG.
  pose proof (new_self_contained w doc ND Hcl) as SC. split.
  - intros V EQ o' r F' [k ER]. destruct SC as (H1 & H2 & H3 & H4).
    eapply (compile_verdict w HU NewSchemaLoader fuel o l doc sch sl'); eauto. eapply LoadJSON_doc_ok; eauto.
  - intros G o' F'. eapply (compile_total w HU NewSchemaLoader fuel o l doc sch sl'); eauto.
Qed.

Theorem compile_same_verdict w : url_laws w -> forall fuel o fuel' o' l doc sch sl sch' sl',
  fair o -> fair o' -> (forall fs s, l <> LRef fs s) -> loader_fit l -> fst (LoadJSON w l) = Some doc ->
  all_numbers (moderate (e_ratlim (w_go w))) doc -> NoDup (map fst (ids_of (w_parse w) (w_inherits w) "" doc)) ->
  let ce := cenv_of w NewSchemaLoader in
  let p := known_documents w NewSchemaLoader doc in
  let d := root_draft w NewSchemaLoader doc in
  let s := resolve (w_parse w) (w_inherits w) "" doc in
  let T := leads_to ce p d in
  closed_refs ce p s -> guarded T d s -> NewSchema w fuel o l = LOk sch sl -> NewSchema w fuel' o' l = LOk sch' sl' ->
  forall v, usual (e_ratlim (w_go w)) v ->
  (forall d' m x, needed T d s v d' (VMap m) x -> assoc "$ref" m = None -> fits (e_ratlim (w_go w)) m x) ->
  forall o1 o2 r1 r2, fair o1 -> fair o2 -> returns (w_go w) (s_heap sch) (s_root sch) o1 v r1 -> returns (w_go w) (s_heap sch') (s_root sch') o2 v r2 ->
  Valid r1 = Valid r2.
Proof.
  intros HU fuel o fuel' o' l doc sch sl sch' sl' F F' Hl Hfit EL Hm ND ce p d s T Hcl G E E' v ORD REG o1 o2 r1 r2 F1 F2 R1 R2.
  destruct (new_total w HU fuel o l doc sch sl F Hl Hfit EL Hm ND Hcl E v ORD REG) as [A _].
  destruct (new_total w HU fuel' o' l doc sch' sl' F' Hl Hfit EL Hm ND Hcl E' v ORD REG) as [B _].
  pose proof (meaning_exists (pat (w_go w)) (fmt (w_go w)) same T d s v (guarded_well_founded _ _ _ G _ _ _ (within_root _ _ _))) as M.
  specialize (A _ M o1 r1 F1 R1). specialize (B _ M o2 r2 F2 R2). destruct (Valid r1), (Valid r2); auto; destruct A, B; intuition congruence.
Qed.

Lemma NewSchema_Compile w fuel o l : NewSchema w fuel o l = Compile w fuel o NewSchemaLoader l.
Proof. reflexivity. Qed.
Theorem compile_no_panic w : url_laws w -> forall fuel o sl l sch sl', fair o -> loader_fit l ->
  (forall r e, assoc r (sl_pool sl) = Some e -> doc_ok (sp_doc e)) -> Compile w fuel o sl l = LOk sch sl' ->
  forall v o', ordinary (e_ratlim (w_go w)) v -> fair o' -> ~ panics (w_go w) (s_heap sch) (s_root sch) o' v.
Proof.
  intros HU fuel o sl l sch sl' F Hl Hs E v o' O F' [k P].
  destruct (Compile_ok w HU fuel o sl l sch sl' F Hl) as (_ & sl0 & d & doc & C & _); auto; [intros r e Er; split; eauto|].
  exact (compiled_no_panic w sl0 sch d doc v k o' _ C O F' P).
Qed.
