(** Compiling through any loader: the documents in the pool, the shape of the
    compiled schema, and validation without panics. *)
From Verif Require Export LoadFacts ValidatePanic.
From Coq Require Import Lia.
Open Scope nat_scope.

Lemma decode_opt_doc_ok t v : match t with Some s => decode_use_number s | None => None end = Some v -> doc_ok v.
Proof. destruct t; [apply decode_doc_ok|discriminate]. Qed.
Lemma loadFromHTTP_doc_ok w a v : loadFromHTTP w a = Some v -> doc_ok v.
Proof.
  unfold loadFromHTTP. destruct (negb _); [apply decode_doc_ok|]. destruct (w_http w a); [apply decode_doc_ok|discriminate].
Qed.
Lemma loadReference_doc_ok w fs s v : loadReference w fs s = Some v -> doc_ok v.
Proof.
  unfold loadReference. destruct (w_parse w s) as [r|]; [|discriminate]. destruct (w_file w _) as [[p|]|]; [|discriminate|apply loadFromHTTP_doc_ok].
  unfold loadFromFile. destruct (w_fs w fs p); [apply decode_doc_ok|discriminate].
Qed.
Lemma cenv_fetch_ok w sl : fetch_ok (cenv_of w sl) (fun _ => True).
Proof.
  intros r v E. split; [exact (loadReference_doc_ok _ _ _ _ E)|]. split; [intros _ u x _; exact I|]. intros o base p q _ _ u x _. exact I.
Qed.

(** What the caller hands over: text in reference loaders, and JSON values (not
    arbitrary Go values) in raw loaders. *)
Definition loader_fit (l : loader) : Prop :=
  match l with LRef _ s => utf8_text s | LRaw v => doc_ok v | _ => True end.
Definition sl_ok (sl : sloader) : Prop := pool_ok (fun _ => True) (sl_pool sl).
Lemma sl_ok_new : sl_ok NewSchemaLoader.
Proof. intros r e E. discriminate. Qed.

Lemma LoadJSON_doc_ok w l v : loader_fit l -> fst (LoadJSON w l) = Some v -> doc_ok v.
Proof.
  destruct l as [s|s|x|s|x|fs s]; cbn [LoadJSON fst loader_fit]; intros H E; try (eapply decode_doc_ok; eauto; fail).
  - destruct (marshal x); [eapply decode_doc_ok; eauto|discriminate].
  - injection E as <-. auto.
  - eapply loadReference_doc_ok; eauto.
Qed.

(** The compiled schema: its cells and what they come from. *)
Definition compiled (w : world) (sl : sloader) (sch : schema) (d : draft) (doc : value) : Prop :=
  s_heap sch = st_heap (s_state sch) /\ s_root sch = 0 /\
  wf (cenv_of w sl) (draft_policy (fun _ => True)) (s_state sch) /\ kid (s_state sch) 0 d doc /\
  forall j, j < length (s_heap sch) -> cell (cenv_of w sl) (s_state sch) j.

Definition goodb (k : chunk) : bool :=
  match k with
  | C1 a => byte_in 0 127 a
  | C2 a b => valid2 a b
  | C3 a b c => valid3 a b c
  | C4 a b c d => valid4 a b c d
  | CBad _ => false
  end.
Lemma utf8_checked s : forallb goodb (chunks s) = true -> utf8_text s.
Proof.
  intros H. apply utf8_text_iff. rewrite forallb_forall in H. apply Forall_forall. intros k Hk. specialize (H k Hk).
  destruct k; simpl in *; congruence.
Qed.

Section Any.
  Variable w : world.
  Hypothesis HU : url_laws w.

  Lemma pool_parseReferences_ok o doc ref pooled sl doc' sl' : fair o -> doc_ok doc -> utf8_text ref -> sl_ok sl ->
    pool_parseReferences w o doc ref pooled sl = LOk doc' sl' ->
    doc_ok doc' /\ sl_ok sl' /\ sl' = with_pool (sl_pool sl') sl.
  Proof.
    intros F Hd Ht Hs E. unfold pool_parseReferences in E. apply lbind_ok in E. destruct E as (r & sl1 & E & Er). apply run_out_ok in E. destruct E as [E ->].
    destruct (pr_err r); [discriminate|]. injection Er as <- <-.
    eapply (parseReferences_docs _ (fun _ => True) (url_laws_text _ _ HU)) in E; auto; try (intros _ u x _; exact I).
    destruct E as [E1 E2]. exact (conj E1 (conj E2 eq_refl)).
  Qed.

  Lemma compile_doc_ok o sl l rd sl1 : fair o -> loader_fit l -> sl_ok sl -> compile_doc w o sl l = LOk rd sl1 ->
    doc_ok (snd rd) /\ sl_ok sl1 /\ sl1 = with_pool (sl_pool sl1) (with_factory (LoaderFactory l) sl).
  Proof.
    intros F Hl Hs E. unfold compile_doc in E. destruct (JsonReference w l) as [ref|] eqn:EJ; [|discriminate].
    destruct (negb (String.eqb ref "")) eqn:En.
    - assert (Ht : utf8_text ref).
      { destruct HU as (U1 & _ & U3 & _). destruct l; cbn [JsonReference] in EJ; try (rewrite U1 in EJ; injection EJ as <-; discriminate En). eapply U3; eauto. }
      apply lbind_ok in E. destruct E as ([dsp s'] & sl2 & E & Er). injection Er as <- <-. apply run_comp_ok in E. destruct E as [E ->].
      apply (GetDocument_docs _ (fun _ => True) (url_laws_text _ _ HU)) in E; auto; [|apply cenv_fetch_ok|apply shift_fair; auto].
      destruct E as (E1 & E2 & _). cbn [snd fst]. exact (conj E2 (conj E1 eq_refl)).
    - destruct (fst (LoadJSON w l)) as [doc|] eqn:EL; [|discriminate]. apply lbind_ok in E. destruct E as (doc' & sl2 & E & Er). injection Er as <- <-.
      apply negb_false_iff, String.eqb_eq in En. subst ref.
      apply pool_parseReferences_ok in E; auto using shift_fair, utf8_empty; try (eapply LoadJSON_doc_ok; eauto).
  Qed.

  Lemma compile_parse_ok fuel o sl ref doc sch sl' : fair o -> doc_ok doc -> sl_ok sl -> compile_parse w fuel o sl ref doc = LOk sch sl' ->
    sl_ok sl' /\ sl' = with_pool (sl_pool sl') sl /\ exists d, compiled w sl sch d doc.
  Proof.
    intros F Hd Hs E. unfold compile_parse in E. apply lbind_ok in E. destruct E as (d & sl1 & E1 & E).
    assert (sl1 = sl).
    { destruct (sl_auto sl); [|injection E1; auto]. apply lbind_ok in E1. destruct E1 as (r & sl2 & E1 & E2). apply run_out_ok in E1. destruct E1 as [_ ->].
      destruct r as [e|[u [x|]]]; [discriminate| |]; injection E2; auto. }
    subst sl1. apply lbind_ok in E. destruct E as ([id s'] & sl2 & E2 & E). injection E as <- <-. apply run_comp_ok in E2. destruct E2 as [E2 ->].
    pose proof (draft_policy_fetch (cenv_of w sl) (fun _ => True) (url_laws_text _ _ HU) (cenv_fetch_ok w sl)) as HG.
    apply (parse_ok _ _ HG) in E2; [|apply shift_fair; auto|exact Hs|split; [auto|exact I]|exact I]. destruct E2 as (-> & W & L & K & C).
    assert (HP : sl_ok (with_pool (st_pool s') sl)) by (destruct W as (_ & W & _); exact W).
    split; auto. split; [reflexivity|]. exists d. split; [reflexivity|]. split; [reflexivity|]. split; auto.
  Qed.

  Lemma Compile0_ok fuel o sl l sch sl' : fair o -> loader_fit l -> sl_ok sl -> Compile0 w fuel o sl l = LOk sch sl' ->
    sl_ok sl' /\ sl' = with_pool (sl_pool sl') (with_factory (LoaderFactory l) sl) /\ exists d doc, compiled w (with_factory (LoaderFactory l) sl) sch d doc.
  Proof.
    intros F Hl Hs E. unfold Compile0 in E. apply lbind_ok in E. destruct E as (rd & sl1 & E1 & E). apply compile_doc_ok in E1; auto.
    destruct E1 as (D1 & S1 & Q1). apply compile_parse_ok in E; auto. destruct E as (S2 & Q2 & d & C). split; auto. split.
    - rewrite Q2, Q1. reflexivity.
    - exists d, (snd rd). rewrite Q1 in C. exact C.
  Qed.

  Definition meta_urls_text : Prop := forall d, utf8_text (GetSchemaURL d).
  Lemma meta_text : meta_urls_text.
  Proof. intros d. apply utf8_checked. destruct d; vm_compute; reflexivity. Qed.

  Lemma validateMetaschema_ok fuel o sl doc sl' : fair o -> doc_ok doc -> sl_ok sl -> sl_validate sl = true -> validateMetaschema w fuel o sl doc = LOk tt sl' ->
    sl_ok sl' /\ (sl' = sl \/ sl' = with_pool (sl_pool sl') (with_factory 0 sl)).
  Proof.
    intros F Hd Hs Hv E. unfold validateMetaschema in E. apply lbind_ok in E. destruct E as (url & sl1 & E1 & E).
    assert (H1 : sl1 = sl /\ utf8_text url).
    { destruct (sl_auto sl); [|injection E1 as <- <-; auto using utf8_empty]. apply lbind_ok in E1. destruct E1 as (r & sl2 & E1 & E2). apply run_out_ok in E1. destruct E1 as [E1 ->].
      destruct r as [e|[u x]]; [discriminate|]. injection E2 as <- <-. split; auto. unfold parseSchemaURL in E1.
      apply obind_ok in E1. destruct E1 as (b & _ & E1). destruct b; [injection E1 as <- <-; apply utf8_empty|].
      apply obind_ok in E1. destruct E1 as (b & _ & E1). destruct (negb b); [discriminate|]. destruct doc as [| | | | | |m|]; try discriminate.
      destruct (assoc "$schema" m) as [y|] eqn:Ea; [|injection E1 as <- <-; apply utf8_empty]. apply obind_ok in E1. destruct E1 as (c & _ & E1).
      destruct (negb c); [discriminate|]. destruct y as [| | | |s| | |]; try discriminate. destruct (u_parse _ s) as [r|] eqn:Eu; [|discriminate]. injection E1 as <- <-.
      destruct HU as (_ & _ & U & _). eapply U; [|exact Eu]. pose proof (doc_ok_assoc _ _ _ Hd Ea) as [_ [Hy _]]. inversion Hy; auto. }
    destruct H1 as [-> Ht]. destruct (String.eqb url "" && _)%bool; [injection E as <-; auto|].
    apply lbind_ok in E. destruct E as (sch & sl2 & E2 & E). apply Compile0_ok in E2; [|apply shift_fair; auto| |exact Hs].
    2: { cbn [loader_fit]. destruct (String.eqb url ""); [apply meta_text|auto]. }
    destruct E2 as (S2 & Q2 & _). apply lbind_ok in E. destruct E as (r & sl3 & E3 & E). apply run_out_ok in E3. destruct E3 as [_ ->].
    destruct (Valid r); [|discriminate]. injection E as <-. split; [exact S2|]. right. rewrite Q2. cbn. unfold with_pool, with_factory, with_validate. cbn. rewrite Hv. reflexivity.
  Qed.

  Theorem Compile_ok fuel o sl l sch sl' : fair o -> loader_fit l -> sl_ok sl -> Compile w fuel o sl l = LOk sch sl' ->
    sl_ok sl' /\ exists sl0 d doc, compiled w sl0 sch d doc /\ sl_auto sl0 = sl_auto sl.
  Proof.
    intros F Hl Hs E. unfold Compile in E. apply lbind_ok in E. destruct E as (rd & sl1 & E1 & E). apply compile_doc_ok in E1; auto; [|apply shift_fair; auto].
    destruct E1 as (D1 & S1 & Q1). apply lbind_ok in E. destruct E as ([] & sl2 & E2 & E).
    assert (H2 : sl_ok sl2 /\ sl_auto sl2 = sl_auto sl).
    { destruct (sl_validate sl1) eqn:Ev; [|injection E2 as <-; rewrite Q1 in *; auto].
      apply validateMetaschema_ok in E2; auto; [|apply shift_fair; auto]. destruct E2 as [E2 [-> |Q]]; split; auto; [|rewrite Q]; rewrite Q1; reflexivity. }
    destruct H2 as [S2 A2]. apply compile_parse_ok in E; auto; [|apply shift_fair; auto]. destruct E as (S3 & Q3 & d & C).
    split; auto. exists sl2, d, (snd rd). auto.
  Qed.
End Any.

(** *** Validation with a compiled schema does not panic on ordinary instances *)
Lemma compiled_heap_ok w sl sch d doc : compiled w sl sch d doc -> heap_ok (s_heap sch) /\ 0 < length (s_heap sch).
Proof.
  intros (EH & _ & W & K & C). destruct W as (L & _). split.
  - apply Forall_forall. intros n Hn. apply In_nth_error in Hn. destruct Hn as [j Hj].
    assert (Hl : j < length (s_heap sch)) by (apply nth_error_Some; congruence).
    destruct (C j Hl) as (n' & d' & x' & E & _ & N & _). rewrite EH in *. rewrite E in Hj. injection Hj as <-. exact N.
  - rewrite EH, <- L. apply nth_error_Some. unfold kid in K. congruence.
Qed.

Lemma ordinary_demands env n v : ordinary (e_ratlim env) v -> demands env n v.
Proof.
  intros O. pose proof O as ([Hs Hp] & Hr & Hm). split; [|split].
  - intros _ E. destruct (mwn_some v Hs Hr) as [t Et]. congruence.
  - intros _. destruct v; try exact I. destruct (ordinary_num _ _ O) as (_ & q & E & _). unfold readable. congruence.
  - destruct v as [| | | | |l|m|m]; auto; try discriminate Hp. intros _. apply Forall_forall. intros x Hx.
    destruct (ordinary_arr _ _ _ O Hx) as ([Hsx _] & Hrx & _). intros E. destruct (mwn_some x Hsx Hrx) as [t Et]. congruence.
Qed.
Lemma ordinary_steps lim n v id v' : ordinary lim v -> steps n v id v' -> ordinary lim v'.
Proof.
  intros O [_ S]. destruct (n_ref n); [destruct S as [_ ->]; auto|]. destruct S as [| | |m id k x E Hx]; auto.
  - eapply ordinary_arr; eauto.
  - eapply ordinary_map in H0; eauto. tauto.
  - eapply ordinary_map in Hx; eauto. tauto.
Qed.
Lemma ordinary_visits lim h id0 v0 id v : ordinary lim v0 -> visits h id0 v0 id v -> ordinary lim v.
Proof. intros O V. induction V; auto. eapply ordinary_steps; eauto. Qed.

Theorem compiled_no_panic w sl sch d doc v k o c : compiled w sl sch d doc -> ordinary (e_ratlim (w_go w)) v -> fair o ->
  validateRecursive (w_go w) (s_heap sch) k o (s_root sch) v c <> Panic.
Proof.
  intros C O F. destruct (compiled_heap_ok _ _ _ _ _ C) as [H1 H2]. destruct C as (_ & -> & _).
  apply validateRecursive_no_panic; auto. intros id n x _ V. apply ordinary_demands. eapply ordinary_visits; eauto.
Qed.
