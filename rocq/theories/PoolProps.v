(** Adding documents to a SchemaLoader, place by place. *)
From Verif Require Export ResolveFacts.
From Coq Require Import Lia.
Open Scope nat_scope.

Section Adding.
  Variable w : world.
  Hypothesis HW : url_laws w.
  Notation resolve := (resolve (w_parse w) (w_inherits w)).
  Notation ids_of := (ids_of (w_parse w) (w_inherits w)).
  Notation position := (position (w_parse w) (w_inherits w)).
  Notation scope := (scope (w_parse w) (w_inherits w)).
  Notation new_scope := (new_scope (w_parse w) (w_inherits w)).
  Notation absolute := (absolute (w_parse w) (w_inherits w)).

  (** The document loads, is new, and so are the identifiers in it. *)
  Definition addable (sl : sloader) (url : string) (l : loader) (ref : string) (doc : value) : Prop :=
    w_parse w url = Some ref /\ loader_fit l /\ fst (LoadJSON w l) = Some doc /\ all_numbers (moderate (e_ratlim (w_go w))) doc /\
    sl_validate sl = false /\ (sl_auto sl = true -> well_declared (w_parse w) doc) /\
    assoc ref (sl_pool sl) = None /\
    (forall p b m r, position ref doc p b (VMap m) -> new_scope b m = Some r -> assoc r (sl_pool sl) = None) /\
    NoDup (map fst (ids_of ref doc)).
  Definition added_draft (sl : sloader) (doc : value) : option draft := if sl_auto sl then named_draft (w_parse w) doc else None.

  Lemma addable_fresh sl url l ref doc : addable sl url l ref doc -> doc_ok doc /\ fresh (sl_pool sl) (ids_of ref doc).
  Proof.
    intros (_ & Hl & EL & _ & _ & _ & _ & HN & ND). assert (Hd : doc_ok doc) by (eapply LoadJSON_doc_ok; eauto). split; auto. split; auto.
    intros r Hr. apply in_map_iff in Hr. destruct Hr as ([r' x] & <- & Hr). cbn [fst]. apply ids_positions in Hr; auto. destruct Hr as (p & b & m & P & E & _). eauto.
  Qed.
  Lemma fresh_addable sl ref doc : doc_ok doc -> fresh (sl_pool sl) (ids_of ref doc) ->
    (forall p b m r, position ref doc p b (VMap m) -> new_scope b m = Some r -> assoc r (sl_pool sl) = None) /\ NoDup (map fst (ids_of ref doc)).
  Proof.
    intros Hd [ND HF]. split; auto. intros p b m r P E. apply HF. change r with (fst (r, resolve b (VMap m))). apply in_map. apply ids_positions; eauto 6.
  Qed.
  Lemma AddSchema_registers fuel o sl url l ref doc : fair o -> addable sl url l ref doc ->
    exists sl', AddSchema w fuel o url l sl = LOk tt sl' /\ assoc ref (sl_pool sl') = Some (Spd (resolve ref doc) (added_draft sl doc)) /\
      forall r e, r <> ref -> (assoc r (sl_pool sl') = Some e <-> assoc r (sl_pool sl) = Some e \/ exists x, In (r, x) (ids_of ref doc) /\ e = Spd x (added_draft sl doc)).
  Proof.
    intros F A. destruct (addable_fresh _ _ _ _ _ A) as [Hd Hf]. destruct A as (E1 & Hl & EL & Hn & Ev & Hw & Er & _ & _).
    destruct HW as (_ & U2 & _).
    destruct (parseReferences_resolves (cenv_of w sl) U2 (shift o 1) doc ref true (sl_pool sl)) as (p' & A & E'); auto; [apply shift_fair; auto|].
    unfold AddSchema. rewrite E1, EL, Ev. cbn [lbind]. unfold pool_parseReferences. cbn [w_parse w_inherits cenv_of u_parse u_inherits] in *. rewrite E'. cbn [run_out lbind pr_err pr_doc pr_pool].
    eexists. split; [reflexivity|]. cbn [sl_pool with_pool]. split; [rewrite assoc_aset, String.eqb_refl; reflexivity|].
    intros r e Hr. rewrite assoc_aset. destruct (String.eqb_spec r ref); [congruence|]. exact (A r e).
  Qed.

  (** References: each made absolute, nothing else touched. *)
  Theorem AddSchema_references fuel o sl url l ref doc : fair o -> addable sl url l ref doc ->
    exists sl' D, AddSchema w fuel o url l sl = LOk tt sl' /\ assoc ref (sl_pool sl') = Some (Spd D (added_draft sl doc)) /\
      (forall p b m s, position ref doc p b (VMap m) -> assoc "$ref" m = Some (VStr s) ->
         at_path (p ++ [Key "$ref"]) D = Some (VStr (absolute (scope b m) s))) /\
      (forall p, (forall q b m s, position ref doc q b (VMap m) -> assoc "$ref" m = Some (VStr s) -> p <> q ++ [Key "$ref"]) ->
         option_map top (at_path p D) = option_map top (at_path p doc)).
  Proof.
    intros F A. destruct (AddSchema_registers fuel o sl url l ref doc F A) as (sl' & E & E1 & _). exists sl', (resolve ref doc). split; auto. split; auto. split.
    - intros p b m s. apply reference_resolved.
    - intros p. apply rest_untouched.
  Qed.
  (** Identifiers: each registered with its subschema, nothing else. *)
  Theorem AddSchema_identifiers fuel o sl url l ref doc : fair o -> addable sl url l ref doc ->
    exists sl' D, AddSchema w fuel o url l sl = LOk tt sl' /\ assoc ref (sl_pool sl') = Some (Spd D (added_draft sl doc)) /\
      forall r e, r <> ref -> (assoc r (sl_pool sl') = Some e <-> assoc r (sl_pool sl) = Some e \/
        exists p b m x, position ref doc p b (VMap m) /\ new_scope b m = Some r /\ at_path p D = Some x /\ e = Spd x (added_draft sl doc)).
  Proof.
    intros F A. pose proof (addable_fresh _ _ _ _ _ A) as [Hd _]. destruct (AddSchema_registers fuel o sl url l ref doc F A) as (sl' & E & E1 & E2). exists sl', (resolve ref doc). split; auto. split; auto.
    intros r e Hr. rewrite (E2 r e Hr). split; (intros [H|H]; [left; auto|right]).
    - destruct H as (x & Hx & ->). apply ids_positions in Hx; auto. destruct Hx as (p & b & m & P & S & ->). exists p, b, m, (resolve b (VMap m)). split; auto. split; auto. split; auto.
      eapply position_resolved; eauto. discriminate.
    - destruct H as (p & b & m & x & P & S & Ex & ->). assert (Ex' : x = resolve b (VMap m)).
      { assert (H : at_path p (resolve ref doc) = Some (resolve b (VMap m))) by (eapply position_resolved; eauto; discriminate). congruence. }
      exists x. split; auto. apply ids_positions; auto. eauto 6.
  Qed.
  (** "const" and "enum": kept, and never a place for schemas. *)
  Theorem AddSchema_literals fuel o sl url l ref doc : fair o -> addable sl url l ref doc ->
    exists sl' D, AddSchema w fuel o url l sl = LOk tt sl' /\ assoc ref (sl_pool sl') = Some (Spd D (added_draft sl doc)) /\
      (forall p b m k x, position ref doc p b (VMap m) -> is_literal k = true -> assoc k m = Some x ->
         at_path (p ++ [Key k]) D = Some x /\
         forall q b' x', ~ position ref doc (p ++ Key k :: q) b' x') /\
      (forall r e, r <> ref -> assoc r (sl_pool sl) = None -> assoc r (sl_pool sl') = Some e ->
         exists p b m, position ref doc p b (VMap m) /\ new_scope b m = Some r).
  Proof.
    intros F A. destruct (AddSchema_identifiers fuel o sl url l ref doc F A) as (sl' & D & E & E1 & E2).
    destruct (AddSchema_registers fuel o sl url l ref doc F A) as (sl2 & E' & E1' & _). rewrite E' in E. injection E as ->.
    assert (D = resolve ref doc) by congruence. subst D. exists sl', (resolve ref doc). split; auto. split; auto. split.
    - intros p b m k x P L Ek. split; [eapply literal_untouched; eauto|]. intros q b' x' P'. pose proof (no_schema_below _ _ _ _ _ _ _ P _ _ _ _ P'). congruence.
    - intros r e Hr N H. apply E2 in H; auto. destruct H as [H|(p & b & m & x & P & S & _)]; [congruence|]. eauto.
  Qed.

  Theorem AddSchema_literal_keys fuel o sl url l ref doc : fair o -> addable sl url l ref doc ->
    exists sl' D, AddSchema w fuel o url l sl = LOk tt sl' /\ assoc ref (sl_pool sl') = Some (Spd D (added_draft sl doc)) /\
      (forall p b m k x, position ref doc p b (VMap m) -> k = "const" \/ k = "enum" -> assoc k m = Some x ->
         at_path (p ++ [Key k]) D = Some x /\
         forall q b' x', ~ position ref doc (p ++ Key k :: q) b' x') /\
      (forall r e, r <> ref -> assoc r (sl_pool sl) = None -> assoc r (sl_pool sl') = Some e ->
         exists p b m, position ref doc p b (VMap m) /\ new_scope b m = Some r).
  Proof.
    intros F A. destruct (AddSchema_literals fuel o sl url l ref doc F A) as (sl' & D & E & E1 & H1 & H2). exists sl', D. split; auto. split; auto. split; auto.
    intros p b m k x P K Ek. apply (H1 p b m k x); auto. destruct K as [->| ->]; reflexivity.
  Qed.

  (** A document whose own identifier is known already is refused. *)
  Lemma refs_id_exists o sl doc m r ref pooled : doc = VMap m -> doc_ok doc -> all_numbers (moderate (e_ratlim (w_go w))) doc -> new_scope ref m = Some r -> assoc r (sl_pool sl) <> None ->
    match pool_parseReferences w o doc ref pooled sl with LOk _ _ => False | _ => True end.
  Proof.
    intros -> Hd Hm E Er. unfold pool_parseReferences. destruct (parseReferences _ _ _ _ _ _) as [q| |] eqn:EQ; cbn [run_out lbind]; auto.
    destruct (pr_err q) eqn:Ee; auto. exfalso. unfold parseReferences in EQ. destruct (pooled && _)%bool; [injection EQ as <-; discriminate|].
    apply obind_ok in EQ. destruct EQ as ([e|d] & _ & EQ); [injection EQ as <-; discriminate|]. apply obind_ok in EQ. destruct EQ as (q' & EQ & E2).
    cbn [parseReferencesRecursive] in EQ. unfold parseReferencesNode in EQ. rewrite (declared_id_scope (cenv_of w sl) (proj1 (proj2 HW))) in EQ by assumption. cbn [obind] in EQ.
    cbn [cenv_of u_parse u_inherits] in EQ. rewrite E in EQ. destruct (assoc r (sl_pool sl)); [|congruence]. injection EQ as <-. destruct pooled; injection E2 as <-; discriminate.
  Qed.
  Theorem AddSchema_id_exists fuel o sl url l ref m r : w_parse w url = Some ref -> loader_fit l -> fst (LoadJSON w l) = Some (VMap m) -> all_numbers (moderate (e_ratlim (w_go w))) (VMap m) ->
    new_scope ref m = Some r -> assoc r (sl_pool sl) <> None ->
    match AddSchema w fuel o url l sl with LOk _ _ => False | _ => True end.
  Proof.
    intros E1 Hl EL Hm E Er. assert (Hd : doc_ok (VMap m)) by (eapply LoadJSON_doc_ok; eauto). unfold AddSchema. rewrite E1, EL.
    assert (K : after (keeps sl) (if sl_validate sl then validateMetaschema w fuel (shift o 0) sl (VMap m) else LOk tt sl)) by (destruct (sl_validate sl); [apply meta_keeps|cbn; auto]).
    destruct (if sl_validate sl then _ else _) as [[] sl1|e1 sl1| |]; cbn [lbind]; auto. destruct K as (K & _).
    assert (Er1 : assoc r (sl_pool sl1) <> None) by (destruct (assoc r (sl_pool sl)) as [e|] eqn:X; [rewrite (K _ _ X); discriminate|congruence]).
    pose proof (refs_id_exists (shift o 1) sl1 _ m r ref true eq_refl Hd Hm E Er1) as N. destruct (pool_parseReferences _ _ _ _ _ _); cbn [lbind]; auto.
  Qed.
  Theorem AddSchemas_id_exists fuel ls : forall o sl l m r, In l ls -> loader_fit l -> fst (LoadJSON w l) = Some (VMap m) -> all_numbers (moderate (e_ratlim (w_go w))) (VMap m) ->
    new_scope "" m = Some r -> assoc r (sl_pool sl) <> None ->
    match AddSchemas w fuel o ls sl with LOk _ _ => False | _ => True end.
  Proof.
    induction ls as [|l0 ls IH]; intros o sl l m r Hin Hl EL Hm E Er; [destruct Hin|]. cbn [AddSchemas]. destruct (fst (LoadJSON w l0)) as [doc|] eqn:EL0; [|exact I].
    assert (K : after (keeps sl) (if sl_validate sl then validateMetaschema w fuel (shift o 0) sl doc else LOk tt sl)) by (destruct (sl_validate sl); [apply meta_keeps|cbn; auto]).
    destruct (if sl_validate sl then _ else _) as [[] sl1|e1 sl1| |]; cbn [lbind]; auto. destruct K as (K & _).
    assert (Er1 : assoc r (sl_pool sl1) <> None) by (destruct (assoc r (sl_pool sl)) as [e|] eqn:X; [rewrite (K _ _ X); discriminate|congruence]).
    pose proof (after_refs w (shift o 1) doc "" false sl1) as K2.
    destruct Hin as [<-|Hin].
    - rewrite EL in EL0. injection EL0 as <-. assert (Hd : doc_ok (VMap m)) by (eapply LoadJSON_doc_ok; eauto).
      pose proof (refs_id_exists (shift o 1) sl1 _ m r "" false eq_refl Hd Hm E Er1) as N. destruct (pool_parseReferences _ _ _ _ _ _); cbn [lbind]; auto. destruct N.
    - destruct (pool_parseReferences _ _ _ _ _ _) as [v sl2|e2 sl2| |]; cbn [lbind]; auto. destruct K2 as (K2 & _). eapply IH; eauto.
      destruct (assoc r (sl_pool sl1)) as [e|] eqn:X; [rewrite (K2 _ _ X); discriminate|congruence].
  Qed.

  (** A registered URL keeps its document, and lookups find it. *)
  Theorem registered_stays sl sl' r e : history w sl sl' -> assoc r (sl_pool sl) = Some e ->
    assoc r (sl_pool sl') = Some e /\
    forall o h src refs, GetDocument (cenv_of w sl') o r (CState h src (sl_pool sl') refs) = COk e (CState h src (sl_pool sl') refs).
  Proof.
    intros H E. assert (E' : assoc r (sl_pool sl') = Some e) by (exact (history_grows w sl sl' H r e E)). split; auto.
    intros o h src refs. unfold GetDocument, cbind, get_pool. cbn [st_pool]. rewrite E'. reflexivity.
  Qed.

  (** One Compile of a document not given by reference, and there is no other. *)
  Theorem Compile_once fuel o sl l sch sl1 : (forall fs s, l <> LRef fs s) -> Compile w fuel o sl l = LOk sch sl1 ->
    forall sl2, history w sl1 sl2 -> forall fuel2 o2 l2, (forall fs s, l2 <> LRef fs s) -> fst (LoadJSON w l2) <> None ->
    Compile w fuel2 o2 sl2 l2 = LErr (EExists "") (with_factory 0 sl2).
  Proof.
    intros Hl EC sl2 H fuel2 o2 l2 Hl2 HL. assert (X : exists e, assoc "" (sl_pool sl1) = Some e).
    { unfold Compile in EC. apply lbind_ok in EC. destruct EC as (rd & s1 & E1 & EC). destruct (compile_doc_registers w _ _ _ _ _ HW Hl E1) as [e Ee].
      apply lbind_ok in EC. destruct EC as ([] & s2 & E2 & EC). exists e.
      assert (K : after (keeps s1) (if sl_validate s1 then validateMetaschema w fuel (shift o 1) s1 (snd rd) else LOk tt s1)) by (destruct (sl_validate s1); [apply meta_keeps|cbn; auto]).
      rewrite E2 in K. pose proof (compile_parse_keeps w fuel (shift o 2) s2 (fst rd) (snd rd)) as K2. rewrite EC in K2. apply K2, K, Ee. }
    destruct X as [e E]. eapply Compile_exists; eauto. exact (history_grows w _ _ H _ _ E).
  Qed.
End Adding.
