(** Everything due (SpecReason.v) is reported by schemas made by Compile. *)
From Coq Require Import Relations Lia.
From Verif Require Export ReasonFetch ReasonComplete.
From Verif Require Import WhyProps.
From Verif Require Export SpecReason.
Open Scope string_scope.
Open Scope list_scope.
Open Scope nat_scope.

Lemma due_refs pat fmt same V (T T' : string -> draft -> value -> Prop) d0 x0 v0 e :
  (forall d m w t, needed T d0 x0 v0 d (VMap m) w -> assoc "$ref" m = Some (VStr t) -> forall d' x, T t d' x -> T' t d' x) ->
  due pat fmt same V T d0 x0 v0 e -> due pat fmt same V T' d0 x0 v0 e.
Proof.
  intros HT (d & x & v & c & P & R). exists d, x, v, c. split; auto. eapply path_refs; eauto.
  intros T0 d' m c' w y z c2 [_ H]. eapply sure_asks; eauto.
Qed.

Lemma tells_refs pat fmt same V (T T' : string -> draft -> value -> Prop) d0 x0 v0 es :
  (forall d m w t, needed T d0 x0 v0 d (VMap m) w -> assoc "$ref" m = Some (VStr t) -> forall d' x, T t d' x <-> T' t d' x) ->
  tells pat fmt same V T d0 x0 v0 es -> tells pat fmt same V T' d0 x0 v0 es.
Proof.
  intros HT (Hn & HJ & HD). split; auto. split.
  - eapply Forall_impl; [|exact HJ]. intros e. apply justified_refs. intros d m w t N E d' x. apply (HT d m w t N E d' x).
  - intros e He. apply HD. eapply due_refs; [|exact He]. intros d m w t N E d' x. apply (HT d m w t); auto. eapply needed_ext_r; eauto.
Qed.

Section Library.
  Variable ce : cenv.
  Variable loc : string -> spd -> Prop.
  Variable kp : pool -> Prop.
  Variable d1 : draft.
  Hypothesis Hset : settled_in loc d1.
  Hypothesis Hdocs : forall r e, loc r e -> doc_ok (sp_doc e) /\ closed_in ce loc (sp_doc e).
  Hypothesis Hfun : forall r e e', loc r e -> loc r e' -> e = e'.
  Hypothesis Hget : forall o r s dsp s', fair o -> kp (st_pool s) -> (exists e, loc r e) -> GetDocument ce o r s = COk dsp s' ->
    kp (st_pool s') /\ loc r dsp.
  Notation leads := (leads_in ce loc).
  Notation lim := (e_ratlim (c_go ce)).

  Theorem lib_due fuel o docref doc p0 id s' :
    kp p0 -> doc_ok doc -> closed_in ce loc doc -> fair o ->
    parse ce fuel o docref d1 doc (CState [] [] p0 []) = COk id s' ->
    forall v V, usual lim v ->
    (forall d m w, needed (leads d1) d1 doc v d (VMap m) w -> assoc "$ref" m = None -> fits lim m w) ->
    meaning_at (pat (c_go ce)) (fmt (c_go ce)) same (leads d1) d1 doc v V ->
    forall o' k r, fair o' -> validateRecursive (c_go ce) (st_heap s') k o' id v ["(root)"] = Ok r ->
    reports_due (due (pat (c_go ce)) (fmt (c_go ce)) same V (leads d1) d1 doc v) (errors r).
  Proof.
    intros HP Hd Hc F E v V ORD REG EQ o' k r F' R e Hw.
    destruct (parse_ok ce (lib_policy ce loc kp d1) (lib_fetch ce loc kp d1 Hdocs Hget) fuel o docref d1 doc p0 id s' F HP (conj Hd Hc) (or_intror eq_refl) E) as (-> & W & L & K & C).
    assert (HT : forall d m w t, needed (target ce s') d1 doc v d (VMap m) w -> assoc "$ref" m = Some (VStr t) ->
      forall d' x, target ce s' t d' x <-> leads d1 t d' x).
    { intros d m w t N Er. apply needed_within in N.
      destruct (within_kid ce (lib_policy ce loc kp d1) s' W C d1 doc 0 K _ _ N) as [[i Ki]|Nm]; [|destruct (Nm m eq_refl)]. eapply lib_same; eauto. }
    assert (REG' : forall d m w, needed (target ce s') d1 doc v d (VMap m) w -> assoc "$ref" m = None -> fits lim m w).
    { intros d m w N Er. eapply REG; [|exact Er]. eapply needed_ext_l; eauto. }
    eapply (due_reported ce (lib_policy ce loc kp d1) s' W C d1 doc v ORD REG'); [eapply meaning_at_refs; eauto|exact K|exists k, o'; eauto|].
    eapply due_refs; [|exact Hw]. intros d m w t N Er d' x H. apply (HT d m w t); auto. eapply needed_ext_r; eauto.
  Qed.
End Library.

Section Source.
  Variable w : world.
  Hypothesis HU : url_laws w.
  Hypothesis HW : web_laws w.
  Notation lim := (e_ratlim (w_go w)).
  Notation its T := (meaning (pat (w_go w)) (fmt (w_go w)) same T).

  (** For any V that says what the schemas mean. *)
  Theorem comes_due_at fuel o sl l p doc sch sl' : docs_ok w p doc -> comes_to w fuel o sl l p doc ->
    let d := root_draft w sl doc in
    all_found (view w sl l) p doc -> settled_in (found (view w sl l) p doc) d ->
    Compile w fuel o sl l = LOk sch sl' ->
    let T := heads_to (view w sl l) p doc d in
    forall v V, meaning_at (pat (w_go w)) (fmt (w_go w)) same T d doc v V -> usual lim v ->
    (forall d' m x, needed T d doc v d' (VMap m) x -> assoc "$ref" m = None -> fits lim m x) ->
    forall o' r, fair o' -> returns (w_go w) (s_heap sch) (s_root sch) o' v r ->
    reports_due (due (pat (w_go w)) (fmt (w_go w)) same V T d doc v) (errors r).
  Proof.
    intros (H1 & H2 & H3) (p1 & o1 & ref & F1 & Gr & EC) d Hc Hset E T v V M ORD REG o' r F' (k & R).
    pose proof (web_fetch_laws w (with_factory (LoaderFactory l) sl) HU HW) as HL. fold (view w sl l) in HL. rewrite E in EC.
    destruct (parse (view w sl l) fuel o1 ref _ doc _) as [id s|e s| |] eqn:EP; try discriminate EC. injection EC as -> ->. cbn [s_heap s_root] in *.
    apply (lib_due (view w sl l) (found (view w sl l) p doc) (grown (view w sl l) p) d Hset (found_docs (view w sl l) HL p H1 doc H2 Hc) (found_fun (view w sl l) p doc)
      (found_get (view w sl l) HL p H1 doc H2) fuel o1 ref doc p1 id s Gr H2 (found_closed (view w sl l) p doc Hc) F1 EP v _ ORD REG M o' k r F' R).
  Qed.
  Theorem comes_due fuel o sl l p doc sch sl' : docs_ok w p doc -> comes_to w fuel o sl l p doc ->
    let d := root_draft w sl doc in
    all_found (view w sl l) p doc -> settled_in (found (view w sl l) p doc) d ->
    Compile w fuel o sl l = LOk sch sl' ->
    let T := heads_to (view w sl l) p doc d in
    guarded T d doc ->
    forall v, usual lim v ->
    (forall d' m x, needed T d doc v d' (VMap m) x -> assoc "$ref" m = None -> fits lim m x) ->
    forall o' r, fair o' -> returns (w_go w) (s_heap sch) (s_root sch) o' v r ->
    reports_due (due (pat (w_go w)) (fmt (w_go w)) same (its T) T d doc v) (errors r).
  Proof.
    intros D C d Hc Hset E T G v. apply (comes_due_at fuel o sl l p doc sch sl' D C Hc Hset E v).
    apply meaning_exists. eapply guarded_well_founded; [exact G|constructor].
  Qed.
  Theorem source_due fuel o sl l p doc sch sl' :
    fair o -> loader_fit l -> sl_ok sl -> sl_validate sl = false -> source w sl l p doc ->
    let d := root_draft w sl doc in
    all_found (view w sl l) p doc -> settled_in (found (view w sl l) p doc) d ->
    Compile w fuel o sl l = LOk sch sl' ->
    let T := heads_to (view w sl l) p doc d in
    guarded T d doc ->
    forall v, usual lim v ->
    (forall d' m x, needed T d doc v d' (VMap m) x -> assoc "$ref" m = None -> fits lim m x) ->
    forall o' r, fair o' -> returns (w_go w) (s_heap sch) (s_root sch) o' v r ->
    reports_due (due (pat (w_go w)) (fmt (w_go w)) same (its T) T d doc v) (errors r).
  Proof.
    intros F Hfit Hs Hv S. destruct (compile_source w HU HW fuel o sl l p doc F Hfit Hs Hv S) as [D C]. apply (comes_due fuel o sl l p doc sch sl' D C).
  Qed.
End Source.
