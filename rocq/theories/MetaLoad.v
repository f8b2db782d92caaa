(** A loader that validates schemas: what it accepts, and what it compiles. *)
From Verif Require Export MetaDrafts.
From Coq Require Import Lia.
Open Scope string_scope.
Open Scope list_scope.
Open Scope nat_scope.

Lemma draft_eq_dec (a b : draft) : {a = b} + {a <> b}.
Proof. decide equality. Qed.

Section Checked.
  Variable w : world.
  Hypothesis HU : url_laws w.
  Hypothesis HW : web_laws w.
  Hypothesis HM : meta_urls w.
  Notation lim := (e_ratlim (w_go w)).
  Hypothesis Hlim : (0 <= lim)%Z.
  (** Fuel for the validation of doc against the meta-schema of d. *)
  Definition meta_enough (d : draft) (doc : value) (fuel : nat) : Prop := meta_fuel d < fuel /\ vsize doc * S META_DEPTH + META_DEPTH <= fuel.

  Lemma with_validate_same sl : sl_validate sl = true -> with_validate true sl = sl.
  Proof. destruct sl. cbn. intros ->. reflexivity. Qed.
  Lemma no_meta fuel o sl doc : usual lim doc -> (sl_auto sl = true -> well_declared (w_parse w) doc) -> meta_url w sl doc = "" ->
    validateMetaschema w fuel o sl doc = LOk tt sl.
  Proof. intros [H1 H2] Hw E. rewrite (meta_run w fuel o sl doc H1 H2 Hw), E. reflexivity. Qed.

  (** Compile with Validate on. *)
  Theorem compile_checked fuel o sl l p doc d : fair o -> loader_fit l -> sl_ok sl -> sl_validate sl = true -> sl_auto sl = true -> LoaderFactory l = 0 ->
    source w sl l p doc -> meta_intact p -> ordinary lim doc -> meta_url w sl doc = meta_at d -> meta_enough d doc fuel ->
    docs_ok w p doc /\
    ((d = Hybrid \/ conforms (w_go w) d doc) /\ comes_to w fuel o sl l p doc \/
     (d <> Hybrid /\ ~ conforms (w_go w) d doc) /\ exists es sl', meta_tells (w_go w) d doc es /\ Compile w fuel o sl l = LErr (EMeta es) sl' /\ sl_validate sl' = true).
  Proof.
    intros F Hfit Hs Hv Ha HL0 S HI HO Hu [Hf1 Hf2].
    destruct (source_doc w HU HW (shift o 0) sl l p doc (shift_fair _ _ F) Hfit Hs S) as (H1 & H2 & H3 & H4 & ref & p1 & E & G).
    split; [split; [auto|split; auto]|].
    assert (HL : fetch_laws (view w sl l)) by apply (web_fetch_laws w (with_factory (LoaderFactory l) sl) HU HW).
    assert (Hs1 : sl_ok (with_pool p1 (with_factory (LoaderFactory l) sl))).
    { pose proof (compile_doc_ok w HU (shift o 0) sl l _ _ (shift_fair _ _ F) Hfit Hs E) as (_ & Hs1 & _). exact Hs1. }
    set (sl1 := with_pool p1 (with_factory (LoaderFactory l) sl)) in *.
    unfold Compile. rewrite E. cbn [lbind fst snd]. change (sl_validate sl1) with (sl_validate sl). rewrite Hv.
    assert (HI1 : meta_intact p1) by (eapply (grown_intact w HU HM Hlim (with_factory (LoaderFactory l) sl) p p1); eauto).
    assert (Hu1 : meta_url w sl1 doc = meta_at d) by exact Hu.
    assert (Run : forall p2, grown (view w sl l) p p2 -> validateMetaschema w fuel (shift o 1) sl1 doc = LOk tt (with_pool p2 (with_factory (LoaderFactory l) sl)) -> comes_to w fuel o sl l p doc).
    { intros p2 G2 E2. exists p2, (shift (shift o 2) 1), ref. split; [repeat apply shift_fair; auto|]. split; auto.
      unfold Compile. rewrite E. fold sl1. cbn [lbind fst snd]. change (sl_validate sl1) with (sl_validate sl). rewrite Hv, E2. cbn [lbind]. rewrite source_parse; auto. }
    destruct (draft_eq_dec d Hybrid) as [->|Hd].
    { left. split; auto. apply (Run p1); auto. apply no_meta; auto. split; auto. }
    destruct (metaschema_decides w HU HW HM Hlim d Hd fuel (shift o 1) sl1 doc (shift_fair _ _ F) Hs1 HI1 HO H4 Hu1) as (p2 & HI2 & (q & Gq & Hq) & M); auto.
    { cbn. congruence. }
    assert (G2 : grown (view w sl l) p p2).
    { assert (Gq' : grown (view w sl l) q p2) by (unfold view; rewrite HL0 in *; exact Gq). eapply grown_trans; [auto| |exact Gq'].
      destruct Hq as [-> |[Hn ->]]; [exact G|]. cbn [sl1 with_pool with_factory sl_auto sl_pool] in *. rewrite Ha.
      destruct (HM d Hd) as [(_ & U2 & _ & _ & U5 & U6 & U7 & _) _]. destruct G as [G1 G3].
      assert (Hn0 : assoc (meta_at d) p = None) by (destruct (assoc (meta_at d) p) as [e|] eqn:Ee; auto; apply G1 in Ee; congruence).
      split.
      - intros r e He. rewrite assoc_aset. destruct (String.eqb_spec r (meta_at d)); [congruence|auto].
      - intros r e He. rewrite assoc_aset in He. destruct (String.eqb_spec r (meta_at d)) as [->|]; [|apply G3; auto]. injection He as <-. split; [|right; exact U2].
        right. cbn [view cenv_of u_strip u_canonical u_parse u_fragment]. rewrite U5. split; auto. split; auto. split; auto. split; auto.
        exists [], (meta_doc d), (Some d), (meta_doc d). split; [apply (meta_page w HU HM Hlim d Hd); auto|]. split; [exact U6|]. split; [constructor|reflexivity]. }
    assert (E1 : with_pool p2 (with_factory 0 (with_validate true sl1)) = with_pool p2 (with_factory (LoaderFactory l) sl)).
    { rewrite with_validate_same by exact Hv. unfold sl1. rewrite HL0. reflexivity. }
    cbv zeta in M. rewrite E1 in M. destruct M as [[C M]|(C & es & HT & M)].
    - left. split; auto. apply (Run p2); auto.
    - right. split; auto. rewrite M. exists es. eexists. split; [exact HT|]. split; [reflexivity|exact Hv].
  Qed.
  (** A loader with Validate on, about to compile l. *)
  Definition checking (fuel : nat) (o : oracle) (sl : sloader) (l : loader) (p : pool) (doc : value) (d : draft) : Prop :=
    fair o /\ loader_fit l /\ sl_ok sl /\ sl_validate sl = true /\ sl_auto sl = true /\ LoaderFactory l = 0 /\
    source w sl l p doc /\ meta_intact p /\ ordinary lim doc /\ meta_url w sl doc = meta_at d /\ meta_enough d doc fuel.
  Theorem checked_rejects fuel o sl l p doc d : checking fuel o sl l p doc d -> d <> Hybrid -> ~ conforms (w_go w) d doc ->
    exists es sl', meta_tells (w_go w) d doc es /\ Compile w fuel o sl l = LErr (EMeta es) sl'.
  Proof.
    intros (H1 & H2 & H3 & H4 & H5 & H6 & H7 & H8 & H9 & H10 & H11) Hd N.
    destruct (compile_checked fuel o sl l p doc d H1 H2 H3 H4 H5 H6 H7 H8 H9 H10 H11) as [_ [[[C|C] _]|[_ C]]]; [contradiction|contradiction|]. destruct C as (es & sl2 & HT & C & _). exists es, sl2. auto.
  Qed.
  Theorem checked_accepts fuel o sl l p doc d' lib n : checking fuel o sl l p doc d' -> d' = Hybrid \/ conforms (w_go w) d' doc ->
    let ce := view w sl l in let d := root_draft w sl doc in let T := heads_to ce p doc d in
    covered ce p lib doc -> lib_fuel doc lib < fuel -> settled_in (found ce p doc) d ->
    (forall d' x, meets (heads_to ce p doc) d doc d' x -> right ce d' x) -> shallow T n d doc ->
    exists sch p', Compile w fuel o sl l = LOk sch (with_pool p' (with_factory (LoaderFactory l) sl)) /\ grown ce p p' /\
      forall v, usual lim v ->
      (forall d' m x, needed T d doc v d' (VMap m) x -> assoc "$ref" m = None -> fits lim m x) ->
      forall k o', fair o' -> vsize v * S n + n <= k ->
      exists r, validateDocument (w_go w) (s_heap sch) k o' (s_root sch) v = Ok r /\
        (Valid r = true <-> meaning (pat (w_go w)) (fmt (w_go w)) same T d doc v).
  Proof.
    intros (H1 & H2 & H3 & H4 & H5 & H6 & H7 & H8 & H9 & H10 & H11) C.
    destruct (compile_checked fuel o sl l p doc d' H1 H2 H3 H4 H5 H6 H7 H8 H9 H10 H11) as [D [[_ R]|[[N1 N2] _]]].
    - apply (comes_decides w HU HW fuel o sl l p doc lib n D R).
    - destruct C; contradiction.
  Qed.
  Theorem checked_verdict fuel o sl l p doc d' sch sl' : checking fuel o sl l p doc d' -> Compile w fuel o sl l = LOk sch sl' ->
    (d' = Hybrid \/ conforms (w_go w) d' doc) /\
    let d := root_draft w sl doc in
    (all_found (view w sl l) p doc -> settled_in (found (view w sl l) p doc) d ->
    let T := heads_to (view w sl l) p doc d in
    guarded T d doc ->
    forall v, usual lim v ->
    (forall d' m x, needed T d doc v d' (VMap m) x -> assoc "$ref" m = None -> fits lim m x) ->
    forall o', fair o' ->
    exists r, returns (w_go w) (s_heap sch) (s_root sch) o' v r /\
      (Valid r = true <-> meaning (pat (w_go w)) (fmt (w_go w)) same T d doc v)).
  Proof.
    intros (H1 & H2 & H3 & H4 & H5 & H6 & H7 & H8 & H9 & H10 & H11) E.
    destruct (compile_checked fuel o sl l p doc d' H1 H2 H3 H4 H5 H6 H7 H8 H9 H10 H11) as [D [[C R]|(_ & es & sl2 & _ & E2 & _)]].
    - split; auto. intros d HA HS T G. apply (comes_total w HU HW fuel o sl l p doc sch sl' D R HA HS E G).
    - congruence.
  Qed.

  (** Whatever the outcome, the loader goes on validating. *)
  Theorem checked_validate fuel o sl l p doc d : checking fuel o sl l p doc d ->
    match Compile w fuel o sl l with LOk _ sl' | LErr _ sl' => sl_validate sl' = true | _ => True end.
  Proof.
    intros (H1 & H2 & H3 & H4 & H5 & H6 & H7 & H8 & H9 & H10 & H11).
    destruct (compile_checked fuel o sl l p doc d H1 H2 H3 H4 H5 H6 H7 H8 H9 H10 H11) as [_ [[_ (p1 & o1 & ref & _ & _ & E)]|(_ & es & sl2 & _ & E & V)]]; rewrite E; auto.
    destruct (parse _ _ _ _ _ _ _); auto.
  Qed.

  (** What validateMetaschema does to the loader and says about the document. *)
  Theorem meta_checks_document fuel o sl doc d : fair o -> sl_ok sl -> meta_intact (sl_pool sl) -> ordinary lim doc ->
    (sl_auto sl = true -> well_declared (w_parse w) doc) -> meta_url w sl doc = meta_at d -> meta_enough d doc fuel ->
    exists sl1, meta_intact (sl_pool sl1) /\ sl_validate sl1 = (if draft_eq_dec d Hybrid then sl_validate sl else true) /\ sl_auto sl1 = sl_auto sl /\ sl_draft sl1 = sl_draft sl /\
      (forall r e, assoc r (sl_pool sl) = Some e -> assoc r (sl_pool sl1) = Some e) /\
      (d = Hybrid -> validateMetaschema w fuel o sl doc = LOk tt sl1) /\
      (d <> Hybrid -> conforms (w_go w) d doc /\ validateMetaschema w fuel o sl doc = LOk tt sl1 \/
                      ~ conforms (w_go w) d doc /\ exists es, meta_tells (w_go w) d doc es /\ validateMetaschema w fuel o sl doc = LErr (EMeta es) sl1).
  Proof.
    intros F Hs HI HO Hw Hu [Hf1 Hf2]. destruct (draft_eq_dec d Hybrid) as [->|Hd].
    - exists sl. repeat (split; auto); [intros _; apply no_meta; auto; split; apply HO|]. intros N. destruct (N eq_refl).
    - assert (Ha : sl_auto sl = false -> sl_draft sl = d).
      { intros Ha. unfold meta_url in Hu. rewrite Ha in Hu. cbn [String.eqb] in Hu. destruct (draft_eq_dec (sl_draft sl) Hybrid) as [E|E].
        - rewrite E in Hu. destruct d; try discriminate Hu. auto.
        - apply meta_at_inj; auto. }
      destruct (metaschema_decides w HU HW HM Hlim d Hd fuel o sl doc F Hs HI HO Hw Hu Ha Hf1 Hf2) as (p2 & HI2 & (q & [Gq _] & Hq) & M).
      exists (with_pool p2 (with_factory 0 (with_validate true sl))). split; auto. repeat (split; [reflexivity|]). split; [|split; [contradiction|intros _; exact M]].
      intros r e E. apply Gq. destruct Hq as [->|[Hn ->]]; auto. rewrite assoc_aset. destruct (String.eqb_spec r (meta_at d)); [congruence|auto].
  Qed.
  Theorem AddSchema_checked fuel o url l sl ref doc d : fair o -> loader_fit l -> sl_ok sl -> sl_validate sl = true -> meta_intact (sl_pool sl) ->
    w_parse w url = Some ref -> fst (LoadJSON w l) = Some doc -> ordinary lim doc ->
    (sl_auto sl = true -> well_declared (w_parse w) doc) -> meta_url w sl doc = meta_at d -> meta_enough d doc fuel -> d <> Hybrid ->
    exists sl1, meta_intact (sl_pool sl1) /\ sl_validate sl1 = true /\ (forall r e, assoc r (sl_pool sl) = Some e -> assoc r (sl_pool sl1) = Some e) /\
      (conforms (w_go w) d doc /\ AddSchema w fuel o url l sl = lbind (pool_parseReferences w (shift o 1) doc ref true sl1) (fun _ sl => LOk tt sl) \/
       ~ conforms (w_go w) d doc /\ exists es, meta_tells (w_go w) d doc es /\ AddSchema w fuel o url l sl = LErr (EMeta es) sl1).
  Proof.
    intros F Hfit Hs Hv HI Er EL HO Hw Hu Hf Hd.
    destruct (meta_checks_document fuel (shift o 0) sl doc d (shift_fair _ _ F) Hs HI HO Hw Hu Hf) as (sl1 & H1 & H2 & _ & _ & H3 & _ & M).
    destruct (draft_eq_dec d Hybrid); [contradiction|]. exists sl1. split; auto. split; auto. split; auto. specialize (M Hd).
    unfold AddSchema. rewrite Er, EL, Hv. destruct M as [[C ->]|(C & es & HT & ->)]; [left|right]; split; auto. exists es. auto.
  Qed.
  Theorem AddSchemas_checked fuel o l ls sl doc d : fair o -> loader_fit l -> sl_ok sl -> sl_validate sl = true -> meta_intact (sl_pool sl) ->
    fst (LoadJSON w l) = Some doc -> ordinary lim doc ->
    (sl_auto sl = true -> well_declared (w_parse w) doc) -> meta_url w sl doc = meta_at d -> meta_enough d doc fuel -> d <> Hybrid ->
    exists sl1, meta_intact (sl_pool sl1) /\ sl_validate sl1 = true /\ (forall r e, assoc r (sl_pool sl) = Some e -> assoc r (sl_pool sl1) = Some e) /\
      (conforms (w_go w) d doc /\ AddSchemas w fuel o (l :: ls) sl = lbind (pool_parseReferences w (shift o 1) doc "" false sl1) (fun _ sl => AddSchemas w fuel (shift o 2) ls sl) \/
       ~ conforms (w_go w) d doc /\ exists es, meta_tells (w_go w) d doc es /\ AddSchemas w fuel o (l :: ls) sl = LErr (EMeta es) sl1).
  Proof.
    intros F Hfit Hs Hv HI EL HO Hw Hu Hf Hd.
    destruct (meta_checks_document fuel (shift o 0) sl doc d (shift_fair _ _ F) Hs HI HO Hw Hu Hf) as (sl1 & H1 & H2 & _ & _ & H3 & _ & M).
    destruct (draft_eq_dec d Hybrid); [contradiction|]. exists sl1. split; auto. split; auto. split; auto. specialize (M Hd).
    cbn [AddSchemas]. rewrite EL, Hv. destruct M as [[C ->]|(C & es & HT & ->)]; [left|right]; split; auto. exists es. auto.
  Qed.
End Checked.
