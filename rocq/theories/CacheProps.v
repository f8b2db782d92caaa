(** A loader that holds documents beforehand compiles to the same verdicts as one
    that fetches them. *)
From Coq Require Import Lia.
From Verif Require Export LoadFetch PoolProps LostLoad LoadDecide MetaLoad.
From Verif Require Export SpecCache.
Open Scope string_scope.
Open Scope list_scope.
Open Scope nat_scope.

Section Cached.
  Variable ce : cenv.
  Hypothesis HL : fetch_laws ce.

  Lemma cached_grown p p' : cached ce p p' -> grown ce p p'.
  Proof. intros [C1 C2]. split; auto. intros r e E. destruct (C2 _ _ E) as [E'|[P HF]]; auto. split; auto. left. left. auto. Qed.
  Lemma grown_cached p p' : grown ce p p' -> cached ce p p'.
  Proof. intros [C1 C2]. split; auto. intros r e E. destruct (C2 _ _ E) as [HF [E'|P]]; auto. Qed.

  (** What could be found before is found in the larger pool. *)
  Lemma finds_grown p p' r e : grown ce p p' -> finds ce p r e -> finds ce p' r e.
  Proof.
    intros G HF. pose proof G as [G1 G2]. pose proof HL as (L1 & L2 & L3 & L4 & L5 & L6 & L7 & L8).
    destruct (assoc r p') as [e'|] eqn:Er.
    { destruct (G2 _ _ Er) as [HF' _]. rewrite (finds_fun ce p r e e' HF HF'). left. left. auto. }
    destruct HF as [[HF|(Hn & b & ts & x & Hb & Hf & Px & ->)]|(Hn & Hb & Hc & Pr & ts & x & dr & y & Hpg & Hf & Px & ->)].
    - apply G1 in HF. congruence.
    - left. right. split; auto. exists b, ts, x. auto.
    - destruct (assoc (u_strip ce r) p') as [b|] eqn:Eb.
      + left. right. split; auto. exists b, ts, y. split; auto. split; auto.
        destruct (G2 _ _ Eb) as [[[Eb'|(_ & b' & ts' & x' & Hb' & _)]|(_ & _ & _ & _ & ts' & x' & dr' & y' & Hpg' & Hf' & Px' & ->)] _].
        * congruence.
        * rewrite L3 in Hb'. congruence.
        * rewrite L3 in Hpg'. rewrite L4 in Hf'. destruct (page_fun ce _ _ _ _ _ Hpg Hpg') as [<- <-].
          pose proof (pointer_follows _ _ _ _ Hf' Px') as E. cbn in E. injection E as <-. auto.
      + right. split; auto. split; auto. split; auto. split; auto. exists ts, x, dr, y. auto.
  Qed.
  Theorem cached_finds p p' r e : cached ce p p' -> u_parse ce r = Some r -> (finds ce p' r e <-> finds ce p r e).
  Proof.
    intros C Pr. apply cached_grown in C. split; [apply grown_finds; auto|apply finds_grown; auto].
  Qed.
End Cached.

Section Loader.
  Variable w : world.
  Hypothesis HU : url_laws w.
  Hypothesis HW : web_laws w.
  Lemma AddSchema_settings fuel o sl url l ref doc sl1 : fair o -> addable w sl url l ref doc -> AddSchema w fuel o url l sl = LOk tt sl1 ->
    (utf8_text url -> sl_ok sl -> sl_ok sl1) /\ sl_auto sl1 = sl_auto sl /\ sl_validate sl1 = sl_validate sl /\ sl_draft sl1 = sl_draft sl.
  Proof.
    intros F A. pose proof A as (E1 & Hl & EL & Hn & Ev & _). intros E. unfold AddSchema in E. rewrite E1, EL, Ev in E. cbn [lbind] in E.
    split.
    { intros Hu Hs. apply lbind_ok in E. destruct E as (d1 & sl2 & E & Y). injection Y as ->. pose proof HU as (_ & _ & U3 & _).
      apply (pool_parseReferences_ok w HU (shift o 1) doc ref true sl d1 sl1) in E; [apply E|apply shift_fair; auto|eapply LoadJSON_doc_ok; eauto|eapply U3; eauto|auto]. }
    unfold pool_parseReferences in E.
    destruct (parseReferences _ _ _ _ _ _) as [[e q d]| |]; cbn [run_out lbind pr_err pr_pool] in E; try discriminate. destruct d; cbn [lbind] in E; try discriminate. injection E as <-. auto.
  Qed.
  Notation lim := (e_ratlim (w_go w)).
  Notation re := (fun p => e_re_ok (w_go w) p = true).
  Notation resolve := (resolve (w_parse w) (w_inherits w)).
  Notation ids_of := (ids_of (w_parse w) (w_inherits w)).

  Lemma ahead_view sl sl' l : ahead w sl sl' l -> view w sl' l = view w sl l.
  Proof. intros (A & _). unfold view, cenv_of, with_factory. cbn. rewrite A. reflexivity. Qed.
  Lemma ahead_doc_draft sl sl' l raw : ahead w sl sl' l -> doc_draft (cenv_of w sl') raw = doc_draft (cenv_of w sl) raw.
  Proof. intros (A & _). unfold doc_draft. cbn. rewrite A. reflexivity. Qed.
  Lemma ahead_draft sl sl' l doc : ahead w sl sl' l -> root_draft w sl' doc = root_draft w sl doc.
  Proof. intros A. unfold root_draft. rewrite (ahead_doc_draft _ _ _ _ A). destruct A as (_ & _ & -> & _). reflexivity. Qed.

  Lemma known_at sl raw r : assoc r (known_documents w sl raw) =
    match assoc r (documents (w_parse w) (w_inherits w) "" raw) with Some x => Some (Spd x (doc_draft (cenv_of w sl) raw)) | None => assoc r (sl_pool sl) end.
  Proof. unfold known_documents. rewrite assoc_app, assoc_entries. destruct (assoc r (documents _ _ "" raw)); auto. Qed.
  Lemma documents_names raw r x : assoc r (documents (w_parse w) (w_inherits w) "" raw) = Some x -> r = "" \/ In r (map fst (ids_of "" raw)).
  Proof.
    unfold documents. cbn [assoc]. destruct (String.eqb_spec r "") as [->|]; auto. intros H. right. apply assoc_In in H.
    change r with (fst (r, x)). apply in_map. auto.
  Qed.

  (** The starting points correspond. *)
  Lemma ahead_source sl sl' l p doc : ahead w sl sl' l -> distinct_names w sl sl' l -> source w sl l p doc ->
    exists p', source w sl' l p' doc /\ grown (view w sl l) p p'.
  Proof.
    intros A NC S. pose proof (ahead_view _ _ _ A) as EV. pose proof (ahead_doc_draft sl sl' l) as ED.
    pose proof A as (Ea & _ & _ & C). apply cached_grown in C. pose proof C as [C1 C2].
    pose proof (web_fetch_laws w (with_factory (LoaderFactory l) sl) HU HW) as HL. fold (view w sl l) in HL.
    destruct S as [raw EJ EL Hm Hw Hn [ND Hf]|r e EJ Hr HF Hm Hw|r raw EJ Hr Hn Hb Hc Hg Hm Hw ND Hi Hfr].
    - pose proof (proj2 NC EJ raw EL) as N. exists (known_documents w sl' raw). split.
      + apply source_text; auto.
        * rewrite Ea. auto.
        * destruct (assoc "" (sl_pool sl')) as [e|] eqn:E; auto. destruct (N _ _ "" E (or_introl eq_refl)) as [X _]. congruence.
        * split; auto. intros i Hi. destruct (assoc i (sl_pool sl')) as [e|] eqn:E; auto. destruct (N _ _ i E (or_intror Hi)) as [X _]. congruence.
      + assert (K : forall r e, assoc r (sl_pool sl) = Some e -> assoc r (known_documents w sl raw) = Some e).
        { intros r e E. rewrite known_at. destruct (assoc r (documents _ _ "" raw)) as [x|] eqn:Ex; auto. destruct (documents_names _ _ _ Ex) as [->|H]; [congruence|].
          rewrite (Hf _ H) in E. discriminate. }
        split; intros r e E; rewrite known_at in E.
        * rewrite known_at, (ED raw A). destruct (assoc r (documents _ _ "" raw)); auto.
        * rewrite (ED raw A) in E. destruct (assoc r (documents _ _ "" raw)) as [x|] eqn:Ex.
          { assert (E' : assoc r (known_documents w sl raw) = Some e) by (rewrite known_at, Ex; auto). split; auto. left. left. auto. }
          destruct (assoc r (sl_pool sl)) as [e0|] eqn:E0.
          { pose proof (C1 _ _ E0) as E1. assert (e0 = e) by congruence. subst e0. pose proof (K _ _ E0). split; auto. left. left. auto. }
          assert (En : assoc r (known_documents w sl raw) = None) by (rewrite known_at, Ex; auto).
          assert (Eb : assoc (u_strip (view w sl l) r) (known_documents w sl raw) = assoc (u_strip (view w sl l) r) (sl_pool sl)).
          { rewrite known_at. destruct (assoc (u_strip (view w sl l) r) (documents _ _ "" raw)) as [x|] eqn:Exb; auto.
            destruct (N r e _ E (documents_names _ _ _ Exb)) as [_ X]. destruct (X E0). reflexivity. }
          destruct (C2 _ _ E) as [HF [X|P]]; [congruence|]. split; auto.
          destruct HF as [[HF|(_ & b & ts & x & Hb & R)]|(_ & Hb & R)]; [congruence| |].
          { left. right. split; auto. exists b, ts, x. rewrite Eb. auto. }
          { right. split; auto. rewrite Eb. auto. }
    - exists (sl_pool sl'). split; auto. apply source_ref with (r := r); auto; [|rewrite Ea; auto]. rewrite EV. apply (finds_grown _ HL (sl_pool sl)); auto.
    - assert (Eb : w_strip w r = r) by (apply NC; auto). rewrite Eb in *. set (X := Spd (resolve r raw) (doc_draft (cenv_of w sl) raw)).
      assert (PX : forall x dr, page (view w sl l) r x dr -> X = Spd x dr).
      { intros x dr (raw' & Ef & _ & _ & Ha & _ & _ & -> & ->). change (loadReference w (LoaderFactory l) r = Some raw') in Ef. assert (raw' = raw) by congruence. subst raw'.
        unfold X. f_equal. unfold doc_draft. cbn in *. destruct Ha as [->|Ha]; auto. rewrite Ha. destruct (sl_auto sl); auto. }
      assert (Go : forall r' e, assoc r' (sl_pool sl) = None -> r' <> r -> finds (view w sl l) (sl_pool sl) r' e -> finds (view w sl l) (aset r X (sl_pool sl)) r' e).
      { intros r' e Hn' Hrb HF.
        assert (En : assoc r' (aset r X (sl_pool sl)) = None) by (rewrite assoc_aset; destruct (String.eqb_spec r' r); congruence).
        destruct HF as [[HF|(_ & b' & ts & x & Hb' & R)]|(_ & Hb' & Hc' & Pr & ts & x & dr & y & Hpg & Hf & Px & ->)]; [congruence| |].
        - left. right. split; auto. exists b', ts, x. rewrite assoc_aset. destruct (String.eqb_spec (u_strip (view w sl l) r') r) as [Y|]; auto. rewrite Y in Hb'. congruence.
        - destruct (string_dec (u_strip (view w sl l) r') r) as [Y|Y].
          + left. right. split; auto. rewrite Y in Hpg. exists X, ts, y. rewrite assoc_aset, Y, String.eqb_refl. rewrite (PX _ _ Hpg). auto.
          + right. split; auto. split; [rewrite assoc_aset; destruct (String.eqb_spec (u_strip (view w sl l) r') r); congruence|]. split; auto. split; auto. exists ts, x, dr, y. auto. }
      assert (Xb : forall e, assoc r (sl_pool sl') = Some e -> e = X).
      { intros e E. destruct (C2 _ _ E) as [[[Z|(_ & b' & ts' & x' & Hb' & _)]|(_ & _ & _ & _ & ts' & x' & dr' & y' & Hpg' & Hf' & Px' & ->)] _].
        - congruence.
        - change (u_strip (view w sl l) r) with (w_strip w r) in Hb'. congruence.
        - change (u_strip (view w sl l) r) with (w_strip w r) in Hpg'. change (u_fragment (view w sl l) r) with (w_fragment w r) in Hf'. rewrite Eb in Hpg'. rewrite Hfr in Hf'.
          pose proof (pointer_follows _ _ _ _ Hf' Px') as E'. cbn in E'. injection E' as <-. symmetry. apply PX. auto. }
      assert (Gr : forall p', (forall r', r' <> r -> assoc r' p' = assoc r' (sl_pool sl')) -> assoc r p' = Some X -> grown (view w sl l) (aset r X (sl_pool sl)) p').
      { intros p' Ho Hx. assert (Z : assoc r (aset r X (sl_pool sl)) = Some X) by (rewrite assoc_aset, String.eqb_refl; auto). split; intros r' e' E.
        - rewrite assoc_aset in E. destruct (String.eqb_spec r' r) as [->|Y]; [congruence|]. rewrite Ho; auto.
        - destruct (string_dec r' r) as [->|Y].
          + assert (e' = X) by congruence. subst e'. split; auto. left. left. auto.
          + rewrite Ho in E by auto. destruct (assoc r' (sl_pool sl)) as [e0|] eqn:E0.
            * pose proof (C1 _ _ E0). assert (e0 = e') by congruence. subst e0.
              assert (Z' : assoc r' (aset r X (sl_pool sl)) = Some e') by (rewrite assoc_aset; destruct (String.eqb_spec r' r); congruence). split; auto. left. left. auto.
            * destruct (C2 _ _ E) as [HF [Z'|P]]; [congruence|]. split; auto. }
      destruct (assoc r (sl_pool sl')) as [e|] eqn:Er.
      + specialize (Xb _ eq_refl). subst e. exists (sl_pool sl'). split; [|apply Gr; auto].
        change (resolve r raw) with (sp_doc X). apply source_ref with (r := r); auto.
        * left. left. auto.
        * apply (resolve_numbers (cenv_of w sl) lim (Datatypes.S (vsize raw))); auto.
        * intros _. apply (resolve_declared (cenv_of w sl) r raw); auto.
      + exists (aset r X (sl_pool sl')). split.
        * unfold X. rewrite <- (ED raw A). pose proof (source_fetched w sl' l r raw) as SF. rewrite Eb in SF. apply SF; auto.
        * apply Gr; [|rewrite assoc_aset, String.eqb_refl; auto]. intros r' Hr'. rewrite assoc_aset. destruct (String.eqb_spec r' r); congruence.
  Qed.

  (** So both compile the same document from corresponding pools. *)
  Lemma ahead_comes fuel o sl sl' l p doc : fair o -> loader_fit l -> sl_ok sl' -> sl_validate sl = false ->
    ahead w sl sl' l -> distinct_names w sl sl' l -> source w sl l p doc -> comes_to w fuel o sl' l p doc.
  Proof.
    intros F Hfit Hs Hv A NC S. destruct (ahead_source _ _ _ _ _ A NC S) as (p' & S' & G).
    pose proof (ahead_view _ _ _ A) as EV. pose proof (web_fetch_laws w (with_factory (LoaderFactory l) sl) HU HW) as HL. fold (view w sl l) in HL.
    assert (Hv' : sl_validate sl' = false) by (destruct A as (_ & -> & _); auto).
    destruct (compile_source w HU HW fuel o sl' l p' doc F Hfit Hs Hv' S') as [_ (p1 & o1 & ref & F1 & G1 & E)].
    exists p1, o1, ref. split; auto. split; auto. rewrite EV in *. eapply grown_trans; eauto.
  Qed.

  Theorem ahead_verdict fuel fuel' o1 o2 sl sl' l p doc sch sch' sl1 sl2 :
    fair o1 -> fair o2 -> loader_fit l -> sl_ok sl -> sl_ok sl' -> sl_validate sl = false -> source w sl l p doc ->
    ahead w sl sl' l -> distinct_names w sl sl' l ->
    let d := root_draft w sl doc in
    all_found (view w sl l) p doc -> settled_in (found (view w sl l) p doc) d ->
    let T := heads_to (view w sl l) p doc d in
    guarded T d doc ->
    Compile w fuel o1 sl l = LOk sch sl1 -> Compile w fuel' o2 sl' l = LOk sch' sl2 ->
    forall v, usual lim v ->
    (forall d' m x, needed T d doc v d' (VMap m) x -> assoc "$ref" m = None -> fits lim m x) ->
    forall o o', fair o -> fair o' ->
    exists r r', returns (w_go w) (s_heap sch) (s_root sch) o v r /\ returns (w_go w) (s_heap sch') (s_root sch') o' v r' /\ Valid r = Valid r'.
  Proof.
    intros F1 F2 Hfit Hs Hs' Hv S A NC d Hall Hset T G E1 E2 v U R o o' F F'.
    destruct (compile_source w HU HW fuel o1 sl l p doc F1 Hfit Hs Hv S) as [D C].
    pose proof (ahead_comes fuel' o2 sl sl' l p doc F2 Hfit Hs' Hv A NC S) as C'.
    pose proof (ahead_view _ _ _ A) as EV. pose proof (ahead_draft _ _ _ doc A) as ED.
    destruct (comes_total w HU HW fuel o1 sl l p doc sch sl1 D C Hall Hset E1 G v U R o F) as (r & Hr & V).
    pose proof (comes_total w HU HW fuel' o2 sl' l p doc sch' sl2 D C') as CT. cbv zeta in CT. rewrite EV, ED in CT.
    destruct (CT Hall Hset E2 G v U R o' F') as (r' & Hr' & V').
    exists r, r'. split; auto. split; auto. apply eq_true_iff_eq. rewrite V, V'. reflexivity.
  Qed.

  Theorem ahead_accepts fuel fuel' o1 o2 sl sl' l p doc lib :
    fair o1 -> fair o2 -> loader_fit l -> sl_ok sl -> sl_ok sl' -> sl_validate sl = false -> source w sl l p doc ->
    ahead w sl sl' l -> distinct_names w sl sl' l ->
    charted (view w sl l) p lib doc -> lib_fuel doc lib < fuel -> lib_fuel doc lib < fuel' ->
    let T := heads_to (view w sl l) p doc in let met := meets T (root_draft w sl doc) doc in
    (forall d v, met d v -> all_numbers (moderate lim) v) -> settled_in (found (view w sl l) p doc) (root_draft w sl doc) ->
    (forall d m k, met d (VMap m) -> assoc "$ref" m = Some (VStr k) -> sealed re d m) ->
    (exists sch sl1, Compile w fuel o1 sl l = LOk sch sl1) <-> (exists sch sl2, Compile w fuel' o2 sl' l = LOk sch sl2).
  Proof.
    intros F1 F2 Hfit Hs Hs' Hv S A NC Ch L1 L2 T met Hm Hset Hse.
    destruct (compile_source w HU HW fuel o1 sl l p doc F1 Hfit Hs Hv S) as [D C].
    pose proof (ahead_comes fuel' o2 sl sl' l p doc F2 Hfit Hs' Hv A NC S) as C'.
    pose proof (ahead_view _ _ _ A) as EV. pose proof (ahead_draft _ _ _ doc A) as ED.
    pose proof (comes_resolves w HU HW fuel o1 sl l p doc lib D C Ch L1 Hm Hset Hse) as X.
    pose proof (comes_resolves w HU HW fuel' o2 sl' l p doc lib D C') as Y. cbv zeta in Y. rewrite EV, ED in Y. specialize (Y Ch L2 Hm Hset Hse).
    split; intros H; [apply (proj2 Y), (proj1 X), H|apply (proj2 X), (proj1 Y), H].
  Qed.

  (** *** How a loader gets ahead *)
  (** By compiling a reference. *)
  Theorem compiled_ahead fuel o sl l r e sch sl1 : fair o -> loader_fit l -> sl_ok sl -> sl_validate sl = false ->
    JsonReference w l = Some r -> r <> "" -> finds (view w sl l) (sl_pool sl) r e -> all_numbers (moderate lim) (sp_doc e) ->
    (sl_auto sl = true -> well_declared (w_parse w) (sp_doc e)) -> all_found (view w sl l) (sl_pool sl) (sp_doc e) ->
    Compile w fuel o sl l = LOk sch sl1 ->
    forall l', LoaderFactory l' = LoaderFactory l -> sl_ok sl1 /\ ahead w sl sl1 l'.
  Proof.
    intros F Hfit Hs Hv EJ Hr HF Hm Hw Hall EC l' El. split; [apply (Compile_ok w HU fuel o sl l sch sl1 F Hfit Hs EC)|].
    pose proof (web_fetch_laws w (with_factory (LoaderFactory l) sl) HU HW) as HL. fold (view w sl l) in HL.
    destruct (compile_source w HU HW fuel o sl l (sl_pool sl) (sp_doc e) F Hfit Hs Hv (source_ref w sl l r e EJ Hr HF Hm Hw)) as [(D1 & D2 & D3) (p1 & o1 & ref & F1 & G1 & E)].
    rewrite EC in E. destruct (parse (view w sl l) fuel o1 ref _ (sp_doc e) _) as [id s|x s| |] eqn:EP; try discriminate E. injection E as -> ->.
    assert (EV : view w sl l' = view w sl l) by (unfold view; rewrite El; reflexivity).
    split; [reflexivity|]. split; [reflexivity|]. split; [reflexivity|]. rewrite EV. apply grown_cached. cbn [sl_pool with_pool].
    assert (EE : all_found (view w sl l) (sl_pool sl) (sp_doc e)) by auto.
    eapply (fetch_pool (view w sl l) HL (sl_pool sl) D1 (sp_doc e) D2 Hall (root_draft w sl (sp_doc e))); eauto.
  Qed.
  (** By being given the document under the URL where it is served. *)
  Theorem added_ahead fuel o sl url la ref doc l : fair o -> sl_ok sl -> utf8_text url -> addable w sl url la ref doc ->
    w_strip w ref = ref -> w_canonical w ref = true -> loadReference w (LoaderFactory l) ref = Some doc ->
    well_declared (w_parse w) doc -> sl_auto sl = true \/ named_draft (w_parse w) doc = None ->
    (forall r x, In (r, x) (ids_of ref doc) -> r = ref) ->
    exists sl1, AddSchema w fuel o url la sl = LOk tt sl1 /\ sl_ok sl1 /\ ahead w sl sl1 l.
  Proof.
    intros F Hok Hu Ad Es Hc Hf Hw Ha Hid. destruct (AddSchema_registers w HU fuel o sl url la ref doc F Ad) as (sl1 & E & E1 & E2).
    exists sl1. split; [auto|]. pose proof (AddSchema_settings fuel o sl url la ref doc sl1) as Se.
    pose proof Ad as (Pu & _ & _ & Hn & _ & _ & Er & _ & ND).
    assert (Pr : w_parse w ref = Some ref) by (destruct HW as (_ & _ & _ & W4); apply (W4 _ _ Pu)).
    destruct (Se F Ad E) as (S0 & S1 & S2 & S3). split; [auto|]. split; [exact S1|]. split; [exact S2|]. split; [exact S3|].
    split.
    - intros r e H. destruct (string_dec r ref) as [->|Y]; [congruence|]. apply E2; auto.
    - intros r e H. destruct (string_dec r ref) as [->|Y].
      + right. split; auto. right. change (u_strip (view w sl l) ref) with (w_strip w ref). rewrite Es. split; auto. split; auto. split; auto. split; auto.
        exists [], (resolve ref doc), (named_draft (w_parse w) doc), (resolve ref doc). split; [|split; [|split; [constructor|]]].
        * exists doc. split; [exact Hf|]. split; [exact Hn|]. split; [exact Hw|]. split; [exact Ha|]. split; [exact ND|]. split; auto.
        * change (u_fragment (view w sl l) ref) with (w_fragment w ref). rewrite <- Es. destruct HW as (_ & W2 & _). apply W2.
        * assert (X : e = Spd (resolve ref doc) (added_draft w sl doc)) by congruence. rewrite X. f_equal. unfold added_draft. destruct Ha as [->|Ha]; auto. rewrite Ha. destruct (sl_auto sl); auto.
      + apply E2 in H; auto. destruct H as [H|(x & Hx & _)]; auto. apply Hid in Hx. congruence.
  Qed.
End Loader.

(** *** With Validate on *)
Section Checked.
  Variable w : world.
  Hypothesis HU : url_laws w.
  Hypothesis HW : web_laws w.
  Hypothesis HM : meta_urls w.
  Notation lim := (e_ratlim (w_go w)).
  Notation re := (fun p => e_re_ok (w_go w) p = true).
  Hypothesis Hlim : (0 <= lim)%Z.

  Lemma ahead_checking fuel fuel' o o' sl sl' l p doc d : checking w fuel o sl l p doc d -> fair o' -> sl_ok sl' -> meta_enough d doc fuel' ->
    ahead w sl sl' l -> distinct_names w sl sl' l -> exists p', checking w fuel' o' sl' l p' doc d /\ grown (view w sl l) p p'.
  Proof.
    intros (H1 & H2 & H3 & H4 & H5 & H6 & H7 & H8 & H9 & H10 & H11) F' Hs' Hf A N.
    destruct (ahead_source w HU HW sl sl' l p doc A N H7) as (p' & S' & G). exists p'. split; auto.
    pose proof A as (A1 & A2 & A3 & _). unfold checking. repeat match goal with |- _ /\ _ => split end; auto; try congruence.
    - apply (grown_intact w HU HM Hlim (with_factory (LoaderFactory l) sl) p p'); auto.
    - rewrite <- H10. unfold meta_url. rewrite A1, A3. reflexivity.
  Qed.
  (** What becomes of a checked document. *)
  Lemma checking_cases fuel fuel' o o' sl sl' l p doc d : checking w fuel o sl l p doc d -> fair o' -> sl_ok sl' -> meta_enough d doc fuel' ->
    ahead w sl sl' l -> distinct_names w sl sl' l ->
    docs_ok w p doc /\
    (comes_to w fuel o sl l p doc /\ comes_to w fuel' o' sl' l p doc \/
     exists es sl1 es' sl2, meta_tells (w_go w) d doc es /\ meta_tells (w_go w) d doc es' /\
       Compile w fuel o sl l = LErr (EMeta es) sl1 /\ Compile w fuel' o' sl' l = LErr (EMeta es') sl2).
  Proof.
    intros C F' Hs' Hf A N. destruct (ahead_checking fuel fuel' o o' sl sl' l p doc d C F' Hs' Hf A N) as (p' & C' & G).
    pose proof (ahead_view w sl sl' l A) as EV. pose proof (web_fetch_laws w (with_factory (LoaderFactory l) sl) HU HW) as HL. fold (view w sl l) in HL.
    destruct C as (H1 & H2 & H3 & H4 & H5 & H6 & H7 & H8 & H9 & H10 & H11). destruct C' as (K1 & K2 & K3 & K4 & K5 & K6 & K7 & K8 & K9 & K10 & K11).
    destruct (compile_checked w HU HW HM Hlim fuel o sl l p doc d H1 H2 H3 H4 H5 H6 H7 H8 H9 H10 H11) as [D X].
    destruct (compile_checked w HU HW HM Hlim fuel' o' sl' l p' doc d K1 K2 K3 K4 K5 K6 K7 K8 K9 K10 K11) as [_ Y]. split; auto.
    destruct X as [[X1 X2]|[[X0 X1] (es & sl1 & T1 & E1 & _)]], Y as [[Y1 Y2]|[[Y0 Y1] (es' & sl2 & T2 & E2 & _)]].
    - left. split; auto. destruct Y2 as (p1 & o1 & ref & F1 & G1 & E). exists p1, o1, ref. split; auto. split; auto. rewrite EV in *. eapply grown_trans; eauto.
    - exfalso. destruct X1; contradiction.
    - exfalso. destruct Y1; contradiction.
    - right. exists es, sl1, es', sl2. auto.
  Qed.

  Theorem ahead_checked_verdict fuel fuel' o1 o2 sl sl' l p doc d' sch sch' sl1 sl2 :
    checking w fuel o1 sl l p doc d' -> fair o2 -> sl_ok sl' -> meta_enough d' doc fuel' ->
    ahead w sl sl' l -> distinct_names w sl sl' l ->
    let d := root_draft w sl doc in
    all_found (view w sl l) p doc -> settled_in (found (view w sl l) p doc) d ->
    let T := heads_to (view w sl l) p doc d in
    guarded T d doc ->
    Compile w fuel o1 sl l = LOk sch sl1 -> Compile w fuel' o2 sl' l = LOk sch' sl2 ->
    forall v, usual lim v ->
    (forall d' m x, needed T d doc v d' (VMap m) x -> assoc "$ref" m = None -> fits lim m x) ->
    forall o o', fair o -> fair o' ->
    exists r r', returns (w_go w) (s_heap sch) (s_root sch) o v r /\ returns (w_go w) (s_heap sch') (s_root sch') o' v r' /\ Valid r = Valid r'.
  Proof.
    intros Ck F2 Hs' Hf A NC d Hall Hset T G E1 E2 v U R o o' F F'.
    destruct (checking_cases fuel fuel' o1 o2 sl sl' l p doc d' Ck F2 Hs' Hf A NC) as [D [[C C']|(es & x1 & es' & x2 & _ & _ & X & _)]]; [|congruence].
    pose proof (ahead_view w _ _ _ A) as EV. pose proof (ahead_draft w _ _ _ doc A) as ED.
    destruct (comes_total w HU HW fuel o1 sl l p doc sch sl1 D C Hall Hset E1 G v U R o F) as (r & Hr & V).
    pose proof (comes_total w HU HW fuel' o2 sl' l p doc sch' sl2 D C') as CT. cbv zeta in CT. rewrite EV, ED in CT.
    destruct (CT Hall Hset E2 G v U R o' F') as (r' & Hr' & V').
    exists r, r'. split; auto. split; auto. apply eq_true_iff_eq. rewrite V, V'. reflexivity.
  Qed.
  Theorem ahead_checked_accepts fuel fuel' o1 o2 sl sl' l p doc d' lib :
    checking w fuel o1 sl l p doc d' -> fair o2 -> sl_ok sl' -> meta_enough d' doc fuel' ->
    ahead w sl sl' l -> distinct_names w sl sl' l ->
    charted (view w sl l) p lib doc -> lib_fuel doc lib < fuel -> lib_fuel doc lib < fuel' ->
    let T := heads_to (view w sl l) p doc in let met := meets T (root_draft w sl doc) doc in
    (forall d v, met d v -> all_numbers (moderate lim) v) -> settled_in (found (view w sl l) p doc) (root_draft w sl doc) ->
    (forall d m k, met d (VMap m) -> assoc "$ref" m = Some (VStr k) -> sealed re d m) ->
    (exists sch sl1, Compile w fuel o1 sl l = LOk sch sl1) <-> (exists sch sl2, Compile w fuel' o2 sl' l = LOk sch sl2).
  Proof.
    intros Ck F2 Hs' Hf A NC Ch L1 L2 T met Hm Hset Hse.
    destruct (checking_cases fuel fuel' o1 o2 sl sl' l p doc d' Ck F2 Hs' Hf A NC) as [D [[C C']|(es & x1 & es' & x2 & T1 & T2 & X & Y)]].
    2: { split; intros (sch & x & E); congruence. }
    pose proof (ahead_view w _ _ _ A) as EV. pose proof (ahead_draft w _ _ _ doc A) as ED.
    pose proof (comes_resolves w HU HW fuel o1 sl l p doc lib D C Ch L1 Hm Hset Hse) as X.
    pose proof (comes_resolves w HU HW fuel' o2 sl' l p doc lib D C') as Y. cbv zeta in Y. rewrite EV, ED in Y. specialize (Y Ch L2 Hm Hset Hse).
    split; intros H; [apply (proj2 Y), (proj1 X), H|apply (proj2 X), (proj1 Y), H].
  Qed.
  (** Compiling with Validate on gets a loader ahead, too. *)
  Theorem checked_ahead fuel o sl l doc d sch sl1 : checking w fuel o sl l (sl_pool sl) doc d -> all_found (view w sl l) (sl_pool sl) doc ->
    Compile w fuel o sl l = LOk sch sl1 -> forall l', LoaderFactory l' = LoaderFactory l -> sl_ok sl1 /\ ahead w sl sl1 l'.
  Proof.
    intros C Hall EC l' El. pose proof C as (H1 & H2 & H3 & H4 & H5 & H6 & H7 & H8 & H9 & H10 & H11).
    split; [apply (Compile_ok w HU fuel o sl l sch sl1 H1 H2 H3 EC)|].
    pose proof (web_fetch_laws w (with_factory (LoaderFactory l) sl) HU HW) as HL. fold (view w sl l) in HL.
    destruct (compile_checked w HU HW HM Hlim fuel o sl l (sl_pool sl) doc d H1 H2 H3 H4 H5 H6 H7 H8 H9 H10 H11) as [(D1 & D2 & D3) [[_ (p1 & o1 & ref & F1 & G1 & E)]|(_ & es & sl2 & _ & E2 & _)]]; [|congruence].
    rewrite EC in E. destruct (parse (view w sl l) fuel o1 ref _ doc _) as [id s|x s| |] eqn:EP; try discriminate E. injection E as -> ->.
    assert (EV : view w sl l' = view w sl l) by (unfold view; rewrite El; reflexivity).
    split; [reflexivity|]. split; [reflexivity|]. split; [reflexivity|]. rewrite EV. apply grown_cached. cbn [sl_pool with_pool].
    eapply (fetch_pool (view w sl l) HL (sl_pool sl) D1 doc D2 Hall (root_draft w sl doc)); eauto.
  Qed.
End Checked.
