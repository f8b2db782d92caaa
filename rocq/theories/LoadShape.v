(** Compile: which documents it accepts, and when it panics; it always returns. *)
From Verif Require Export CompileKnown LoadAny.
From Coq Require Import Lia.
Open Scope nat_scope.

Lemma locates_same ce ce' p q : u_strip ce = u_strip ce' -> u_fragment ce = u_fragment ce' -> (forall r, assoc r p = assoc r q) ->
  forall r e, locates ce p r e -> locates ce' q r e.
Proof.
  intros E1 E2 X r e [H|(H & b & ts & x & Hb & Hf & Hx & He)]; [left; rewrite <- X; auto|]. right. rewrite <- X. split; auto.
  exists b, ts, x. rewrite <- X, <- E1, <- E2. auto.
Qed.

Section Shape.
  Variable w : world.
  Hypothesis HU : url_laws w.
  Variable sl : sloader.
  Notation ce := (cenv_of w sl).
  Notation lim := (e_ratlim (w_go w)).
  Notation resolve := (resolve (w_parse w) (w_inherits w)).
  Notation ids_of := (ids_of (w_parse w) (w_inherits w)).
  Notation root_draft := (root_draft w sl).
  Notation known_documents := (known_documents w sl).

  (** Compile step by step. *)
  Lemma compile_cases fuel o l doc :
    fair o -> (forall fs s, l <> LRef fs s) -> fst (LoadJSON w l) = Some doc -> doc_ok doc -> all_numbers (moderate lim) doc ->
    sl_validate sl = false -> fresh (sl_pool sl) (ids_of "" doc) -> sl_ok sl ->
    ((assoc "" (sl_pool sl) <> None \/ sl_auto sl = true /\ ~ well_declared (w_parse w) doc) /\ exists e sl', Compile w fuel o sl l = LErr e sl') \/
    (assoc "" (sl_pool sl) = None /\ (sl_auto sl = true -> well_declared (w_parse w) doc) /\
     exists p1 o1, fair o1 /\ (forall r, assoc r p1 = assoc r (known_documents doc)) /\ doc_ok (resolve "" doc) /\
       match parse (cenv_of w (with_factory 0 sl)) fuel o1 "" (root_draft doc) (resolve "" doc) (CState [] [] p1 []) with
       | COk id s => exists sl', Compile w fuel o sl l = LOk (Schema (st_heap s) id s) sl'
       | CErr e s => exists sl', Compile w fuel o sl l = LErr e sl'
       | CPanic => Compile w fuel o sl l = LPanic
       | CNoFuel => Compile w fuel o sl l = LNoFuel
       end).
  Proof.
    intros F Hl EL Hd Hm Hv Hf Hsl. pose proof HU as (U1 & U2 & _).
    assert (EJ : JsonReference w l = Some "") by (destruct l; auto; destruct (Hl _ _ eq_refl)).
    assert (EF : LoaderFactory l = 0) by (destruct l; auto; destruct (Hl _ _ eq_refl)).
    set (sl0 := with_factory 0 sl). set (ce0 := cenv_of w sl0).
    assert (EC : forall o', compile_doc w o' sl l = lbind (pool_parseReferences w (shift o' 0) doc "" true sl0) (fun doc' sl => LOk ("", doc') sl)).
    { intros o'. unfold compile_doc. rewrite EJ, String.eqb_refl, EL, EF. reflexivity. }
    assert (BAD : assoc "" (sl_pool sl) <> None \/ sl_auto sl = true /\ ~ well_declared (w_parse w) doc -> exists e sl', Compile w fuel o sl l = LErr e sl').
    { intros B. unfold Compile. rewrite EC. unfold pool_parseReferences.
      assert (E : exists r e, parseReferences ce0 (shift (shift o 0) 0) doc "" true (sl_pool sl) = Ok r /\ pr_err r = Some e).
      { unfold parseReferences. cbn [andb]. destruct (assoc "" (sl_pool sl)) eqn:E0; [do 2 eexists; split; reflexivity|]. destruct B as [B|[Ea B]]; [congruence|]. replace (c_autodetect ce0) with true by (symmetry; exact Ea).
        destruct (parseSchemaURL_named ce0 doc Hd Hm) as [[H _]|[_ [e E]]]; [destruct (B H)|]. rewrite E. do 2 eexists. split; reflexivity. }
      destruct E as (r & e & E & Ee). fold ce0. change (sl_pool sl0) with (sl_pool sl). rewrite E. cbn [run_out lbind]. rewrite Ee. cbn. eauto. }
    destruct (assoc "" (sl_pool sl)) as [e0|] eqn:E0; [left; split; [left; discriminate|apply BAD; left; discriminate]|].
    assert (WD : sl_auto sl = true -> well_declared (w_parse w) doc \/ ~ well_declared (w_parse w) doc).
    { intros Ha. destruct (parseSchemaURL_named ce0 doc Hd Hm) as [[H _]|[H _]]; auto. }
    assert (WD' : (sl_auto sl = true /\ ~ well_declared (w_parse w) doc) \/ (sl_auto sl = true -> well_declared (w_parse w) doc)).
    { destruct (sl_auto sl); [|right; discriminate]. destruct (WD eq_refl); auto. }
    destruct WD' as [B|Hw]; [left; split; [right; exact B|apply BAD; right; exact B]|]. right. split; auto. split; auto. clear BAD WD.
    destruct (parseReferences_resolves ce0 U2 (shift (shift o 0) 0) doc "" true (sl_pool sl)) as (p' & A & E'); auto; [repeat apply shift_fair; auto|].
    set (sl1 := with_pool (aset "" (Spd (resolve "" doc) (doc_draft ce0 doc)) p') sl0).
    assert (E1 : compile_doc w (shift o 0) sl l = LOk ("", resolve "" doc) sl1).
    { rewrite EC. unfold pool_parseReferences. fold ce0. change (sl_pool sl0) with (sl_pool sl). rewrite E'. reflexivity. }
    destruct (compile_doc_known w HU sl _ l doc _ sl1 (shift_fair _ 0 F) Hl EL Hd Hm Hf E1) as (_ & _ & _ & Esl & Hp1).
    assert (Hdr : doc_ok (resolve "" doc)).
    { eapply (parseReferences_docs ce0 (fun _ => True) (url_laws_text _ _ HU)) in E'; [exact (proj1 E')| | | | |]; auto.
      - repeat apply shift_fair; auto.
      - apply utf8_empty.
      - intros _ u x _. exact I. }
    exists (sl_pool sl1), (shift (shift o 2) 1). split; [repeat apply shift_fair; auto|]. split; auto. split; auto.
    unfold Compile. rewrite E1. cbn [lbind]. change (sl_validate sl1) with (sl_validate sl). rewrite Hv. cbn [lbind fst snd].
    unfold compile_parse. 
    assert (Ed : (if sl_auto sl1
                  then lbind (run_out sl1 (parseSchemaURL (cenv_of w sl1) (resolve "" doc)))
                         (fun r sl => match r with inl e => LErr e sl | inr (_, Some d) => LOk d sl | inr (_, None) => LOk (sl_draft sl) sl end)
                  else LOk (sl_draft sl1) sl1) = LOk (root_draft doc) sl1).
    { unfold LoadFacts.root_draft, doc_draft. cbn [cenv_of c_autodetect u_parse]. change (sl_auto sl1) with (sl_auto sl). change (sl_draft sl1) with (sl_draft sl).
      destruct (sl_auto sl) eqn:Ea; auto.
      assert (Hmr : all_numbers (moderate lim) (resolve "" doc)) by (apply (resolve_numbers ce lim (S (vsize doc))); auto).
      destruct (parseSchemaURL_named (cenv_of w sl1) (resolve "" doc) Hdr Hmr) as [[_ [u Eu]]|[Hn _]].
      - rewrite Eu. cbn [run_out lbind].
        assert (RN : named_draft (w_parse w) (resolve "" doc) = named_draft (w_parse w) doc) by exact (resolve_named ce "" doc).
        cbn [cenv_of u_parse]. rewrite RN. destruct (named_draft (w_parse w) doc); reflexivity.
      - destruct Hn. apply (resolve_declared ce "" doc). auto. }
    rewrite Ed. cbn [lbind]. change (cenv_of w sl1) with ce0. unfold run_comp. fold ce0.
    destruct (parse ce0 fuel _ "" (root_draft doc) (resolve "" doc) _) as [id s|e s| |]; cbn [lbind fst snd]; eauto.
  Qed.

  Definition enough_fuel (doc : value) : nat := fuel_bound ce (known_documents doc) (resolve "" doc).


  (** The documents at hand, all references leading to some of them. *)
  Definition documents_closed (doc : value) : Prop :=
    let p0 := known_documents doc in
    (forall r e, assoc r (sl_pool sl) = Some e -> doc_ok (sp_doc e) /\ closed_refs ce p0 (sp_doc e)) /\ closed_refs ce p0 (resolve "" doc).
  Notation re := (fun p => e_re_ok (w_go w) p = true).
  Notation url := (fun s => w_parse w s <> None).

  Theorem compile_shape fuel o l doc :
    fair o -> (forall fs s, l <> LRef fs s) -> fst (LoadJSON w l) = Some doc -> doc_ok doc -> all_numbers (moderate lim) doc ->
    sl_validate sl = false -> fresh (sl_pool sl) (ids_of "" doc) -> documents_closed doc -> enough_fuel doc < fuel ->
    let met := meets (leads_to ce (known_documents doc)) (root_draft doc) (resolve "" doc) in
    match Compile w fuel o sl l with
    | LOk _ _ => assoc "" (sl_pool sl) = None /\ (sl_auto sl = true -> well_declared (w_parse w) doc) /\
                 read_ok re url (root_draft doc) (resolve "" doc)
    | LErr _ _ => ~ (assoc "" (sl_pool sl) = None /\ (sl_auto sl = true -> well_declared (w_parse w) doc) /\
                     forall d v, met d v -> right ce d v)
    | LPanic => ~ forall d v, met d v -> tame ce v
    | LNoFuel => False
    end.
  Proof.
    intros F Hl EL Hd Hm Hv Hf [Hpool Hcl] Hfuel met. pose proof HU as (U1 & U2 & _).
    assert (Hsl : sl_ok sl) by (intros r e E; split; [apply (Hpool _ _ E)|auto]).
    destruct (compile_cases fuel o l doc F Hl EL Hd Hm Hv Hf Hsl) as [[B (e & sl' & ->)]|(B1 & B2 & p1 & o1 & F1 & X & Hdr & C)].
    - intros (H1 & H2 & _). destruct B as [B|[Ba B]]; auto.
    - assert (KP : known_pool ce (known_documents doc) p1).
      { split; intros r e; rewrite X; auto. intros H. left. auto. }
      assert (HD : forall r e, assoc r (known_documents doc) = Some e -> doc_ok (sp_doc e) /\ closed_refs ce (known_documents doc) (sp_doc e)).
      { intros r e E. unfold LoadFacts.known_documents in E. rewrite assoc_app, assoc_entries in E.
        destruct (assoc r (documents _ _ "" doc)) as [x|] eqn:Ex.
        - injection E as <-. cbn [sp_doc]. apply assoc_In in Ex. destruct Ex as [Ex|Ex]; [injection Ex as <- <-; auto|]. split.
          + apply (ids_doc_ok ce _ _ _ _ Hdr Ex).
          + intros k0 r1 M. apply Hcl. exact (ids_mentions ce U2 doc "" r x k0 Ex M).
        - apply Hpool in E. auto. }
      pose proof (parse_known (cenv_of w (with_factory 0 sl)) (known_documents doc) (root_draft doc) (resolve "" doc) (fun b s r => U2 b r s) HD (conj Hdr Hcl) fuel o1 "" p1 F1 Hfuel KP) as P.
      destruct (parse _ _ _ _ _ _ _) as [id s|er s| |].
      + destruct C as [sl' ->]. split; auto. split; auto. apply P. apply (resolve_numbers ce lim (S (vsize doc))); auto.
      + destruct C as [sl' ->]. intros (_ & _ & H). apply P. exact H.
      + rewrite C. exact P.
      + destruct P.
  Qed.
End Shape.

(** Documents without references are left alone. *)
Lemma resolve_mentions_none ce n : forall v base, vsize v < n -> (forall k, ~ mentions v k) -> resolve (u_parse ce) (u_inherits ce) base v = v.
Proof.
  induction n as [|n IH]; intros v base Hn N; [lia|]. destruct v as [|b|t|f|t|l|m|m]; auto.
  - cbn [resolve]. f_equal. rewrite <- (map_id l) at 2. apply map_ext_in. intros x Hx. apply IH; [apply vsize_item in Hx; lia|]. intros k M. apply (N k). eapply mentions_arr; eauto.
  - rewrite resolve_map. f_equal. rewrite <- (map_id m) at 2. apply map_ext_in. intros [k x] Hx. cbn [fst snd]. f_equal.
    assert (Nx : forall j, ~ mentions x j) by (intros j M; apply (N j); eapply mentions_map; eauto). pose proof (vsize_member _ _ _ Hx) as [Sx _].
    unfold res_member. destruct (is_literal k); auto. destruct (is_schema_map k).
    + destruct x as [|b|t|f|t|l|c|c]; auto. f_equal. rewrite <- (map_id c) at 2. apply map_ext_in. intros [k' y] Hy. cbn [fst snd]. f_equal.
      apply IH; [apply vsize_member in Hy; lia|]. intros j M. apply (Nx j). eapply mentions_map; eauto.
    + destruct x as [|b|t|f|t|l|c|c]; try (apply IH; auto; lia). destruct (String.eqb_spec k "$ref"); auto. subst. destruct (N t). constructor. auto.
Qed.

(** Compile on a document without references. *)
Theorem compile_plain w : url_laws w -> forall sl fuel o l doc,
  fair o -> (forall fs s, l <> LRef fs s) -> loader_fit l -> fst (LoadJSON w l) = Some doc -> all_numbers (moderate (e_ratlim (w_go w))) doc ->
  (forall k, ~ mentions doc k) -> sl_validate sl = false -> sl_pool sl = [] -> NoDup (map fst (ids_of (w_parse w) (w_inherits w) "" doc)) ->
  enough_fuel w sl doc < fuel ->
  ((exists sch sl', Compile w fuel o sl l = LOk sch sl') <->
   (sl_auto sl = true -> well_declared (w_parse w) doc) /\
   well_formed (fun p => e_re_ok (w_go w) p = true) (fun s => w_parse w s <> None) same (root_draft w sl doc) doc) /\
  Compile w fuel o sl l <> LNoFuel.
Proof.
  intros HU sl fuel o l doc F Hl Hfit EL Hm NM Hv Hp ND Hfuel.
  pose proof (LoadJSON_doc_ok w l doc Hfit EL) as Hd.
  assert (RE : forall b, resolve (w_parse w) (w_inherits w) b doc = doc) by (intros b; apply (resolve_mentions_none (cenv_of w sl) (S (vsize doc))); auto).
  assert (Hf : fresh (sl_pool sl) (ids_of (w_parse w) (w_inherits w) "" doc)) by (rewrite Hp; split; auto).
  assert (DC : documents_closed w sl doc).
  { split; [rewrite Hp; discriminate|]. rewrite RE. intros k r M. destruct (NM k M). }
  pose proof (compile_shape w HU sl fuel o l doc F Hl EL Hd Hm Hv Hf DC Hfuel) as C. cbv zeta in C. rewrite RE in C.
  assert (WT : well_formed (fun p => e_re_ok (w_go w) p = true) (fun s => w_parse w s <> None) same (root_draft w sl doc) doc ->
               forall d v, meets (leads_to (cenv_of w sl) (known_documents w sl doc)) (root_draft w sl doc) doc d v -> right (cenv_of w sl) d v).
  { intros WF. apply well_formed_met; auto. }
  destruct (Compile w fuel o sl l) as [sch sl'|e sl'| |]; (split; [|discriminate || tauto]).
  - destruct C as (_ & C2 & C3). split; [|eauto]. intros _. split; auto. apply (read_well_formed (cenv_of w sl)); auto.
  - split; [intros (? & ? & ?); discriminate|]. intros [H1 H2]. exfalso. apply C. split; [rewrite Hp; auto|]. split; auto.
  - split; [intros (? & ? & ?); discriminate|]. intros [H1 H2]. exfalso. apply C. intros d v H. pose proof (WT H2 d v H) as [A B]. split; auto.
    intros m -> [[b E]|(l0 & t & E & Hin)]; destruct B as (B1 & B2 & _).
    + destruct B1 as (_ & B1 & _). destruct (B1 _ E) as [ds X]. discriminate X.
    + destruct B2 as (B2 & _). destruct (B2 _ E) as [(s & X & _)|(ls & X & _)]; [discriminate X|]. unfold texts in X. injection X as ->. apply in_map_iff in Hin. destruct Hin as (? & ? & _). discriminate.
  - destruct C.
Qed.

Lemma right_tame ce d v : right ce d v -> tame ce v.
Proof.
  intros [H1 H2]. split; auto. intros m -> [[b E]|(l & t & E & H)].
  - destruct H2 as [(_ & Hd & _) _]. destruct (Hd _ E) as [ds X]. discriminate X.
  - destruct H2 as (_ & (Ht & _) & _). destruct (Ht _ E) as [(u & X & _)|(ts & X & _)]; [discriminate X|]. injection X as ->.
    apply in_map_iff in H. destruct H as (u & X & _). discriminate X.
Qed.

(** Compile on a document with references: it returns, it succeeds if every
    schema it meets has the right shape, and it panics only on the two shapes. *)
Theorem compile_right w : url_laws w -> forall sl fuel o l doc,
  fair o -> (forall fs s, l <> LRef fs s) -> loader_fit l -> fst (LoadJSON w l) = Some doc -> all_numbers (moderate (e_ratlim (w_go w))) doc ->
  sl_validate sl = false -> fresh (sl_pool sl) (ids_of (w_parse w) (w_inherits w) "" doc) -> documents_closed w sl doc -> enough_fuel w sl doc < fuel ->
  assoc "" (sl_pool sl) = None -> (sl_auto sl = true -> well_declared (w_parse w) doc) ->
  (forall d v, meets (leads_to (cenv_of w sl) (known_documents w sl doc)) (root_draft w sl doc) (resolve (w_parse w) (w_inherits w) "" doc) d v ->
     right (cenv_of w sl) d v) ->
  exists sch sl', Compile w fuel o sl l = LOk sch sl'.
Proof.
  intros HU sl fuel o l doc F Hl Hfit EL Hm Hv Hf DC Hfuel H0 Hw HR.
  pose proof (compile_shape w HU sl fuel o l doc F Hl EL (LoadJSON_doc_ok w l doc Hfit EL) Hm Hv Hf DC Hfuel) as C. cbv zeta in C.
  destruct (Compile w fuel o sl l) as [sch sl'|e sl'| |]; [eauto|exfalso; apply C; auto|exfalso; apply C; intros d v M; eapply right_tame; eauto|destruct C].
Qed.

Theorem compile_returns w : url_laws w -> forall sl fuel o l doc,
  fair o -> (forall fs s, l <> LRef fs s) -> loader_fit l -> fst (LoadJSON w l) = Some doc -> all_numbers (moderate (e_ratlim (w_go w))) doc ->
  sl_validate sl = false -> fresh (sl_pool sl) (ids_of (w_parse w) (w_inherits w) "" doc) -> documents_closed w sl doc ->
  enough_fuel w sl doc < fuel -> Compile w fuel o sl l <> LNoFuel.
Proof.
  intros HU sl fuel o l doc F Hl Hfit EL Hm Hv Hf DC Hfuel E.
  pose proof (compile_shape w HU sl fuel o l doc F Hl EL (LoadJSON_doc_ok w l doc Hfit EL) Hm Hv Hf DC Hfuel) as C. cbv zeta in C. rewrite E in C. exact C.
Qed.

Theorem compile_order w : url_laws w -> forall sl fuel o fuel' o' l doc,
  fair o -> fair o' -> (forall fs s, l <> LRef fs s) -> loader_fit l -> fst (LoadJSON w l) = Some doc -> all_numbers (moderate (e_ratlim (w_go w))) doc ->
  (forall k, ~ mentions doc k) -> sl_validate sl = false -> sl_pool sl = [] -> NoDup (map fst (ids_of (w_parse w) (w_inherits w) "" doc)) ->
  enough_fuel w sl doc < fuel -> enough_fuel w sl doc < fuel' ->
  (exists sch sl', Compile w fuel o sl l = LOk sch sl') <-> (exists sch sl', Compile w fuel' o' sl l = LOk sch sl').
Proof.
  intros HU sl fuel o fuel' o' l doc F F' Hl Hfit EL Hm NM Hv Hp ND H1 H2.
  destruct (compile_plain w HU sl fuel o l doc F Hl Hfit EL Hm NM Hv Hp ND H1) as [A _].
  destruct (compile_plain w HU sl fuel' o' l doc F' Hl Hfit EL Hm NM Hv Hp ND H2) as [B _]. rewrite A, B. reflexivity.
Qed.
