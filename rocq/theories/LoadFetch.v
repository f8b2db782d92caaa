(** Compile through any loader, references leading to known documents or to
    documents fetched on the way. *)
From Verif Require Export CompileFetch LoadTotal.
From Coq Require Import Lia.
Open Scope nat_scope.

(** More of what is asked of the URL library. *)
Definition web_laws (w : world) : Prop :=
  (forall r, w_strip w (w_strip w r) = w_strip w r) /\
  (forall r, w_fragment w (w_strip w r) = "") /\
  (forall r, w_canonical w (w_strip w r) = w_canonical w r) /\
  (forall s r, w_parse w s = Some r -> w_parse w r = Some r /\ w_parse w (w_strip w r) = Some (w_strip w r)).
Lemma web_fetch_laws w sl : url_laws w -> web_laws w -> fetch_laws (cenv_of w sl).
Proof.
  intros HU (W1 & W2 & W3 & W4). pose proof (url_laws_text w sl HU) as HT. destruct HU as (_ & U2 & _).
  split; [exact U2|]. split; auto. split; auto. split; auto. split; auto. split; auto. split.
  - intros r Hr. cbn [cenv_of c_fetch u_strip u_parse] in *. unfold loadReference. destruct (W4 _ _ Hr) as [_ ->]. rewrite Hr, W1. reflexivity.
  - intros r v. apply loadReference_doc_ok.
Qed.

Section Source.
  Variable w : world.
  Notation lim := (e_ratlim (w_go w)).
  Notation resolve := (resolve (w_parse w) (w_inherits w)).
  Notation ids_of := (ids_of (w_parse w) (w_inherits w)).

  (** The compiler's view while a loader compiles l. *)
  Definition view (sl : sloader) (l : loader) : cenv := cenv_of w (with_factory (LoaderFactory l) sl).

  (** What Compile starts from: the documents known once l is loaded, and the
      schema itself. *)
  Inductive source (sl : sloader) (l : loader) : pool -> value -> Prop :=
  | source_text raw :
      JsonReference w l = Some "" -> fst (LoadJSON w l) = Some raw -> all_numbers (moderate lim) raw ->
      (sl_auto sl = true -> well_declared (w_parse w) raw) -> assoc "" (sl_pool sl) = None -> fresh (sl_pool sl) (ids_of "" raw) ->
      source sl l (known_documents w sl raw) (resolve "" raw)
  | source_ref r e :
      JsonReference w l = Some r -> r <> "" -> finds (view sl l) (sl_pool sl) r e -> all_numbers (moderate lim) (sp_doc e) ->
      (sl_auto sl = true -> well_declared (w_parse w) (sp_doc e)) ->
      source sl l (sl_pool sl) (sp_doc e)
  | source_fetched r raw :
      JsonReference w l = Some r -> r <> "" -> assoc r (sl_pool sl) = None -> assoc (w_strip w r) (sl_pool sl) = None -> w_canonical w r = true ->
      loadReference w (LoaderFactory l) (w_strip w r) = Some raw -> all_numbers (moderate lim) raw -> well_declared (w_parse w) raw ->
      NoDup (map fst (ids_of (w_strip w r) raw)) -> (forall u y, In (u, y) (ids_of (w_strip w r) raw) -> u = w_strip w r) -> w_fragment w r = "" ->
      source sl l (aset (w_strip w r) (Spd (resolve (w_strip w r) raw) (doc_draft (cenv_of w sl) raw)) (sl_pool sl)) (resolve (w_strip w r) raw).

  Hypothesis HU : url_laws w.
  Hypothesis HW : web_laws w.

  (** The text the reference of a loader is. *)
  Lemma reference_text l r : loader_fit l -> JsonReference w l = Some r -> utf8_text r.
  Proof.
    destruct HU as (U1 & _ & U3 & _). intros Hf E. destruct l as [s|s|x|s|x|fs s]; cbn [JsonReference] in E; try (rewrite U1 in E; injection E as <-; apply utf8_empty).
    eapply U3; [exact Hf|exact E].
  Qed.

  Lemma reference_parse l r : JsonReference w l = Some r -> w_parse w r = Some r.
  Proof. destruct HW as (_ & _ & _ & W4). intros E. destruct l; cbn [JsonReference] in E; eapply W4; exact E. Qed.

  Lemma known_documents_at raw p' r : fresh p' (ids_of "" raw) -> forall sl q, sl_pool sl = p' ->
    adds (doc_draft (cenv_of w sl) raw) p' (ids_of "" raw) q ->
    assoc r (aset "" (Spd (resolve "" raw) (doc_draft (cenv_of w sl) raw)) q) = assoc r (known_documents w sl raw).
  Proof.
    intros [Nd Hf] sl q Es A. rewrite assoc_aset. unfold known_documents. rewrite assoc_app, assoc_entries, Es.
    unfold documents. cbn [assoc]. destruct (String.eqb_spec r "") as [->|Hne]; [reflexivity|].
    destruct (assoc r q) as [e|] eqn:Ep.
    - apply A in Ep. destruct Ep as [Ep|(x & Hx & ->)].
      + destruct (assoc r (ids_of "" raw)) as [y|] eqn:Ey; [|auto]. apply assoc_In in Ey. rewrite (Hf r) in Ep; [discriminate|].
        change r with (fst (r, y)). apply in_map. auto.
      + rewrite (proj2 (assoc_In_iff _ r x Nd)); auto.
    - destruct (assoc r (ids_of "" raw)) as [y|] eqn:Ey.
      + apply assoc_In in Ey. exfalso. assert (Hp : assoc r q = Some (Spd y (doc_draft (cenv_of w sl) raw))); [|congruence]. apply A. right. exists y. auto.
      + destruct (assoc r p') as [e|] eqn:E'; auto. assert (Hp : assoc r q = Some e) by (apply A; auto). congruence.
  Qed.
  Lemma known_docs_ok sl raw : sl_ok sl -> doc_ok (resolve "" raw) ->
    forall r e, assoc r (known_documents w sl raw) = Some e -> doc_ok (sp_doc e).
  Proof.
    intros Hs Hd r e E. unfold known_documents in E. rewrite assoc_app, assoc_entries in E.
    destruct (assoc r (documents _ _ "" raw)) as [x|] eqn:Ex.
    - injection E as <-. cbn [sp_doc]. apply assoc_In in Ex. destruct Ex as [Ex|Ex]; [injection Ex as <- <-; auto|]. apply (ids_doc_ok (cenv_of w sl) _ _ _ _ Hd Ex).
    - apply (Hs _ _ E).
  Qed.

  (** The first half of Compile. *)
  Lemma source_doc o sl l p doc : fair o -> loader_fit l -> sl_ok sl -> source sl l p doc ->
    (forall r e, assoc r p = Some e -> doc_ok (sp_doc e)) /\ doc_ok doc /\ all_numbers (moderate lim) doc /\
    (sl_auto sl = true -> well_declared (w_parse w) doc) /\
    exists ref p1, compile_doc w o sl l = LOk (ref, doc) (with_pool p1 (with_factory (LoaderFactory l) sl)) /\ grown (view sl l) p p1.
  Proof.
    intros F Hfit Hs S. destruct S as [raw EJ EL Hm Hw H0 Hf|r e EJ Hr HF Hm Hw|r raw EJ Hr Hn Hb Hc EL Hm Hw ND Hid Hfr].
    - pose proof HU as (U1 & U2 & _). pose proof (LoadJSON_doc_ok w l raw Hfit EL) as Hd. set (ce := view sl l).
      destruct (parseReferences_resolves ce U2 (shift o 0) raw "" true (sl_pool sl)) as (q & A & E); auto; [apply shift_fair; auto|].
      assert (Hdr : doc_ok (resolve "" raw)).
      { eapply (parseReferences_docs ce (fun _ => True) (url_laws_text _ _ HU)) in E; [exact (proj1 E)|apply shift_fair; auto|apply utf8_empty|auto|exact Hs|].
        intros _ u x _. exact I. }
      split; [apply known_docs_ok; auto|]. split; auto. split; [apply (resolve_numbers (cenv_of w sl) lim (S (vsize raw))); auto|].
      split; [intros Ha; apply (resolve_declared (cenv_of w sl) "" raw); auto|].
      exists "". eexists. split.
      + unfold compile_doc. rewrite EJ, String.eqb_refl. cbn [negb]. rewrite EL. unfold pool_parseReferences.
        change (cenv_of w (with_factory (LoaderFactory l) sl)) with ce. change (sl_pool (with_factory (LoaderFactory l) sl)) with (sl_pool sl). rewrite E. reflexivity.
      + split; intros r e He; [|split; [left|]; left].
        * exact (eq_trans (known_documents_at raw (sl_pool sl) r Hf sl q eq_refl A) He).
        * exact (eq_trans (eq_sym (known_documents_at raw (sl_pool sl) r Hf sl q eq_refl A)) He).
        * exact (eq_trans (eq_sym (known_documents_at raw (sl_pool sl) r Hf sl q eq_refl A)) He).
    - pose proof (web_fetch_laws w (with_factory (LoaderFactory l) sl) HU HW) as HL. fold (view sl l) in HL.
      pose proof (reference_text l r Hfit EJ) as Ht.
      assert (Hdocs : forall r e, assoc r (sl_pool sl) = Some e -> doc_ok (sp_doc e)) by (intros r' e' E'; apply (Hs _ _ E')).
      split; auto. split; [eapply finds_doc_ok; eauto|]. split; auto. split; auto.
      destruct (GetDocument_finds (view sl l) HL (sl_pool sl) (shift o 0) r e (CState [] [] (sl_pool sl) []) (shift_fair _ _ F) Ht (reference_parse l r EJ) (grown_refl _ _) HF) as (s' & E & G & _).
      exists r, (st_pool s'). split; auto. unfold compile_doc. rewrite EJ. apply String.eqb_neq in Hr. rewrite Hr. cbn [negb]. unfold run_comp.
      change (sl_pool (with_factory (LoaderFactory l) sl)) with (sl_pool sl). change (cenv_of w (with_factory (LoaderFactory l) sl)) with (view sl l). rewrite E. reflexivity.
    - pose proof (web_fetch_laws w (with_factory (LoaderFactory l) sl) HU HW) as HL. fold (view sl l) in HL.
      pose proof (reference_text l r Hfit EJ) as Ht. pose proof HL as (L1 & L2 & _ & _ & _ & L6 & L7 & L8).
      assert (B' : utf8_text (w_strip w r)) by (destruct HU as (_ & _ & _ & _ & U5); apply U5; auto).
      assert (Hd : doc_ok raw) by (eapply loadReference_doc_ok; eauto).
      pose proof (resolve_doc_ok (view sl l) HL _ _ B' Hd Hm Hw ND) as Hdr. cbn [view cenv_of u_parse u_inherits] in Hdr.
      split.
      { intros r' e' E'. rewrite assoc_aset in E'. destruct (String.eqb r' (w_strip w r)); [injection E' as <-; auto|apply (Hs _ _ E')]. }
      split; auto. split; [apply (resolve_numbers (cenv_of w sl) lim (S (vsize raw))); auto|].
      split; [intros _; apply (resolve_declared (cenv_of w sl) (w_strip w r) raw); auto|].
      assert (Hp : exists s, JsonReference w l = w_parse w s) by (destruct l; cbn [JsonReference]; eauto). destruct Hp as [s0 Hp]. rewrite Hp in EJ.
      destruct HW as (W1 & W2 & W3 & W4). destruct (W4 _ _ EJ) as [Hrr Hsr].
      destruct (parseReferences_resolves (view sl l) L1 (shift o 0) raw (w_strip w r) true (sl_pool sl)) as (q & A & E); auto; [apply shift_fair; auto| |].
      { split; auto. intros t Hin. apply in_map_iff in Hin. destruct Hin as ([t' z] & <- & Hin). apply Hid in Hin. cbn [fst]. subst. auto. }
      assert (ER : c_fetch (view sl l) r = Some raw) by (rewrite L7; auto).
      eexists. eexists. split.
      + unfold compile_doc. rewrite Hp, EJ. pose proof Hr as Hr'. apply String.eqb_neq in Hr'. rewrite Hr'. cbn [negb]. unfold run_comp.
        change (sl_pool (with_factory (LoaderFactory l) sl)) with (sl_pool sl). change (cenv_of w (with_factory (LoaderFactory l) sl)) with (view sl l).
        unfold GetDocument, cbind, get_pool. cbn [st_pool]. rewrite Hn. change (u_strip (view sl l) r) with (w_strip w r). rewrite Hb.
        change (u_canonical (view sl l) r) with (w_canonical w r). rewrite Hc. cbn [negb]. rewrite ER. rewrite E. cbn [lift_out cret set_pool pr_pool pr_doc].
        destruct (parseSchemaURL_named (view sl l) (resolve (w_strip w r) raw) Hdr (resolve_numbers (cenv_of w sl) lim _ raw _ (Nat.lt_succ_diag_r _) Hm)) as [[_ [u Eu]]|[N _]].
        2: { destruct N. apply (resolve_declared (cenv_of w sl)); auto. }
        change (SpecResolve.resolve (u_parse (view sl l)) (u_inherits (view sl l))) with (SpecResolve.resolve (w_parse w) (w_inherits w)).
        rewrite Eu. cbn [lift_out cret]. change (u_fragment (view sl l) r) with (w_fragment w r). rewrite Hfr. cbn. reflexivity.
      + assert (Heq : forall r', assoc r' (aset (w_strip w r) (Spd (resolve (w_strip w r) raw) (doc_draft (cenv_of w sl) raw)) q) =
                       assoc r' (aset (w_strip w r) (Spd (resolve (w_strip w r) raw) (doc_draft (cenv_of w sl) raw)) (sl_pool sl))).
        { intros r'. rewrite !assoc_aset. destruct (String.eqb_spec r' (w_strip w r)); auto.
          destruct (assoc r' q) as [e'|] eqn:E1.
          - apply A in E1. destruct E1 as [E1|(z & Hz & _)]; [auto|]. apply Hid in Hz. congruence.
          - destruct (assoc r' (sl_pool sl)) as [e'|] eqn:E2; auto. assert (assoc r' q = Some e') by (apply A; auto). congruence. }
        split; intros r' e' He'; [rewrite <- He'; apply Heq|split; [left|]; left; rewrite <- He'; symmetry; apply Heq].
  Qed.

  (** The second half. *)
  Lemma source_parse fuel o sl ref doc : doc_ok doc -> all_numbers (moderate lim) doc -> (sl_auto sl = true -> well_declared (w_parse w) doc) ->
    compile_parse w fuel o sl ref doc =
      match parse (cenv_of w sl) fuel (shift o 1) ref (root_draft w sl doc) doc (CState [] [] (sl_pool sl) []) with
      | COk id s => LOk (Schema (st_heap s) id s) (with_pool (st_pool s) sl)
      | CErr e s => LErr e (with_pool (st_pool s) sl)
      | CPanic => LPanic
      | CNoFuel => LNoFuel
      end.
  Proof.
    intros Hd Hm Hw. unfold compile_parse.
    assert (Ed : (if sl_auto sl
                  then lbind (run_out sl (parseSchemaURL (cenv_of w sl) doc))
                         (fun r sl => match r with inl e => LErr e sl | inr (_, Some d) => LOk d sl | inr (_, None) => LOk (sl_draft sl) sl end)
                  else LOk (sl_draft sl) sl) = LOk (root_draft w sl doc) sl).
    { unfold root_draft, doc_draft. cbn [cenv_of c_autodetect u_parse]. destruct (sl_auto sl) eqn:Ea; auto.
      destruct (parseSchemaURL_named (cenv_of w sl) doc Hd Hm) as [[_ [u Eu]]|[Hn _]]; [|destruct Hn; apply Hw; auto].
      rewrite Eu. cbn [run_out lbind cenv_of u_parse]. destruct (named_draft (w_parse w) doc); reflexivity. }
    rewrite Ed. cbn [lbind]. unfold run_comp. destruct (parse _ fuel _ ref _ doc _) as [id s|e s| |]; reflexivity.
  Qed.

  (** Compile comes down to parsing doc, with the documents of p and such as can
      be found from there at hand. *)
  Definition comes_to (fuel : nat) (o : oracle) (sl : sloader) (l : loader) (p : pool) (doc : value) : Prop :=
    exists p1 o1 ref, fair o1 /\ grown (view sl l) p p1 /\
      Compile w fuel o sl l =
        match parse (view sl l) fuel o1 ref (root_draft w sl doc) doc (CState [] [] p1 []) with
        | COk id s => LOk (Schema (st_heap s) id s) (with_pool (st_pool s) (with_factory (LoaderFactory l) sl))
        | CErr e s => LErr e (with_pool (st_pool s) (with_factory (LoaderFactory l) sl))
        | CPanic => LPanic
        | CNoFuel => LNoFuel
        end.
  Definition docs_ok (p : pool) (doc : value) : Prop :=
    (forall r e, assoc r p = Some e -> doc_ok (sp_doc e)) /\ doc_ok doc /\ all_numbers (moderate lim) doc.
  Theorem compile_source fuel o sl l p doc : fair o -> loader_fit l -> sl_ok sl -> sl_validate sl = false -> source sl l p doc ->
    docs_ok p doc /\ comes_to fuel o sl l p doc.
  Proof.
    intros F Hfit Hs Hv S. destruct (source_doc (shift o 0) sl l p doc (shift_fair _ _ F) Hfit Hs S) as (H1 & H2 & H3 & H4 & ref & p1 & E & G).
    split; [split; [auto|split; auto]|]. exists p1, (shift (shift o 2) 1), ref. split; [repeat apply shift_fair; auto|]. split; auto.
    unfold Compile. rewrite E. cbn [lbind with_pool with_factory sl_validate]. rewrite Hv. cbn [lbind fst snd].
    rewrite source_parse; auto.
  Qed.

  (** *** The verdict *)
  Theorem comes_total fuel o sl l p doc sch sl' : docs_ok p doc -> comes_to fuel o sl l p doc ->
    let d := root_draft w sl doc in
    all_found (view sl l) p doc -> settled_in (found (view sl l) p doc) d ->
    Compile w fuel o sl l = LOk sch sl' ->
    let T := heads_to (view sl l) p doc d in
    guarded T d doc ->
    forall v, usual lim v ->
    (forall d' m x, needed T d doc v d' (VMap m) x -> assoc "$ref" m = None -> fits lim m x) ->
    forall o', fair o' ->
    exists r, returns (w_go w) (s_heap sch) (s_root sch) o' v r /\
      (Valid r = true <-> meaning (pat (w_go w)) (fmt (w_go w)) same T d doc v).
  Proof.
    intros (H1 & H2 & H3) (p1 & o1 & ref & F1 & Gr & EC) d Hc Hset E T G v ORD REG o' F'.
    pose proof (web_fetch_laws w (with_factory (LoaderFactory l) sl) HU HW) as HL. fold (view sl l) in HL. rewrite E in EC.
    destruct (parse (view sl l) fuel o1 ref _ doc _) as [id s|e s| |] eqn:EP; try discriminate EC. injection EC as -> ->. cbn [s_heap s_root].
    pose proof (fetch_acyclic (view sl l) HL p H1 doc H2 Hc d Hset fuel o1 ref p1 id s Gr F1 EP G) as AC.
    assert (M : meaning_at (pat (w_go w)) (fmt (w_go w)) same T d doc v (meaning (pat (w_go w)) (fmt (w_go w)) same T)).
    { apply meaning_exists. eapply guarded_well_founded; [exact G|constructor]. }
    pose proof (fetch_link (view sl l) HL p H1 doc H2 Hc d Hset fuel o1 ref p1 id s Gr F1 EP v _ ORD REG M) as LK.
    assert (VE : forall r, Valid r = true <-> errors r = []) by (intros r; unfold Valid; destruct (errors r); split; congruence).
    destruct (terminates (w_go w) (st_heap s) id v o' F' AC) as [[r R]|[k P]].
    - exists r. split; auto. destruct R as [k R]. rewrite VE. apply (proj2 (LK k o' _ F') r R).
    - exfalso. exact (proj1 (LK k o' _ F') P).
  Qed.
  Theorem source_total fuel o sl l p doc sch sl' :
    fair o -> loader_fit l -> sl_ok sl -> sl_validate sl = false -> source sl l p doc ->
    let d := root_draft w sl doc in
    all_found (view sl l) p doc -> settled_in (found (view sl l) p doc) d ->
    Compile w fuel o sl l = LOk sch sl' ->
    let T := heads_to (view sl l) p doc d in
    guarded T d doc ->
    forall v, usual lim v ->
    (forall d' m x, needed T d doc v d' (VMap m) x -> assoc "$ref" m = None -> fits lim m x) ->
    forall o', fair o' ->
    exists r, returns (w_go w) (s_heap sch) (s_root sch) o' v r /\
      (Valid r = true <-> meaning (pat (w_go w)) (fmt (w_go w)) same T d doc v).
  Proof.
    intros F Hfit Hs Hv S. destruct (compile_source fuel o sl l p doc F Hfit Hs Hv S) as [D C]. apply (comes_total fuel o sl l p doc sch sl' D C).
  Qed.

  (** *** Acceptance *)
  Theorem comes_shape fuel o sl l p doc lib : docs_ok p doc -> comes_to fuel o sl l p doc ->
    covered (view sl l) p lib doc -> lib_fuel doc lib < fuel ->
    let met := meets (heads_to (view sl l) p doc) (root_draft w sl doc) doc in
    match Compile w fuel o sl l with
    | LOk _ _ => read_ok (fun p => e_re_ok (w_go w) p = true) (fun s => w_parse w s <> None) (root_draft w sl doc) doc
    | LErr _ _ => ~ forall d v, met d v -> right (view sl l) d v
    | LPanic => ~ forall d v, met d v -> tame (view sl l) v
    | LNoFuel => False
    end.
  Proof.
    intros (H1 & H2 & H3) (p1 & o1 & ref & F1 & Gr & EC) Hcov Hfuel met.
    pose proof (web_fetch_laws w (with_factory (LoaderFactory l) sl) HU HW) as HL. fold (view sl l) in HL.
    pose proof (parse_covered (view sl l) HL p H1 doc H2 lib Hcov (root_draft w sl doc) fuel o1 ref p1 F1 Hfuel Gr) as P.
    rewrite EC. destruct (parse (view sl l) fuel o1 ref _ doc _) as [id s|e s| |]; auto.
  Qed.
  Theorem source_shape fuel o sl l p doc lib :
    fair o -> loader_fit l -> sl_ok sl -> sl_validate sl = false -> source sl l p doc ->
    covered (view sl l) p lib doc -> lib_fuel doc lib < fuel ->
    let met := meets (heads_to (view sl l) p doc) (root_draft w sl doc) doc in
    match Compile w fuel o sl l with
    | LOk _ _ => read_ok (fun p => e_re_ok (w_go w) p = true) (fun s => w_parse w s <> None) (root_draft w sl doc) doc
    | LErr _ _ => ~ forall d v, met d v -> right (view sl l) d v
    | LPanic => ~ forall d v, met d v -> tame (view sl l) v
    | LNoFuel => False
    end.
  Proof.
    intros F Hfit Hs Hv S. destruct (compile_source fuel o sl l p doc F Hfit Hs Hv S) as [D C]. apply (comes_shape fuel o sl l p doc lib D C).
  Qed.
End Source.
