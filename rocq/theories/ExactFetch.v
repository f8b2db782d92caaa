(** Whether a document whose references stand alone compiles: exactly when
    every schema met is right, in whatever order the maps are walked. *)
From Verif Require Export LoadFetch CompileVisit.
From Coq Require Import Lia.
Open Scope nat_scope.

Section Exact.
  Variable ce : cenv.
  Hypothesis HL : fetch_laws ce.
  Variable p0 : pool.
  Hypothesis Hp : forall r e, assoc r p0 = Some e -> doc_ok (sp_doc e).
  Variable doc : value.
  Hypothesis Hdoc : doc_ok doc.
  Variable lib : pool.
  Hypothesis Hcov : covered ce p0 lib doc.
  Variable d0 : draft.
  Notation lim := (e_ratlim (c_go ce)).
  Notation re := (fun p => e_re_ok (c_go ce) p = true).
  Notation mod_ := (all_numbers (moderate lim)).
  Notation met := (meets (heads_to ce p0 doc) d0 doc).

  Theorem parse_right fuel o docref p id s : fair o -> grown ce p0 p ->
    (forall d v, met d v -> mod_ v) -> settled_in (SpecFetch.found ce p0 doc) d0 ->
    (forall d m k, met d (VMap m) -> assoc "$ref" m = Some (VStr k) -> sealed re d m) ->
    parse ce fuel o docref d0 doc (CState [] [] p []) = COk id s -> forall d v, met d v -> right ce d v.
  Proof.
    intros F KP Hmod Hone Hseal E. pose proof HL as (Hinh & _).
    assert (WG : forall d m k r, met d (VMap m) -> assoc "$ref" m = Some (VStr k) -> u_parse ce k = Some r ->
      forall o s, fair o -> grown ce p0 (st_pool s) -> exists e s', GetDocument ce o r s = COk e s' /\ grown ce p0 (st_pool s') /\ st_refs s' = st_refs s /\ SpecFetch.found ce p0 doc r e).
    { intros d m k r H Er Eu o' s' F' Hps. destruct (meets_found ce HL p0 Hp doc Hdoc lib Hcov d0 _ _ H) as (x & H1 & H2 & H3 & H4).
      pose proof (inside_mentions _ _ _ H2 (mentions_assoc _ _ Er)) as Mk. destruct (H4 _ _ Mk Eu) as [e L]. pose proof L as [R HF].
      destruct (GetDocument_finds ce HL p0 o' r e s' F' (reached_text ce HL p0 Hp doc Hdoc r R) (reached_parse ce HL p0 doc r R) Hps HF) as (s2 & Eg & K' & R').
      exists e, s2. auto. }
    destruct (parse_vis ce (fun b s r => Hinh b r s) met (grown ce p0) (SpecFetch.found ce p0 doc)) with (fuel := fuel) (o := o) (docref := docref) (d := d0) (doc := doc) (p := p) (id := id) (s' := s)
      as (S0 & R0 & HK); auto.
    - intros d v H. destruct (meets_found ce HL p0 Hp doc Hdoc lib Hcov d0 _ _ H) as (x & _ & H2 & H3 & _). eapply inside_doc_ok; eauto.
    - intros d m x. apply meets_sub.
    - intros d m k r e H Er Eu HG. eapply meets_ref; [exact H|exact Er|]. exists r, e. repeat (split; auto).
    - intros d m k r H Er Eu o' s1 e s2 F' P1 Eg. destruct (WG _ _ _ _ H Er Eu o' s1 F' P1) as (e' & s' & Eg' & X). rewrite Eg in Eg'. injection Eg' as <- <-. exact X.
    - intros d m k r H Er Eu o' s1 e s2 F' P1 Eg. destruct (WG _ _ _ _ H Er Eu o' s1 F' P1) as (e' & s' & Eg' & X). rewrite Eg in Eg'. discriminate.
    - constructor.
    - apply (seen_right ce (SpecFetch.found ce p0 doc) d0 doc) with (K := known s); auto.
      intros r e e' [_ X] [_ Y]. exact (finds_fun ce p0 r e e' X Y).
  Qed.
End Exact.

Section SourceExact.
  Variable w : world.
  Hypothesis HU : url_laws w.
  Hypothesis HW : web_laws w.
  Notation lim := (e_ratlim (w_go w)).
  Theorem comes_exact fuel o sl l p doc lib : docs_ok w p doc -> comes_to w fuel o sl l p doc ->
    covered (view w sl l) p lib doc -> lib_fuel doc lib < fuel ->
    let met := meets (heads_to (view w sl l) p doc) (root_draft w sl doc) doc in
    (forall d v, met d v -> all_numbers (moderate lim) v) -> settled_in (SpecFetch.found (view w sl l) p doc) (root_draft w sl doc) ->
    (forall d m k, met d (VMap m) -> assoc "$ref" m = Some (VStr k) -> sealed (fun p => e_re_ok (w_go w) p = true) d m) ->
    (exists sch sl', Compile w fuel o sl l = LOk sch sl') <-> forall d v, met d v -> right (view w sl l) d v.
  Proof.
    intros D C Hcov Hfuel met Hmod Hone Hseal.
    pose proof D as (H1 & H2 & H3). pose proof C as (p1 & o1 & ref & F1 & Gr & EC).
    pose proof (web_fetch_laws w (with_factory (LoaderFactory l) sl) HU HW) as HL. fold (view w sl l) in HL.
    pose proof (comes_shape w HU HW fuel o sl l p doc lib D C Hcov Hfuel) as SH. cbv zeta in SH. fold met in SH.
    pose proof (parse_right (view w sl l) HL p H1 doc H2 lib Hcov (root_draft w sl doc) fuel o1 ref p1) as P. rewrite EC in *.
    destruct (parse (view w sl l) fuel o1 ref _ doc _) as [id s|e s| |].
    - split; [|intros _; eauto]. intros _. apply (P id s); auto.
    - split; [intros (sch & sl' & X); discriminate|]. intros X. destruct (SH X).
    - split; [intros (sch & sl' & X); discriminate|]. intros X. destruct SH. intros d v M. destruct (X d v M) as [Y1 Y2]. split; auto.
      intros m -> [[b Eb]|(l0 & t & Et & Hin)].
      + destruct Y2 as ((_ & Y & _) & _). destruct (Y _ Eb) as [ds Z]. discriminate.
      + destruct Y2 as (_ & (Y & _) & _). destruct (Y _ Et) as [(t0 & Z & _)|(l1 & Z & _)]; [discriminate|]. unfold texts in Z. injection Z as ->.
        apply in_map_iff in Hin. destruct Hin as (x & Z & _). discriminate.
    - destruct SH.
  Qed.
  Theorem source_exact fuel o sl l p doc lib :
    fair o -> loader_fit l -> sl_ok sl -> sl_validate sl = false -> source w sl l p doc ->
    covered (view w sl l) p lib doc -> lib_fuel doc lib < fuel ->
    let met := meets (heads_to (view w sl l) p doc) (root_draft w sl doc) doc in
    (forall d v, met d v -> all_numbers (moderate lim) v) -> settled_in (SpecFetch.found (view w sl l) p doc) (root_draft w sl doc) ->
    (forall d m k, met d (VMap m) -> assoc "$ref" m = Some (VStr k) -> sealed (fun p => e_re_ok (w_go w) p = true) d m) ->
    (exists sch sl', Compile w fuel o sl l = LOk sch sl') <-> forall d v, met d v -> right (view w sl l) d v.
  Proof.
    intros F Hfit Hs Hv S. destruct (compile_source w HU HW fuel o sl l p doc F Hfit Hs Hv S) as [D C]. apply (comes_exact fuel o sl l p doc lib D C).
  Qed.
  (** Two runs, each with its own order, succeed or fail together. *)
  Theorem source_order fuel o fuel' o' sl l p doc lib :
    fair o -> fair o' -> loader_fit l -> sl_ok sl -> sl_validate sl = false -> source w sl l p doc ->
    covered (view w sl l) p lib doc -> lib_fuel doc lib < fuel -> lib_fuel doc lib < fuel' ->
    let met := meets (heads_to (view w sl l) p doc) (root_draft w sl doc) doc in
    (forall d v, met d v -> all_numbers (moderate lim) v) -> settled_in (SpecFetch.found (view w sl l) p doc) (root_draft w sl doc) ->
    (forall d m k, met d (VMap m) -> assoc "$ref" m = Some (VStr k) -> sealed (fun p => e_re_ok (w_go w) p = true) d m) ->
    (exists sch sl', Compile w fuel o sl l = LOk sch sl') <-> (exists sch sl', Compile w fuel' o' sl l = LOk sch sl').
  Proof.
    intros F F' Hfit Hs Hv S Hcov H1 H2 met Hmod Hone Hseal.
    rewrite (source_exact fuel o sl l p doc lib F Hfit Hs Hv S Hcov H1 Hmod Hone Hseal).
    rewrite (source_exact fuel' o' sl l p doc lib F' Hfit Hs Hv S Hcov H2 Hmod Hone Hseal). reflexivity.
  Qed.
End SourceExact.
