(** The errors of Compile. *)
From Verif Require Import DraftsLoad URLProps.
From Verif Require Export LoadFetch ExactFetch ExactLoad FaultProps.
Open Scope string_scope.
Open Scope list_scope.
Open Scope nat_scope.

Section Fetched.
  Variable ce : cenv.
  Hypothesis HL : fetch_laws ce.
  Variable p0 : pool.
  Hypothesis Hp : forall r e, assoc r p0 = Some e -> doc_ok (sp_doc e).
  Variable doc : value.
  Hypothesis Hdoc : doc_ok doc.
  Hypothesis Hall : all_found ce p0 doc.
  Variable d0 : draft.
  Notation lim := (e_ratlim (c_go ce)).
  Notation re := (fun p => e_re_ok (c_go ce) p = true).
  Notation url := (fun s => u_parse ce s <> None).
  Notation met := (meets (heads_to ce p0 doc) d0 doc).
  Hypothesis Hmod : forall d v, met d v -> all_numbers (moderate lim) v.

  Lemma met_found d v : met d v -> doc_ok v /\ closed_in ce (SpecFetch.found ce p0 doc) v.
  Proof.
    induction 1 as [|d m x _ IH S|d m k d' x _ IH E L].
    - split; auto. apply found_closed. auto.
    - destruct IH as [H1 H2]. apply inside_subschema in S. split; [eapply inside_doc_ok; eauto|]. intros k r M E. eapply H2; [|exact E]. eapply inside_mentions; eauto.
    - destruct L as (r & e & _ & L & -> & _). exact (found_docs ce HL p0 Hp doc Hdoc Hall r e L).
  Qed.
  Theorem parse_fault fuel o docref p : fair o -> grown ce p0 p ->
    match parse ce fuel o docref d0 doc (CState [] [] p []) with
    | CErr e _ => exists d v, met d v /\ blamed re url same d v e
    | _ => True
    end.
  Proof.
    intros F KP. pose proof HL as (Hinh & _).
    apply (parse_blames ce (fun b s r => Hinh b r s) met (grown ce p0) (fun e => exists d v, met d v /\ blamed re url same d v e)); auto.
    - intros d v H. split; [apply (met_found d v H)|apply (Hmod d v H)].
    - intros d m x. apply meets_sub.
    - intros d v e H Hb. eauto.
    - intros d m k r H Er Eu o' F' s Hps. destruct (met_found _ _ H) as [_ H4]. destruct (H4 _ _ (mentions_assoc _ _ Er) Eu) as [e L]. pose proof L as [R HF].
      destruct (GetDocument_finds ce HL p0 o' r e s F' (reached_text ce HL p0 Hp doc Hdoc r R) (reached_parse ce HL p0 doc r R) Hps HF) as (s' & -> & K' & _).
      split; auto. eapply meets_ref; eauto. exists r, e. auto.
    - constructor.
  Qed.
End Fetched.

Section SourceFault.
  Variable w : world.
  Hypothesis HU : url_laws w.
  Hypothesis HW : web_laws w.
  Notation lim := (e_ratlim (w_go w)).
  Notation re := (fun p => e_re_ok (w_go w) p = true).
  Notation url := (fun s => w_parse w s <> None).
  Theorem comes_blames fuel o sl l p doc e sl' : docs_ok w p doc -> comes_to w fuel o sl l p doc ->
    all_found (view w sl l) p doc ->
    let met := meets (heads_to (view w sl l) p doc) (root_draft w sl doc) doc in
    (forall d v, met d v -> all_numbers (moderate lim) v) ->
    Compile w fuel o sl l = LErr e sl' -> exists d v, met d v /\ blamed re url same d v e.
  Proof.
    intros (H1 & H2 & H3) (p1 & o1 & ref & F1 & Gr & EC) Hall met Hmod E.
    pose proof (web_fetch_laws w (with_factory (LoaderFactory l) sl) HU HW) as HL. fold (view w sl l) in HL.
    pose proof (parse_fault (view w sl l) HL p H1 doc H2 Hall (root_draft w sl doc) Hmod fuel o1 ref p1 F1 Gr) as P.
    rewrite E in EC. destruct (parse (view w sl l) fuel o1 ref _ doc _) as [id s|e' s| |]; try discriminate. injection EC as -> _. exact P.
  Qed.
  Theorem source_blames fuel o sl l p doc e sl' :
    fair o -> loader_fit l -> sl_ok sl -> sl_validate sl = false -> source w sl l p doc -> all_found (view w sl l) p doc ->
    let met := meets (heads_to (view w sl l) p doc) (root_draft w sl doc) doc in
    (forall d v, met d v -> all_numbers (moderate lim) v) ->
    Compile w fuel o sl l = LErr e sl' -> exists d v, met d v /\ blamed re url same d v e.
  Proof.
    intros F Hfit Hs Hv S. destruct (compile_source w HU HW fuel o sl l p doc F Hfit Hs Hv S) as [D C]. apply (comes_blames fuel o sl l p doc e sl' D C).
  Qed.
  Theorem checked_blames (HM : meta_urls w) (Hlim : (0 <= lim)%Z) fuel o sl l p doc d e sl' : checking w fuel o sl l p doc d -> d <> Hybrid ->
    all_found (view w sl l) p doc ->
    let met := meets (heads_to (view w sl l) p doc) d doc in
    (forall d v, met d v -> all_numbers (moderate lim) v) ->
    Compile w fuel o sl l = LErr e sl' ->
    ((exists es, meta_tells (w_go w) d doc es /\ e = EMeta es) /\ ~ lawful (fun f s => fmt (w_go w) f (VStr s)) same d doc) \/
    (lawful (fun f s => fmt (w_go w) f (VStr s)) same d doc /\ exists d v, met d v /\ blamed re url same d v e).
  Proof.
    intros CH Hd Hall met Hmod E. pose proof CH as (H1 & H2 & H3 & H4 & H5 & H6 & H7 & H8 & H9 & H10 & H11).
    destruct (compile_checked w HU HW HM Hlim fuel o sl l p doc d H1 H2 H3 H4 H5 H6 H7 H8 H9 H10 H11) as [D K].
    assert (D1 : doc_ok doc) by apply D.
    pose proof (conforms_lawful (w_go w) d doc Hd D1) as CL. pose proof (meta_root w sl doc d Hd H5 H10) as RD. rewrite <- CL.
    destruct K as [[[C|C] R]|[[_ C] (es & sl2 & HT & E2 & _)]]; [contradiction| |].
    - right. split; auto. pose proof (comes_blames fuel o sl l p doc e sl' D R Hall) as X. cbv zeta in X. rewrite RD in X. exact (X Hmod E).
    - left. split; auto. exists es. split; auto. congruence.
  Qed.
End SourceFault.

Section PlainFault.
  Variable go : goenv.
  Variable fs : nat -> string -> option string.
  Variable http : string -> option string.
  Variable rest : string -> string.
  Hypothesis HS : serves_plain go fs http rest.
  Notation P := (plain_world go fs http rest).
  Theorem plain_blames fuel o sl l p doc e sl' :
    fair o -> loader_fit l -> sl_ok sl -> plain_loader go fs http rest l -> plain_pool go fs http rest (sl_pool sl) -> sl_validate sl = false -> source P sl l p doc ->
    all_found (view P sl l) p doc ->
    let met := meets (heads_to (view P sl l) p doc) (root_draft P sl doc) doc in
    (forall d v, met d v -> all_numbers (moderate (e_ratlim go)) v) ->
    Compile (go_world go fs http rest) fuel o sl l = LErr e sl' ->
    exists d v, met d v /\ blamed (fun p => e_re_ok go p = true) (fun s => w_parse P s <> None) same d v e.
  Proof.
    intros Ho Hl Hs Tl Tp Hv Hsrc. rewrite plain_Compile by auto. destruct (plain_laws go fs http rest) as [L1 L2].
    exact (source_blames P L1 L2 fuel o sl l p doc e sl' Ho Hl Hs Hv Hsrc).
  Qed.
End PlainFault.
