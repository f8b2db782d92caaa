(** References that lead nowhere: any loader, Validate, and Go's net/url. *)
From Verif Require Import DraftsLoad URLProps.
From Verif Require Export LostFetch.
Open Scope string_scope.
Open Scope list_scope.
Open Scope nat_scope.

Section Source.
  Variable w : world.
  Hypothesis HU : url_laws w.
  Hypothesis HW : web_laws w.
  Notation lim := (e_ratlim (w_go w)).
  Notation re := (fun p => e_re_ok (w_go w) p = true).
  Notation url := (fun s => w_parse w s <> None).
  Theorem source_dangles fuel o sl l p doc e sl' :
    fair o -> loader_fit l -> sl_ok sl -> sl_validate sl = false -> source w sl l p doc -> either_way (view w sl l) p doc ->
    let met := meets (heads_to (view w sl l) p doc) (root_draft w sl doc) doc in
    (forall d v, met d v -> all_numbers (moderate lim) v) ->
    Compile w fuel o sl l = LErr e sl' ->
    (exists d v, met d v /\ blamed re url same d v e) \/
    exists d m k, met d (VMap m) /\ assoc "$ref" m = Some (VStr k) /\ dangles (view w sl l) p k e.
  Proof.
    intros F Hfit Hs Hv S. destruct (compile_source w HU HW fuel o sl l p doc F Hfit Hs Hv S) as [D C]. exact (comes_dangles w HU HW fuel o sl l p doc e sl' D C).
  Qed.
  Theorem source_resolves fuel o sl l p doc lib :
    fair o -> loader_fit l -> sl_ok sl -> sl_validate sl = false -> source w sl l p doc ->
    charted (view w sl l) p lib doc -> lib_fuel doc lib < fuel ->
    let T := heads_to (view w sl l) p doc in let met := meets T (root_draft w sl doc) doc in
    (forall d v, met d v -> all_numbers (moderate lim) v) -> settled_in (SpecFetch.found (view w sl l) p doc) (root_draft w sl doc) ->
    (forall d m k, met d (VMap m) -> assoc "$ref" m = Some (VStr k) -> sealed re d m) ->
    (exists sch sl', Compile w fuel o sl l = LOk sch sl') <->
    (forall d v, met d v -> right (view w sl l) d v) /\
    (forall d m k, met d (VMap m) -> assoc "$ref" m = Some (VStr k) -> exists d' x, T d k d' x).
  Proof.
    intros F Hfit Hs Hv S. destruct (compile_source w HU HW fuel o sl l p doc F Hfit Hs Hv S) as [D C]. exact (comes_resolves w HU HW fuel o sl l p doc lib D C).
  Qed.
  Theorem source_charted fuel o sl l p doc lib :
    fair o -> loader_fit l -> sl_ok sl -> sl_validate sl = false -> source w sl l p doc ->
    charted (view w sl l) p lib doc -> lib_fuel doc lib < fuel ->
    Compile w fuel o sl l <> LNoFuel /\
    (Compile w fuel o sl l = LPanic -> ~ forall d v, meets (heads_to (view w sl l) p doc) (root_draft w sl doc) doc d v -> tame (view w sl l) v).
  Proof.
    intros F Hfit Hs Hv S. destruct (compile_source w HU HW fuel o sl l p doc F Hfit Hs Hv S) as [D C]. exact (comes_charted w HU HW fuel o sl l p doc lib D C).
  Qed.

  Hypothesis HM : meta_urls w.
  Hypothesis Hlim : (0 <= lim)%Z.
  Theorem checked_dangles fuel o sl l p doc d e sl' : checking w fuel o sl l p doc d -> d <> Hybrid -> either_way (view w sl l) p doc ->
    let met := meets (heads_to (view w sl l) p doc) d doc in
    (forall d v, met d v -> all_numbers (moderate lim) v) ->
    Compile w fuel o sl l = LErr e sl' -> lawful (fun f s => fmt (w_go w) f (VStr s)) same d doc ->
    (exists d v, met d v /\ blamed re url same d v e) \/
    exists d m k, met d (VMap m) /\ assoc "$ref" m = Some (VStr k) /\ dangles (view w sl l) p k e.
  Proof.
    intros CH Hd Hway met Hmod E L. pose proof CH as (H1 & H2 & H3 & H4 & H5 & H6 & H7 & H8 & H9 & H10 & H11).
    destruct (compile_checked w HU HW HM Hlim fuel o sl l p doc d H1 H2 H3 H4 H5 H6 H7 H8 H9 H10 H11) as [D K].
    assert (D1 : doc_ok doc) by apply D. pose proof (meta_root w sl doc d Hd H5 H10) as RD. apply (conforms_lawful (w_go w) d doc Hd D1) in L.
    destruct K as [[_ R]|[[_ C] _]]; [|contradiction].
    pose proof (comes_dangles w HU HW fuel o sl l p doc e sl' D R Hway) as X. cbv zeta in X. rewrite RD in X. exact (X Hmod E).
  Qed.
  Theorem checked_resolves fuel o sl l p doc d lib : checking w fuel o sl l p doc d -> d <> Hybrid ->
    charted (view w sl l) p lib doc -> lib_fuel doc lib < fuel ->
    let T := heads_to (view w sl l) p doc in let met := meets T d doc in
    (forall d v, met d v -> all_numbers (moderate lim) v) -> settled_in (SpecFetch.found (view w sl l) p doc) d ->
    (forall d m k, met d (VMap m) -> assoc "$ref" m = Some (VStr k) -> sealed re d m) ->
    (exists sch sl', Compile w fuel o sl l = LOk sch sl') <->
    lawful (fun f s => fmt (w_go w) f (VStr s)) same d doc /\
    (forall d v, met d v -> right (view w sl l) d v) /\
    (forall d m k, met d (VMap m) -> assoc "$ref" m = Some (VStr k) -> exists d' x, T d k d' x).
  Proof.
    intros CH Hd Hch Hfuel T met Hmod Hone Hseal. pose proof CH as (H1 & H2 & H3 & H4 & H5 & H6 & H7 & H8 & H9 & H10 & H11).
    destruct (compile_checked w HU HW HM Hlim fuel o sl l p doc d H1 H2 H3 H4 H5 H6 H7 H8 H9 H10 H11) as [D K].
    assert (D1 : doc_ok doc) by apply D. pose proof (meta_root w sl doc d Hd H5 H10) as RD. rewrite <- (conforms_lawful (w_go w) d doc Hd D1).
    destruct K as [[[C|C] R]|[[_ C] (es & sl2 & _ & E2 & _)]]; [contradiction| |].
    - pose proof (comes_resolves w HU HW fuel o sl l p doc lib D R Hch Hfuel) as X. cbv zeta in X. rewrite RD in X. rewrite (X Hmod Hone Hseal). fold T met. tauto.
    - split; [intros (sch & sl' & X); congruence|intros [X _]; contradiction].
  Qed.
End Source.

Section PlainLost.
  Variable go : goenv.
  Variable fs : nat -> string -> option string.
  Variable http : string -> option string.
  Variable rest : string -> string.
  Hypothesis HS : serves_plain go fs http rest.
  Notation P := (plain_world go fs http rest).
  Theorem plain_dangles fuel o sl l p doc e sl' :
    fair o -> loader_fit l -> sl_ok sl -> plain_loader go fs http rest l -> plain_pool go fs http rest (sl_pool sl) -> sl_validate sl = false -> source P sl l p doc ->
    either_way (view P sl l) p doc ->
    let met := meets (heads_to (view P sl l) p doc) (root_draft P sl doc) doc in
    (forall d v, met d v -> all_numbers (moderate (e_ratlim go)) v) ->
    Compile (go_world go fs http rest) fuel o sl l = LErr e sl' ->
    (exists d v, met d v /\ blamed (fun p => e_re_ok go p = true) (fun s => w_parse P s <> None) same d v e) \/
    exists d m k, met d (VMap m) /\ assoc "$ref" m = Some (VStr k) /\ dangles (view P sl l) p k e.
  Proof.
    intros Ho Hl Hs Tl Tp Hv Hsrc. rewrite plain_Compile by auto. destruct (plain_laws go fs http rest) as [L1 L2].
    exact (source_dangles P L1 L2 fuel o sl l p doc e sl' Ho Hl Hs Hv Hsrc).
  Qed.
  Theorem plain_resolves fuel o sl l p doc lib :
    fair o -> loader_fit l -> sl_ok sl -> plain_loader go fs http rest l -> plain_pool go fs http rest (sl_pool sl) -> sl_validate sl = false -> source P sl l p doc ->
    charted (view P sl l) p lib doc -> lib_fuel doc lib < fuel ->
    let T := heads_to (view P sl l) p doc in let met := meets T (root_draft P sl doc) doc in
    (forall d v, met d v -> all_numbers (moderate (e_ratlim go)) v) -> settled_in (SpecFetch.found (view P sl l) p doc) (root_draft P sl doc) ->
    (forall d m k, met d (VMap m) -> assoc "$ref" m = Some (VStr k) -> sealed (fun p => e_re_ok go p = true) d m) ->
    (exists sch sl', Compile (go_world go fs http rest) fuel o sl l = LOk sch sl') <->
    (forall d v, met d v -> right (view P sl l) d v) /\
    (forall d m k, met d (VMap m) -> assoc "$ref" m = Some (VStr k) -> exists d' x, T d k d' x).
  Proof.
    intros Ho Hl Hs Tl Tp Hv Hsrc. rewrite plain_Compile by auto. destruct (plain_laws go fs http rest) as [L1 L2].
    exact (source_resolves P L1 L2 fuel o sl l p doc lib Ho Hl Hs Hv Hsrc).
  Qed.
End PlainLost.
