(** Documents with references that Compile checks against a meta-schema, and
    with Go's URL library: when they are taken. *)
From Coq Require Import List String ZArith.
From Verif Require Import DraftsLoad URLProps ExactFetch.
Open Scope nat_scope.

Section CheckedLoad.
  Variable w : world.
  Hypothesis HU : url_laws w.
  Hypothesis HW : web_laws w.
  Hypothesis HM : meta_urls w.
  Hypothesis Hlim : (0 <= e_ratlim (w_go w))%Z.
  Notation lim := (e_ratlim (w_go w)).
  (** With Validate on. *)
  Theorem checked_exact fuel o sl l p doc d lib : checking w fuel o sl l p doc d -> d <> Hybrid ->
    covered (view w sl l) p lib doc -> lib_fuel doc lib < fuel ->
    let met := meets (heads_to (view w sl l) p doc) d doc in
    (forall d' v, met d' v -> all_numbers (moderate lim) v) -> settled_in (SpecFetch.found (view w sl l) p doc) d ->
    (forall d' m k, met d' (VMap m) -> assoc "$ref" m = Some (VStr k) -> sealed (fun p => e_re_ok (w_go w) p = true) d' m) ->
    (exists sch sl', Compile w fuel o sl l = LOk sch sl') <->
    lawful (fun f s => fmt (w_go w) f (VStr s)) same d doc /\ forall d' v, met d' v -> right (view w sl l) d' v.
  Proof.
    intros CH Hd Hcov Hfuel met Hmod Hone Hseal. pose proof CH as (H1 & H2 & H3 & H4 & H5 & H6 & H7 & H8 & H9 & H10 & H11).
    destruct (compile_checked w HU HW HM Hlim fuel o sl l p doc d H1 H2 H3 H4 H5 H6 H7 H8 H9 H10 H11) as [D K].
    assert (D1 : doc_ok doc) by apply D.
    pose proof (conforms_lawful (w_go w) d doc Hd D1) as CL. pose proof (meta_root w sl doc d Hd H5 H10) as RD. rewrite <- CL.
    destruct K as [[[C|C] R]|[[_ C] (es & sl' & HT & E & _)]]; [contradiction| |].
    - pose proof (comes_exact w HU HW fuel o sl l p doc lib D R Hcov Hfuel) as X. cbv zeta in X. rewrite RD in X. rewrite (X Hmod Hone Hseal). tauto.
    - split; [intros (sch & sl2 & E2); congruence|tauto].
  Qed.
End CheckedLoad.

Section PlainLoad.
  Variable go : goenv.
  Variable fs : nat -> string -> option string.
  Variable http : string -> option string.
  Variable rest : string -> string.
  Hypothesis HS : serves_plain go fs http rest.
  Notation P := (plain_world go fs http rest).
  Theorem plain_exact fuel o sl l p doc lib :
    fair o -> loader_fit l -> sl_ok sl -> plain_loader go fs http rest l -> plain_pool go fs http rest (sl_pool sl) -> sl_validate sl = false -> source P sl l p doc ->
    covered (view P sl l) p lib doc -> lib_fuel doc lib < fuel ->
    let met := meets (heads_to (view P sl l) p doc) (root_draft P sl doc) doc in
    (forall d v, met d v -> all_numbers (moderate (e_ratlim go)) v) -> settled_in (SpecFetch.found (view P sl l) p doc) (root_draft P sl doc) ->
    (forall d m k, met d (VMap m) -> assoc "$ref" m = Some (VStr k) -> sealed (fun p => e_re_ok go p = true) d m) ->
    (exists sch sl', Compile (go_world go fs http rest) fuel o sl l = LOk sch sl') <-> forall d v, met d v -> right (view P sl l) d v.
  Proof.
    intros Ho Hl Hs Tl Tp Hv Hsrc. rewrite plain_Compile by auto. destruct (plain_laws go fs http rest) as [L1 L2].
    exact (source_exact P L1 L2 fuel o sl l p doc lib Ho Hl Hs Hv Hsrc).
  Qed.
  Theorem plain_checked_exact fuel o sl l p doc d lib : (0 <= e_ratlim go)%Z ->
    plain_loader go fs http rest l -> plain_pool go fs http rest (sl_pool sl) -> checking P fuel o sl l p doc d -> d <> Hybrid ->
    covered (view P sl l) p lib doc -> lib_fuel doc lib < fuel ->
    let met := meets (heads_to (view P sl l) p doc) d doc in
    (forall d' v, met d' v -> all_numbers (moderate (e_ratlim go)) v) -> settled_in (SpecFetch.found (view P sl l) p doc) d ->
    (forall d' m k, met d' (VMap m) -> assoc "$ref" m = Some (VStr k) -> sealed (fun p => e_re_ok go p = true) d' m) ->
    (exists sch sl', Compile (go_world go fs http rest) fuel o sl l = LOk sch sl') <->
    lawful (fun f s => fmt go f (VStr s)) same d doc /\ forall d' v, met d' v -> right (view P sl l) d' v.
  Proof.
    intros HR Tl Tp CH. rewrite plain_Compile; auto; [|apply CH]. destruct (plain_laws go fs http rest) as [L1 L2].
    exact (checked_exact P L1 L2 (plain_meta go fs http rest) HR fuel o sl l p doc d lib CH).
  Qed.
End PlainLoad.
