(** A compiled schema decides in bounded time; validation of schema documents
    against a meta-schema. *)
From Verif Require Export LoadFetch CompileDepth LoaderProps SpecMeta.
From Verif Require Import ReasonDue ModelError.
From Verif Require MessageProps.
From Coq Require Import Lia.
Open Scope nat_scope.

Section Decide.
  Variable w : world.
  Hypothesis HU : url_laws w.
  Hypothesis HW : web_laws w.
  Notation lim := (e_ratlim (w_go w)).

  (** Compile succeeds, and what it makes decides with fuel that depends only
      on the size of the instance and the depth of the document. *)
  Theorem comes_decides fuel o sl l p doc lib n : docs_ok w p doc -> comes_to w fuel o sl l p doc ->
    let ce := view w sl l in let d := root_draft w sl doc in let T := heads_to ce p doc d in
    covered ce p lib doc -> lib_fuel doc lib < fuel -> settled_in (found ce p doc) d ->
    (forall d' x, meets (heads_to ce p doc) d doc d' x -> right ce d' x) -> shallow T n d doc ->
    exists sch p', Compile w fuel o sl l = LOk sch (with_pool p' (with_factory (LoaderFactory l) sl)) /\ grown ce p p' /\
      forall v, usual lim v ->
      (forall d' m x, needed T d doc v d' (VMap m) x -> assoc "$ref" m = None -> fits lim m x) ->
      forall k o', fair o' -> vsize v * S n + n <= k ->
      exists r, validateDocument (w_go w) (s_heap sch) k o' (s_root sch) v = Ok r /\
        (Valid r = true <-> meaning (pat (w_go w)) (fmt (w_go w)) same T d doc v).
  Proof.
    intros HD HC ce d T Hcov Hfuel Hset Hr SH.
    pose proof (web_fetch_laws w (with_factory (LoaderFactory l) sl) HU HW) as HL. fold (view w sl l) in HL. fold ce in HL.
    pose proof (comes_shape w HU HW fuel o sl l p doc lib HD HC Hcov Hfuel) as C. cbv zeta in C. fold ce d in C.
    destruct HD as (H1 & H2 & H3). destruct HC as (p1 & o1 & ref & F1 & Gr & EC).
    fold ce d in EC, Gr. rewrite EC in C.
    destruct (parse ce fuel o1 ref d doc _) as [id s|e s| |] eqn:EP.
    2: { exfalso. apply C. auto. }
    2: { exfalso. apply C. intros d' x M. eapply right_tame; eauto. }
    2: destruct C.
    pose proof (covered_complete ce p doc lib Hcov) as Hall.
    exists (Schema (st_heap s) id s), (st_pool s). split; [auto|].
    split; [eapply (fetch_pool ce HL p H1 doc H2 Hall d); eauto|]. cbn [s_heap s_root]. intros v ORD REG k o' F' Hk.
    pose proof (lib_height ce (found ce p doc) (grown ce p) d Hset (found_docs ce HL p H1 doc H2 Hall) (found_fun ce p doc)
      (found_get ce HL p H1 doc H2) fuel o1 ref doc p1 id s n Gr H2 (found_closed ce p doc Hall) F1 EP SH) as Hh.
    assert (M : meaning_at (pat (w_go w)) (fmt (w_go w)) same T d doc v (meaning (pat (w_go w)) (fmt (w_go w)) same T)).
    { apply meaning_exists. eapply guarded_well_founded; [eapply shallow_guarded; exact SH|constructor]. }
    pose proof (fetch_link ce HL p H1 doc H2 Hall d Hset fuel o1 ref p1 id s Gr F1 EP v _ ORD REG M k o' [STRING_CONTEXT_ROOT] F') as [NP LK].
    pose proof (height_nf (w_go w) (st_heap s) id n o' v [STRING_CONTEXT_ROOT] k Hh F' Hk) as NF.
    assert (VE : forall r, Valid r = true <-> errors r = []) by (intros r; unfold Valid; destruct (errors r); split; congruence).
    change (c_go ce) with (w_go w) in NP, LK. unfold validateDocument. destruct (validateRecursive (w_go w) (st_heap s) k o' id v _) as [r| |]; [|destruct (NP eq_refl)|destruct (NF eq_refl)].
    exists r. split; auto. rewrite VE. apply LK. reflexivity.
  Qed.

  Theorem source_decides fuel o sl l p doc lib n :
    fair o -> loader_fit l -> sl_ok sl -> sl_validate sl = false -> source w sl l p doc ->
    let ce := view w sl l in let d := root_draft w sl doc in let T := heads_to ce p doc d in
    covered ce p lib doc -> lib_fuel doc lib < fuel -> settled_in (found ce p doc) d ->
    (forall d' x, meets (heads_to ce p doc) d doc d' x -> right ce d' x) -> shallow T n d doc ->
    exists sch p', Compile w fuel o sl l = LOk sch (with_pool p' (with_factory (LoaderFactory l) sl)) /\ grown ce p p' /\
      forall v, usual lim v ->
      (forall d' m x, needed T d doc v d' (VMap m) x -> assoc "$ref" m = None -> fits lim m x) ->
      forall k o', fair o' -> vsize v * S n + n <= k ->
      exists r, validateDocument (w_go w) (s_heap sch) k o' (s_root sch) v = Ok r /\
        (Valid r = true <-> meaning (pat (w_go w)) (fmt (w_go w)) same T d doc v).
  Proof.
    intros F Hfit Hs Hv S. destruct (compile_source w HU HW fuel o sl l p doc F Hfit Hs Hv S) as [D C]. apply (comes_decides fuel o sl l p doc lib n D C).
  Qed.

  (** ** Meta-schema validation *)

  Lemma parseSchemaURL_declared ce doc : doc_ok doc -> all_numbers (moderate (e_ratlim (c_go ce))) doc -> well_declared (u_parse ce) doc ->
    exists d, parseSchemaURL ce doc = Ok (inr (declared_url (u_parse ce) doc, d)).
  Proof.
    intros Hd Hm Hw. destruct Hw as [[b ->]|(m & -> & Hw)]; [exists None; reflexivity|]. unfold parseSchemaURL, declared_url. cbn [isKind obind negb existsb].
    unfold isKind; cbn. destruct (assoc "$schema" m) as [x|] eqn:E; [|exists None; reflexivity]. destruct (Hw _ eq_refl) as (s & r & -> & Er).
    cbn. rewrite Er. eexists. reflexivity.
  Qed.

  Lemma doc_decoded v : doc_ok v -> JsonDecode.decoded v.
  Proof.
    induction v using value_ind'; intros S0; pose proof S0 as [S P]; inversion S; subst; cbn [plain] in P; try discriminate P; try (repeat split; auto; constructor; fail).
    - apply JsonDecode.decoded_arr. rewrite forallb_forall in P. rewrite Forall_forall in *. intros x Hx. apply H; auto. split; auto.
    - apply doc_ok_map in S0. apply JsonDecode.decoded_map. split; [apply S0|]. destruct S0 as [_ F]. rewrite Forall_forall in *. intros x Hx. apply H; auto.
  Qed.
  (** The texts of errors, put together. *)
  Lemma errors_lines h root o v r : fair o -> doc_ok v -> returns (w_go w) h root o v r -> lines (errors r).
  Proof.
    intros F D R. assert (DV : JsonDecode.decoded v) by (apply doc_decoded; exact D).
    pose proof (MessageProps.error_text (w_go w) h root o v r go_show (fun _ => "") F DV R (fun s => eq_refl)) as H.
    unfold lines. cbn [Error]. induction (errors r) as [|e es IH].
    - exists []. split; [constructor|reflexivity].
    - inversion H as [|e' es' (p & ps & msg & H1 & H2 & H3 & H4) HF]; subst. destruct (IH HF) as (ls & HL & E). injection E as E.
      exists (append (SpecMessage.place p) (append ": " msg) :: ls). split; [constructor; auto; exists p, ps, msg; auto|].
      assert (X : String_of e = append (SpecMessage.place p) (append ": " msg)) by (unfold String_of; rewrite H4; reflexivity).
      unfold newline, concat_str in *. cbn [map fold_right]. rewrite X, E. reflexivity.
  Qed.
  Lemma meta_run fuel o sl doc : doc_ok doc -> all_numbers (moderate lim) doc -> (sl_auto sl = true -> well_declared (w_parse w) doc) ->
    validateMetaschema w fuel o sl doc =
      if String.eqb (meta_url w sl doc) "" then LOk tt sl
      else lbind (Compile0 w fuel (shift o 0) (with_validate false sl) (LRef 0 (meta_url w sl doc)))
             (fun sch sl =>
                let sl := with_validate true sl in
                lbind (run_out sl (validateDocument (w_go w) (s_heap sch) fuel (shift o 1) (s_root sch) doc))
                  (fun r sl => if Valid r then LOk tt sl else LErr (EMeta (errors r)) sl)).
  Proof.
    intros Hd Hm Hw. unfold validateMetaschema, meta_url.
    assert (E : (if sl_auto sl then lbind (run_out sl (parseSchemaURL (cenv_of w sl) doc)) (fun r sl => match r with inl e => LErr e sl | inr (u, _) => LOk u sl end) else LOk "" sl)
                = LOk (if sl_auto sl then declared_url (w_parse w) doc else "") sl).
    { destruct (sl_auto sl); [|reflexivity]. destruct (parseSchemaURL_declared (cenv_of w sl) doc Hd Hm (Hw eq_refl)) as [d ->]. reflexivity. }
    rewrite E. cbn [lbind]. set (u := if sl_auto sl then _ else _). destruct (String.eqb u "") eqn:Eu; cbn [andb]; [|rewrite Eu; reflexivity].
    destruct (sl_draft sl); reflexivity.
  Qed.

  (** Given the meta-schema, it says whether the document conforms. *)
  Theorem meta_decides fuel o sl doc p meta lib n :
    fair o -> sl_ok sl -> usual lim doc -> (sl_auto sl = true -> well_declared (w_parse w) doc) -> utf8_text (meta_url w sl doc) -> meta_url w sl doc <> "" ->
    let sl0 := with_validate false sl in let l := LRef 0 (meta_url w sl doc) in
    source w sl0 l p meta ->
    let ce := view w sl0 l in let d := root_draft w sl0 meta in let T := heads_to ce p meta d in
    covered ce p lib meta -> lib_fuel meta lib < fuel -> vsize doc * S n + n <= fuel -> settled_in (found ce p meta) d ->
    (forall d' x, meets (heads_to ce p meta) d meta d' x -> right ce d' x) -> shallow T n d meta ->
    (forall d' m x, needed T d meta doc d' (VMap m) x -> assoc "$ref" m = None -> fits lim m x) ->
    let conforms := meaning (pat (w_go w)) (fmt (w_go w)) same T d meta doc in
    forall V, meaning_at (pat (w_go w)) (fmt (w_go w)) same T d meta doc V ->
    exists p', grown ce p p' /\
      let sl' := with_pool p' (with_factory 0 (with_validate true sl)) in
      (conforms /\ validateMetaschema w fuel o sl doc = LOk tt sl' \/
       ~ conforms /\ exists es, tells (pat (w_go w)) (fmt (w_go w)) same V T d meta doc es /\ lines es /\ validateMetaschema w fuel o sl doc = LErr (EMeta es) sl').
  Proof.
    intros F Hs [Hd Hm] Hw Ht Hne sl0 l S ce d T Hcov Hf1 Hf2 Hset Hr SH Hfit conforms V HV.
    rewrite (meta_run fuel o sl doc Hd Hm Hw). apply String.eqb_neq in Hne. rewrite Hne.
    rewrite (Compile0_Compile w fuel (shift o 0) (with_validate false sl) (LRef 0 (meta_url w sl doc)) eq_refl).
    destruct (source_decides fuel (renumber (shift o 0)) sl0 l p meta lib n (renumber_fair _ (shift_fair _ _ F)) Ht Hs eq_refl S Hcov Hf1 Hset Hr SH) as (sch & p' & EC & G & Hdec).
    exists p'. split; [exact G|]. cbv zeta. fold sl0 l. rewrite EC. cbn [lbind].
    destruct (Hdec doc (conj Hd Hm) Hfit fuel (shift o 1) (shift_fair _ _ F) Hf2) as (r & Er & Hv). rewrite Er. cbn [run_out lbind].
    fold d T in Hv. fold conforms in Hv. destruct (Valid r) eqn:Vr; [left|right]; (split; [|try reflexivity]); [apply Hv; auto|intros C; apply Hv in C; discriminate C|].
    exists (errors r). split; [|split; [eapply errors_lines; [apply (shift_fair o 1 F)|exact Hd|exists fuel; exact Er]|reflexivity]]. pose proof (compile_source w HU HW fuel (renumber (shift o 0)) sl0 l p meta (renumber_fair _ (shift_fair _ _ F)) Ht Hs eq_refl S) as [D C].
    assert (HF : all_found ce p meta) by (intros x X; destruct (Hcov x X) as (e & _ & HX); eauto). assert (R : returns (w_go w) (s_heap sch) (s_root sch) (shift o 1) doc r) by (exists fuel; exact Er).
    split; [intros X; unfold Valid in Vr; rewrite X in Vr; discriminate Vr|]. split.
    - exact (comes_justified_at w HU HW fuel _ sl0 l p meta sch _ D C HF Hset EC doc V HV (conj Hd Hm) Hfit (shift o 1) r (shift_fair _ _ F) R).
    - exact (comes_due_at w HU HW fuel _ sl0 l p meta sch _ D C HF Hset EC doc V HV (conj Hd Hm) Hfit (shift o 1) r (shift_fair _ _ F) R).
  Qed.
End Decide.
