(** Properties of sessions with a SchemaLoader (C01 for added schemas).

    [self_contained]: the ids of the document are new to the loader, and every
    reference of it and of the documents added before leads to one of them or
    into one of them (LoadTotal.v); everything else as in PropCompile.v. *)
From Verif Require Import CheckedShape CheckedAlike.

(** ** C01 *)
Theorem C01_loader : forall w, url_laws w -> forall sl fuel o l doc sch sl',
  fair o -> (forall fs s, l <> LRef fs s) -> loader_fit l -> fst (LoadJSON w l) = Some doc -> all_numbers (moderate (e_ratlim (w_go w))) doc ->
  sl_validate sl = false -> self_contained w sl doc -> Compile w fuel o sl l = LOk sch sl' ->
  let d := root_draft w sl doc in
  let s := resolve (w_parse w) (w_inherits w) "" doc in
  let T := leads_to (cenv_of w sl) (known_documents w sl doc) d in
  guarded T d s ->
  forall v, usual (e_ratlim (w_go w)) v ->
  (forall d' m x, needed T d s v d' (VMap m) x -> assoc "$ref" m = None -> fits (e_ratlim (w_go w)) m x) ->
  forall o', fair o' ->
  exists r, returns (w_go w) (s_heap sch) (s_root sch) o' v r /\
    (Valid r = true <-> meaning (pat (w_go w)) (fmt (w_go w)) same T d s v).
Proof. exact compile_total. Qed.
Print Assumptions C01_loader.

(** A loader holding a recursive schema; the schema compiled refers into it. *)
Definition C01_added := "{""$id"":""http://x/tree"",""required"":[""n""],""properties"":{""n"":{""$ref"":""#/definitions/pos""},""kids"":{""items"":{""$ref"":""#""}}},
  ""definitions"":{""pos"":{""minimum"":1}}}".
Definition C01_sl : sloader := match AddSchemas world0 FUEL in_order [LString C01_added] NewSchemaLoader with LOk _ sl => sl | _ => NewSchemaLoader end.
Definition C01_user := "{""type"":""object"",""additionalProperties"":{""$ref"":""http://x/tree""},""properties"":{""max"":{""not"":{""$ref"":""http://x/tree#/definitions/pos""}}}}".
Definition C01_sl_lead : string -> option (draft * value) := lead (cenv_of world0 C01_sl) (known_documents world0 C01_sl (the_doc C01_user)) (root_draft world0 C01_sl (the_doc C01_user)).
Definition C01_sl_here : draft * value := (root_draft world0 C01_sl (the_doc C01_user), resolve parse0 inherits0 "" (the_doc C01_user)).
Definition C01_sl_all : list (draft * value) := collect C01_sl_lead 40 [C01_sl_here] [].
Example C01_loader_example :
  self_contained world0 C01_sl (the_doc C01_user) /\
  (let T := leads_to (cenv_of world0 C01_sl) (known_documents world0 C01_sl (the_doc C01_user)) (fst C01_sl_here) in
   guarded T (fst C01_sl_here) (snd C01_sl_here) /\
   (forall d m, within T (fst C01_sl_here) (snd C01_sl_here) d (VMap m) -> assoc "$ref" m = None -> regular 1000000 m)) /\
  match Compile world0 FUEL in_order C01_sl (LString C01_user) with
  | LOk sch _ => error_names (validateDocument go0 (s_heap sch) FUEL in_order (s_root sch) (the_doc "{""max"":1,""a"":{""n"":1,""kids"":[{""n"":0},{}]}}")) =
      [("number_gte", "a.kids.0.n"); ("required", "a.kids.1"); ("number_not", "max")]
  | _ => False
  end.
Proof.
  assert (S : session world0 (tame_number 1000000) C01_sl).
  { refine (session_call _ _ NewSchemaLoader FUEL in_order (DoAddSchemas [LString C01_added]) _ (session_new _ _) in_order_fair _ _).
    - cbn [call_mild]. repeat first [apply Forall_nil | apply Forall_cons]; apply loads_mild_checked; vm_compute; reflexivity.
    - left. vm_compute. reflexivity. }
  destruct (session_fine world0 world0_laws (tame_number 1000000) (fun s H => proj1 H) served0 _ S) as [[HF _] _].
  split; [|split].
  - unfold self_contained. repeat match goal with |- _ /\ _ => apply conj end.
    + split; [vm_compute; constructor|intros r X; vm_compute in X; destruct X].
    + intros r e E. split; [apply (HF r e E)|]. apply closed_checked. assert (X : pool_closed_b world0 C01_sl (the_doc C01_user) = true) by (vm_compute; reflexivity).
      unfold pool_closed_b in X. rewrite forallb_forall in X. apply (X (r, e)). apply assoc_In. auto.
    + right. intros r e x E1 E2.
      assert (X : forallb (fun q => match sp_draft (snd q) with Some d => draft_eqb d (root_draft world0 C01_sl (the_doc C01_user)) | None => true end)
                    (known_documents world0 C01_sl (the_doc C01_user)) = true) by (vm_compute; reflexivity).
      rewrite forallb_forall in X. apply assoc_In in E1. specialize (X _ E1). cbn [snd] in X. rewrite E2 in X. apply draft_eqb_eq. exact X.
    + apply closed_checked. vm_compute. reflexivity.
  - assert (G : guarded_b C01_sl_lead 30 C01_sl_all C01_sl_here = true) by (vm_compute; reflexivity).
    assert (R : regulars_b 1000000 C01_sl_all = true) by (vm_compute; reflexivity).
    assert (HL : forall k q, C01_sl_lead k = Some q -> forall d x, leads_to (cenv_of world0 C01_sl) (known_documents world0 C01_sl (the_doc C01_user)) (fst C01_sl_here) k d x -> (d, x) = q).
    { intros k q E. eapply lead_only. exact E. }
    cbv zeta. rewrite (surjective_pairing C01_sl_here) in G. split; [exact (guarded_checked _ _ HL _ _ _ _ G)|exact (regulars_checked _ _ HL _ _ _ _ _ G R)].
  - vm_compute. reflexivity.
Qed.
