(** What a SchemaLoader holds afterwards (C72).

    [entered], [asked], [seen], [scope], [outcome_loader]: SpecAsks.v. *)
From Verif Require Import World2 CheckedPool CheckedFetch AskProps PropFetch.
From Verif Require SpecMeta.
From Verif Require Import SpecAsks.

(** ** C72 *)
(** After Compile, successful or not, the SchemaLoader holds documents only under
    the URLs it held before, those there was a reason to ask for, and the URLs
    and identifiers of the documents read; and all those it held before. *)
Theorem C72_compile : forall w fuel o sl l sl', web_laws w -> meta_urls w -> fair o -> outcome_loader (Compile w fuel o sl l) sl' ->
  (forall k, assoc k (sl_pool sl') <> None -> entered w sl l k) /\ (forall k, assoc k (sl_pool sl) <> None -> assoc k (sl_pool sl') <> None).
Proof. exact compile_enters. Qed.
Print Assumptions C72_compile.
(** After AddSchema: only under the URL given and the identifiers in the document. *)
Theorem C72_add : forall w fuel o url l sl sl', fair o -> sl_validate sl = false -> outcome_loader (AddSchema w fuel o url l sl) sl' ->
  (forall k, assoc k (sl_pool sl') <> None -> assoc k (sl_pool sl) <> None \/
     exists ref doc, w_parse w url = Some ref /\ fst (LoadJSON w l) = Some doc /\ scope w ref doc k) /\
  (forall k, assoc k (sl_pool sl) <> None -> assoc k (sl_pool sl') <> None).
Proof. exact add_enters. Qed.
Print Assumptions C72_add.
(** With Validate on: also what compiling the meta-schema of the document by its URL
    brings in ([meta_url]: SpecMeta.v). *)
Theorem C72_add_checked : forall w fuel o url l sl sl', fair o -> outcome_loader (AddSchema w fuel o url l sl) sl' ->
  (forall k, assoc k (sl_pool sl') <> None -> assoc k (sl_pool sl) <> None \/
     exists ref doc, w_parse w url = Some ref /\ fst (LoadJSON w l) = Some doc /\
       (scope w ref doc k \/
        sl_validate sl = true /\ SpecMeta.meta_url w sl doc <> "" /\ entered w (with_validate false sl) (LRef 0 (SpecMeta.meta_url w sl doc)) k)) /\
  (forall k, assoc k (sl_pool sl) <> None -> assoc k (sl_pool sl') <> None).
Proof. exact add_checked_enters. Qed.
Print Assumptions C72_add_checked.
(** AddSchemas with Validate off: only under "" and the resolved identifiers in the
    documents. *)
Theorem C72_adds : forall w fuel ls o sl sl', fair o -> sl_validate sl = false -> outcome_loader (AddSchemas w fuel o ls sl) sl' ->
  (forall k, assoc k (sl_pool sl') <> None -> assoc k (sl_pool sl) <> None \/
     exists l doc, In l ls /\ fst (LoadJSON w l) = Some doc /\ scope w "" doc k) /\
  (forall k, assoc k (sl_pool sl) <> None -> assoc k (sl_pool sl') <> None).
Proof. exact adds_enter. Qed.
Print Assumptions C72_adds.

(** The tree of C01_any_loader_example with Validate on: the pool then has entries for
    the tree, the types and the meta-schema, and parts of them; none
    under another address ("types" is how the tree refers to the types). *)
Definition C72_urls : list string := Eval vm_compute in asks web CheckedFetch.strict web_load 4.
Definition page (k : string) : string := w_strip web k.
Example C72_example : exists sch sl', Compile web PropFetch.enough in_order CheckedFetch.strict web_load = LOk sch sl' /\
  (forall k, assoc k (sl_pool sl') <> None -> entered web CheckedFetch.strict web_load k) /\
  (forall k, assoc k (sl_pool sl') <> None -> In (page k) ["http://x/tree"; "http://x/types"; META7; "types"; ""]) /\
  assoc "http://x/tree" (sl_pool sl') <> None /\ assoc "http://x/types" (sl_pool sl') <> None /\ assoc META7 (sl_pool sl') <> None.
Proof.
  pose (x := Compile web PropFetch.enough in_order CheckedFetch.strict web_load).
  assert (B : match x with LOk _ sl' => (negb (match assoc "http://x/tree" (sl_pool sl') with None => true | _ => false end) &&
    negb (match assoc "http://x/types" (sl_pool sl') with None => true | _ => false end) && negb (match assoc META7 (sl_pool sl') with None => true | _ => false end))%bool | _ => false end = true) by (vm_compute; reflexivity).
  assert (E : x = Compile web PropFetch.enough in_order CheckedFetch.strict web_load) by reflexivity. clearbody x. destruct x as [sch sl'| | |]; try discriminate B. exists sch, sl'.
  destruct (C72_compile web PropFetch.enough in_order CheckedFetch.strict web_load sl') as [H _]; [apply serving_web|apply serving_meta|exact in_order_fair|rewrite <- E; reflexivity|].
  assert (C : closed_b web CheckedFetch.strict web_load C72_urls = true) by (vm_compute; reflexivity).
  split; [symmetry; exact E|]. split; [exact H|]. split.
  - intros k Hk. apply H in Hk. apply (entries_checked web CheckedFetch.strict web_load C72_urls C) in Hk.
    apply isin_In. revert k Hk. apply (proj1 (forallb_forall (fun k => isin ["http://x/tree"; "http://x/types"; META7; "types"; ""] (page k)) _)). vm_compute. reflexivity.
  - rewrite !andb_true_iff in B. destruct B as [[B1 B2] B3].
    split; [intros N; rewrite N in B1; discriminate B1|split; [intros N; rewrite N in B2; discriminate B2|intros N; rewrite N in B3; discriminate B3]].
Qed.
(** An identifier in a document that is added claims an address of its own. *)
Example C72_add_example : exists sl', AddSchema world0 FUEL in_order "http://x/a" (LString "{""$id"":""http://y/b"",""items"":{""$id"":""c""}}") NewSchemaLoader = LOk tt sl' /\
  map fst (sl_pool sl') = ["http://y/b"; "http://y/c"; "http://x/a"].
Proof.
  match goal with |- exists sl', ?x = _ /\ _ =>
    assert (B : match x with LOk _ sl' => map fst (sl_pool sl') | _ => [] end = ["http://y/b"; "http://y/c"; "http://x/a"]) by (vm_compute; reflexivity);
    destruct x as [[] sl'| | |]; try discriminate B end.
  exists sl'. split; [reflexivity|exact B].
Qed.
(** The second document has an identifier already taken: the call fails, and what was
    filed before that stays filed. *)
Example C72_adds_example : exists e sl', AddSchemas world0 FUEL in_order
    [LString "{""$id"":""http://y/b""}"; LString "{""properties"":{""p"":{""$id"":""http://y/c""}}}"; LString "{""$id"":""http://y/b""}"; LString "{""$id"":""http://y/d""}"] NewSchemaLoader = LErr e sl' /\
  map fst (sl_pool sl') = ["http://y/b"; "http://y/c"].
Proof.
  match goal with |- exists e sl', ?x = _ /\ _ =>
    assert (B : match x with LErr _ sl' => map fst (sl_pool sl') | _ => [] end = ["http://y/b"; "http://y/c"]) by (vm_compute; reflexivity);
    destruct x as [|e sl'| |]; try discriminate B end.
  exists e, sl'. split; [reflexivity|exact B].
Qed.
(** The tree is checked and added: the tree, and the meta-schema, entire or in part. *)
Example C72_add_checked_example : exists sl', AddSchema world0 PropFetch.enough in_order "http://x/tree" (LString web_tree) CheckedFetch.strict = LOk tt sl' /\
  (forall k, In k (map fst (sl_pool sl')) -> In (page k) ["http://x/tree"; META7]) /\ assoc META7 (sl_pool sl') <> None.
Proof.
  match goal with |- exists sl', ?x = _ /\ _ =>
    assert (B : match x with LOk _ sl' => (forallb (fun k => isin ["http://x/tree"; META7] (page k)) (map fst (sl_pool sl')) && negb (match assoc META7 (sl_pool sl') with None => true | _ => false end))%bool | _ => false end = true) by (vm_compute; reflexivity);
    destruct x as [[] sl'| | |]; try discriminate B end.
  exists sl'. apply andb_prop in B. destruct B as [B1 B2]. rewrite forallb_forall in B1. split; [reflexivity|]. split; [intros k Hk; apply isin_In; apply B1; exact Hk|].
  intros N. rewrite N in B2. discriminate B2.
Qed.
