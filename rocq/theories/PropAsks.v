(** What Compile reads (C71).

    [says], [scope], [asked], [seen], [serves_the_same]: SpecAsks.v. *)
From Verif Require Import World2 CheckedPool CheckedFetch AskProps PropFetch.
From Verif Require SpecMeta.
From Verif Require Import SpecAsks.

(** ** C71 *)
(** Two worlds that serve the same documents at the URLs Compile has a reason to
    ask for: the outcome is the same, the compiled schema or the error, and
    what the loader holds afterwards.  No condition on the documents.  Documents
    the SchemaLoader holds are not asked for again. *)
Theorem C71_asked_only : forall w w', web_laws w -> meta_urls w -> forall sl l, serves_the_same w sl l w' ->
  forall fuel o, fair o -> Compile w' fuel o sl l = Compile w fuel o sl l.
Proof. exact compile_asks. Qed.
Print Assumptions C71_asked_only.
(** A SchemaLoader that holds every document there is a reason to ask for reads
    nothing, whatever is served, by anyone. *)
Theorem C71_offline : forall w w' fuel o sl l, web_laws w -> meta_urls w -> fair o ->
  w_go w' = w_go w -> w_parse w' = w_parse w -> w_inherits w' = w_inherits w -> w_strip w' = w_strip w ->
  w_fragment w' = w_fragment w -> w_canonical w' = w_canonical w -> (JsonReference w l = Some "" -> fst (LoadJSON w' l) = fst (LoadJSON w l)) ->
  (forall r, asked w sl l r -> w_canonical w r = true -> held w sl r) -> Compile w' fuel o sl l = Compile w fuel o sl l.
Proof. exact offline. Qed.
Print Assumptions C71_offline.
(** A text without "$ref" is compiled without reading anything. *)
Theorem C71_text : forall w w' fuel o l sl doc, web_laws w -> meta_urls w -> w_canonical w "" = false -> fair o ->
  w_go w' = w_go w -> w_parse w' = w_parse w -> w_inherits w' = w_inherits w -> w_strip w' = w_strip w ->
  w_fragment w' = w_fragment w -> w_canonical w' = w_canonical w ->
  given_text l -> w_parse w "#" = Some "" -> fst (LoadJSON w l) = Some doc -> sl_validate sl = false ->
  (forall s, ~ says doc "$ref" s) -> (forall k e s, In (k, e) (sl_pool sl) -> ~ says (sp_doc e) "$ref" s) ->
  Compile w' fuel o sl l = Compile w fuel o sl l.
Proof. exact text_asks. Qed.
Print Assumptions C71_text.
(** AddSchema with Validate off reads nothing but its own loader. *)
Theorem C71_add : forall w w' fuel o url l sl, w_go w' = w_go w -> w_parse w' = w_parse w -> w_inherits w' = w_inherits w -> w_strip w' = w_strip w ->
  w_fragment w' = w_fragment w -> w_canonical w' = w_canonical w -> fst (LoadJSON w' l) = fst (LoadJSON w l) -> sl_validate sl = false ->
  AddSchema w' fuel o url l sl = AddSchema w fuel o url l sl.
Proof. exact add_asks. Qed.
Print Assumptions C71_add.
Theorem C71_adds : forall w w' fuel ls, w_go w' = w_go w -> w_parse w' = w_parse w -> w_inherits w' = w_inherits w -> w_strip w' = w_strip w ->
  w_fragment w' = w_fragment w -> w_canonical w' = w_canonical w -> (forall l, In l ls -> fst (LoadJSON w' l) = fst (LoadJSON w l)) ->
  forall o sl, sl_validate sl = false -> AddSchemas w' fuel o ls sl = AddSchemas w fuel o ls sl.
Proof. exact adds_asks. Qed.
Print Assumptions C71_adds.

(** With Validate on it reads what compiling the meta-schema of the document by its
    URL reads ([meta_url]: SpecMeta.v). *)
Theorem C71_add_checked : forall w w' fuel o url l sl, w_go w' = w_go w -> w_parse w' = w_parse w -> w_inherits w' = w_inherits w -> w_strip w' = w_strip w ->
  w_fragment w' = w_fragment w -> w_canonical w' = w_canonical w -> fair o -> fst (LoadJSON w' l) = fst (LoadJSON w l) ->
  (forall doc, fst (LoadJSON w l) = Some doc -> SpecMeta.meta_url w sl doc <> "" -> serves_the_same w (with_validate false sl) (LRef 0 (SpecMeta.meta_url w sl doc)) w') ->
  AddSchema w' fuel o url l sl = AddSchema w fuel o url l sl.
Proof. exact add_checked_asks. Qed.
Print Assumptions C71_add_checked.

(** With Validate on, the tree of C01_any_loader_example is compiled by its URL:
    a file with the name of a page, a page that no document refers to, and a
    page in place of the built-in meta-schema change nothing. *)
Definition C71_other : world := serving [(0, "/x/types", "false")]
  [("http://x/other", "{""$ref"":""http://x/tree""}"); (META7, "false"); ("http://x/types", web_types); ("http://x/tree", web_tree)].
Definition C71_urls : list string := Eval vm_compute in asks web CheckedFetch.strict web_load 4.
Example C71_example : serves_the_same web CheckedFetch.strict web_load C71_other.
Proof.
  assert (B : closed_b web CheckedFetch.strict web_load C71_urls = true) by (vm_compute; reflexivity).
  do 6 (split; [reflexivity|]). split; [intros E; vm_compute in E; discriminate E|]. intros fs r Hf HA _ _. apply (asks_checked _ _ _ _ B) in HA.
  assert (E0 : fs = 0) by (destruct Hf; auto). subst fs. revert r HA. apply Forall_forall. unfold C71_urls. repeat (apply Forall_cons; [vm_compute; reflexivity|]). apply Forall_nil.
Qed.
(** The URLs that may be asked for there: the tree, the types, and the meta-schema,
    each with the references into it. *)
Definition C71_pages : list string := Eval vm_compute in plus [] (map (w_strip web) (filter (w_canonical web) C71_urls)).
Example C71_pages_example : C71_pages = ["http://x/tree"; "http://x/types"; META7].
Proof. reflexivity. Qed.
(** One of those documents does matter. *)
Example C71_asked_matter :
  let w' := serving [] [("http://x/tree", web_tree); ("http://x/types", "{""definitions"":{""pos"":1}}")] in
  In "http://x/types" C71_pages /\
  (exists sch sl, Compile web PropFetch.enough in_order CheckedFetch.strict web_load = LOk sch sl) /\
  (exists e sl, Compile w' PropFetch.enough in_order CheckedFetch.strict web_load = LErr e sl).
Proof.
  cbv zeta. split; [right; left; reflexivity|split].
  - assert (B : match Compile web PropFetch.enough in_order CheckedFetch.strict web_load with LOk _ _ => true | _ => false end = true) by (vm_compute; reflexivity).
    destruct (Compile web PropFetch.enough in_order CheckedFetch.strict web_load) as [sch sl| | |]; try discriminate B. eauto.
  - match goal with |- exists e sl, ?x = _ => assert (B : match x with LErr _ _ => true | _ => false end = true) by (vm_compute; reflexivity); destruct x as [|e sl| |]; try discriminate B; eauto end.
Qed.
(** A text with a "$schema" and an identifier, whatever is served. *)
Example C71_text_example : forall files pages,
  let l := LString "{""$schema"":""http://json-schema.org/draft-06/schema#"",""$id"":""http://x/a"",""properties"":{""p"":{""$id"":""b"",""enum"":[""$ref""]}}}" in
  Compile (serving files pages) FUEL in_order NewSchemaLoader l = Compile world0 FUEL in_order NewSchemaLoader l /\
  exists sch sl, Compile world0 FUEL in_order NewSchemaLoader l = LOk sch sl.
Proof.
  intros files pages. cbv zeta. split.
  - apply C71_text with (doc := the_doc "{""$schema"":""http://json-schema.org/draft-06/schema#"",""$id"":""http://x/a"",""properties"":{""p"":{""$id"":""b"",""enum"":[""$ref""]}}}").
    + exact (serving_web [] []).
    + exact (serving_meta [] []).
    + reflexivity.
    + exact in_order_fair.
    + reflexivity.
    + reflexivity.
    + reflexivity.
    + reflexivity.
    + reflexivity.
    + reflexivity.
    + exact I.
    + reflexivity.
    + vm_compute. reflexivity.
    + reflexivity.
    + intros s H. apply said_says in H. vm_compute in H. destruct H.
    + intros k e s [].
  - match goal with |- exists e sl, ?x = _ => assert (B : match x with LOk _ _ => true | _ => false end = true) by (vm_compute; reflexivity); destruct x as [sch sl| | |]; try discriminate B; eauto end.
Qed.
(** The tree is checked against the built-in meta-schema and added, whatever is
    served. *)
Definition C71_meta_urls : list string := Eval vm_compute in asks world0 NewSchemaLoader (LRef 0 META7) 4.
Example C71_add_example : forall files pages,
  AddSchema (serving files pages) PropFetch.enough in_order "http://x/tree" (LString web_tree) CheckedFetch.strict =
  AddSchema world0 PropFetch.enough in_order "http://x/tree" (LString web_tree) CheckedFetch.strict /\
  exists sl, AddSchema world0 PropFetch.enough in_order "http://x/tree" (LString web_tree) CheckedFetch.strict = LOk tt sl.
Proof.
  intros files pages. split.
  - apply C71_add_checked; try reflexivity; [exact in_order_fair|]. intros doc E _.
    assert (EM : SpecMeta.meta_url world0 CheckedFetch.strict doc = META7) by (vm_compute in E; injection E as <-; vm_compute; reflexivity). rewrite EM.
    assert (B : closed_b world0 NewSchemaLoader (LRef 0 META7) C71_meta_urls = true) by (vm_compute; reflexivity).
    do 6 (split; [reflexivity|]). split; [intros J; vm_compute in J; discriminate J|]. intros fs r Hf HA. intros C N. clear N. revert C. apply (asks_checked world0 NewSchemaLoader (LRef 0 META7) _ B) in HA.
    assert (E0 : fs = 0) by (destruct Hf; auto). subst fs. revert r HA.
    apply (proj1 (Forall_forall (fun r => w_canonical world0 r = true -> loadReference (serving files pages) 0 r = loadReference world0 0 r) C71_meta_urls)). unfold C71_meta_urls.
    repeat (apply Forall_cons; [intros C; vm_compute in C; try discriminate C; vm_compute; reflexivity|]). apply Forall_nil.
  - match goal with |- exists sl, ?x = _ => assert (B : match x with LOk _ _ => true | _ => false end = true) by (vm_compute; reflexivity); destruct x as [[] sl| | |]; try discriminate B; eauto end.
Qed.
Example C71_adds_example : forall files pages,
  AddSchemas (serving files pages) PropFetch.enough in_order [LString web_tree; LString web_types] NewSchemaLoader =
  AddSchemas world0 PropFetch.enough in_order [LString web_tree; LString web_types] NewSchemaLoader /\
  exists sl, AddSchemas world0 PropFetch.enough in_order [LString web_tree; LString web_types] NewSchemaLoader = LOk tt sl.
Proof.
  intros files pages. split.
  - apply C71_adds; try reflexivity. intros l [<-|[<-|[]]]; reflexivity.
  - match goal with |- exists sl, ?x = _ => assert (B : match x with LOk _ _ => true | _ => false end = true) by (vm_compute; reflexivity); destruct x as [[] sl| | |]; try discriminate B; eauto end.
Qed.
(** The tree and the types added, then compiled by URL: whatever is served. *)
Definition C71_held : sloader := Eval vm_compute in
  match AddSchema world0 FUEL in_order "http://x/tree" (LString web_tree) NewSchemaLoader with
  | LOk _ sl => match AddSchema world0 FUEL in_order "http://x/types" (LString web_types) sl with LOk _ sl' => sl' | _ => sl end
  | _ => NewSchemaLoader
  end.
Definition C71_held_urls : list string := Eval vm_compute in asks world0 C71_held web_load 4.
Example C71_offline_example : forall files pages,
  Compile (serving files pages) FUEL in_order C71_held web_load = Compile world0 FUEL in_order C71_held web_load /\
  exists sch sl, Compile world0 FUEL in_order C71_held web_load = LOk sch sl.
Proof.
  intros files pages. split.
  - apply C71_offline; try reflexivity; try exact (serving_web [] []); try exact (serving_meta [] []); try exact in_order_fair; [intros J; vm_compute in J; discriminate J|].
    assert (B : closed_b world0 C71_held web_load C71_held_urls = true) by (vm_compute; reflexivity).
    intros r HA. apply (asks_checked world0 C71_held web_load _ B) in HA. revert r HA.
    apply (proj1 (Forall_forall (fun r => w_canonical world0 r = true -> held world0 C71_held r) C71_held_urls)). unfold C71_held_urls.
    repeat (apply Forall_cons; [intros C; vm_compute in C; try discriminate C; right; vm_compute; discriminate|]). apply Forall_nil.
  - match goal with |- exists e sl, ?x = _ => assert (B : match x with LOk _ _ => true | _ => false end = true) by (vm_compute; reflexivity); destruct x as [sch sl| | |]; try discriminate B; eauto end.
Qed.
