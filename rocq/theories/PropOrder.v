(** The order in which documents are added to a SchemaLoader (C69).

    [same_library], [same_outcome], [same_schema], [added], [unrelated]:
    SpecOrder.v.  [addable]: as for C25 (PropPool.v). *)
From Coq Require Import Permutation.
From Verif Require Import CheckedPool OrderProps.
From Verif Require Import SpecOrder.

(** ** C69 *)
(** What a loader does depends on its documents only through what every URL
    means: the compiled schema, the error, and what is known afterwards. *)
Theorem C69_compile_alike : forall w fuel o sl sl' l, same_library sl sl' ->
  same_outcome same_schema (Compile w fuel o sl l) (Compile w fuel o sl' l).
Proof. exact Compile_same. Qed.
Print Assumptions C69_compile_alike.
Theorem C69_add_alike : forall w fuel o url l sl sl', same_library sl sl' ->
  same_outcome eq (AddSchema w fuel o url l sl) (AddSchema w fuel o url l sl').
Proof. exact AddSchema_same. Qed.
Print Assumptions C69_add_alike.
Theorem C69_adds_alike : forall w fuel ls o sl sl', same_library sl sl' ->
  same_outcome eq (AddSchemas w fuel o ls sl) (AddSchemas w fuel o ls sl').
Proof. exact AddSchemas_same. Qed.
Print Assumptions C69_adds_alike.
(** Documents that can be added, no two with a name in common: each is accepted,
    in whatever order they come. *)
Theorem C69_accepted : forall w, url_laws w -> forall sl ls,
  Forall (fun e => exists ref doc, addable w sl (fst e) (snd e) ref doc) ls -> unrelated w ls ->
  forall ls1 e ls2 sl1, Permutation ls (ls1 ++ e :: ls2) -> added w sl ls1 sl1 ->
  forall fuel o, fair o -> exists sl2, AddSchema w fuel o (fst e) (snd e) sl1 = LOk tt sl2.
Proof. exact order_goes_on. Qed.
Print Assumptions C69_accepted.
(** ... and in the end the same is known. *)
Theorem C69_order : forall w, url_laws w -> forall sl ls ls' sl1 sl2, Permutation ls ls' ->
  Forall (fun e => exists ref doc, addable w sl (fst e) (snd e) ref doc) ls -> unrelated w ls ->
  added w sl ls sl1 -> added w sl ls' sl2 ->
  same_library sl1 sl2 /\
  forall fuel o l, same_outcome same_schema (Compile w fuel o sl1 l) (Compile w fuel o sl2 l).
Proof.
  intros w HU sl ls ls' sl1 sl2 P R Un A1 A2. split; [exact (order_irrelevant w HU sl ls ls' sl1 sl2 P R Un A1 A2)|exact (order_compile w HU sl ls ls' sl1 sl2 P R Un A1 A2)].
Qed.
Print Assumptions C69_order.

Definition C69_docs : list (string * loader) :=
  [("http://x/a", LString "{""properties"":{""p"":{""$ref"":""b#/definitions/n""},""q"":{""$id"":""in"",""type"":""string""}}}");
   ("http://x/b", LString "{""definitions"":{""n"":{""minimum"":3},""m"":{""$ref"":""in""}}}");
   ("http://x/c", LString "{""$id"":""http://y/c"",""items"":{""$ref"":""http://x/a""}}")].
Fixpoint add_each (ls : list (string * loader)) (sl : sloader) : sloader :=
  match ls with [] => sl | (u, l) :: ls => add_each ls (loader_after (AddSchema world0 FUEL in_order u l sl)) end.
Fixpoint each_accepted (ls : list (string * loader)) (sl : sloader) : bool :=
  match ls with
  | [] => true
  | (u, l) :: ls => match AddSchema world0 FUEL in_order u l sl with LOk _ sl1 => each_accepted ls sl1 | _ => false end
  end.
Lemma each_added ls : forall sl, each_accepted ls sl = true -> added world0 sl ls (add_each ls sl).
Proof.
  induction ls as [|[u l] ls IH]; intros sl; cbn [each_accepted add_each]; [constructor|]. destruct (AddSchema world0 FUEL in_order u l sl) as [[] sl1| | |] eqn:E; try discriminate.
  intros H. apply added_one with (fuel := FUEL) (o := in_order) (sl1 := sl1); [apply in_order_fair|exact E|exact (IH sl1 H)].
Qed.
Definition verdict_of (sl : sloader) (t : string) (v : value) : option bool :=
  match Compile world0 FUEL in_order sl (LString t) with
  | LOk sch _ => match validateDocument go0 (s_heap sch) FUEL in_order (s_root sch) v with Ok r => Some (Valid r) | _ => None end
  | _ => None
  end.
Definition doc_at (e : string * loader) : value := match fst (LoadJSON world0 (snd e)) with Some d => d | None => VNil end.
Definition names_at (e : string * loader) : list string := fst e :: map fst (ids_of parse0 inherits0 (fst e) (doc_at e)).
Lemma names_listed e : w_parse world0 (fst e) = Some (fst e) -> loader_fit (snd e) -> forall r, name_of world0 e r -> In r (names_at e).
Proof.
  intros P L r (base & doc & Pb & Ld & N). rewrite P in Pb. injection Pb as <-. assert (D : doc_ok doc) by (eapply LoadJSON_doc_ok; eauto).
  unfold names_at, doc_at. rewrite Ld. destruct N as [->|(p & b & m & Hp & Hs)]; [left; reflexivity|right].
  change r with (fst (r, resolve parse0 inherits0 b (VMap m))). apply in_map. apply ids_positions; auto. eauto 6.
Qed.
Definition clash (e e' : string * loader) : bool := existsb (fun r => existsb (String.eqb r) (names_at e')) (names_at e).
Lemma no_clash e e' : w_parse world0 (fst e) = Some (fst e) -> loader_fit (snd e) -> w_parse world0 (fst e') = Some (fst e') -> loader_fit (snd e') ->
  clash e e' = false -> forall r, name_of world0 e r -> ~ name_of world0 e' r.
Proof.
  intros P L P' L' C r N N'. apply names_listed in N; auto. apply names_listed in N'; auto. enough (clash e e' = true) by congruence.
  apply existsb_exists. exists r. split; auto. apply existsb_exists. exists r. split; auto. apply String.eqb_refl.
Qed.
Example C69_example :
  Forall (fun e => exists ref doc, addable world0 NewSchemaLoader (fst e) (snd e) ref doc) C69_docs /\ unrelated world0 C69_docs /\
  added world0 NewSchemaLoader C69_docs (add_each C69_docs NewSchemaLoader) /\
  added world0 NewSchemaLoader (rev C69_docs) (add_each (rev C69_docs) NewSchemaLoader) /\
  map fst (sl_pool (add_each C69_docs NewSchemaLoader)) <> map fst (sl_pool (add_each (rev C69_docs) NewSchemaLoader)) /\
  match Compile world0 FUEL in_order (add_each (rev C69_docs) NewSchemaLoader) (LString "{""$ref"":""http://y/c""}") with
  | LOk sch _ => error_names (validateDocument go0 (s_heap sch) FUEL in_order (s_root sch) (the_doc "[{""p"":3},{""p"":2,""q"":1}]")) =
      [("number_gte", "1.p"); ("invalid_type", "1.q")]
  | _ => False
  end.
Proof.
  split; [|split; [|split; [|split; [|split; [vm_compute; discriminate|vm_compute; reflexivity]]]]].
  - assert (A : forall u t, addable_b NewSchemaLoader u t u = true -> exists ref doc, addable world0 NewSchemaLoader u (LString t) ref doc)
      by (intros u t H; exists u, (the_doc t); exact (addable_checked NewSchemaLoader u t u H [] [])).
    unfold C69_docs. repeat (apply Forall_cons; [apply A; vm_compute; reflexivity|]). apply Forall_nil.
  - unfold unrelated, C69_docs. repeat (apply FOP_cons; [repeat (apply Forall_cons; [apply no_clash; try exact I; vm_compute; reflexivity|]); apply Forall_nil|]). apply FOP_nil.
  - apply each_added. vm_compute. reflexivity.
  - apply each_added. vm_compute. reflexivity.
Qed.
(** A name in common: both orders are accepted, and the verdicts differ. *)
Definition C69_low := ("http://x/a", LString "{""definitions"":{""n"":{""$id"":""http://x/n"",""minimum"":5}}}").
Definition C69_high := ("http://x/b", LString "{""definitions"":{""n"":{""$id"":""http://x/n"",""maximum"":5}}}").
Theorem C69_related_matter : exists sl1 sl2,
  added world0 NewSchemaLoader [C69_low; C69_high] sl1 /\ added world0 NewSchemaLoader [C69_high; C69_low] sl2 /\
  verdict_of sl1 "{""$ref"":""http://x/n""}" (VNum "1") = Some false /\ verdict_of sl2 "{""$ref"":""http://x/n""}" (VNum "1") = Some true.
Proof.
  exists (add_each [C69_low; C69_high] NewSchemaLoader), (add_each [C69_high; C69_low] NewSchemaLoader).
  split; [apply each_added; vm_compute; reflexivity|]. split; [apply each_added; vm_compute; reflexivity|]. split; vm_compute; reflexivity.
Qed.
Print Assumptions C69_related_matter.
