(** The settings of a SchemaLoader and the document loaders (C30-C32, C40). *)
From Verif Require Import LoaderDraft CheckedFetch.
Open Scope string_scope.
Open Scope list_scope.

(** ** C30: Validate stays on *)
(** [do_call] (LoadPanic.v): Compile, AddSchema or AddSchemas. *)
Theorem C30_success : forall w fuel o c sl sl', is_setting c = false -> do_call w fuel o c sl = LOk tt sl' -> sl_validate sl' = sl_validate sl.
Proof. exact call_validate. Qed.
Print Assumptions C30_success.
(** A failing call loses it only when the meta-schema asked for could not be
    compiled. *)
Theorem C30_failure : forall w fuel o c sl e sl', is_setting c = false -> do_call w fuel o c sl = LErr e sl' ->
  sl_validate sl' = sl_validate sl \/
  sl_validate sl = true /\ sl_validate sl' = false /\
  exists url o' sl1 e', keeps sl sl1 /\ Compile w fuel o' (with_validate false sl1) (LRef 0 url) = LErr e' sl'.
Proof. exact failed_validate. Qed.
Print Assumptions C30_failure.
(** Never for documents of the known drafts ([checking]: MetaLoad.v). *)
Theorem C30_known_drafts : forall w, url_laws w -> web_laws w -> meta_urls w -> (0 <= e_ratlim (w_go w))%Z ->
  forall fuel o sl l p doc d, checking w fuel o sl l p doc d ->
  match Compile w fuel o sl l with LOk _ sl' | LErr _ sl' => sl_validate sl' = true | _ => True end.
Proof. exact checked_validate. Qed.
Print Assumptions C30_known_drafts.

(** A document naming a meta-schema that is not served turns Validate off; what
    follows is no longer validated. *)
Definition lost_first := "{""$schema"":""http://x/nowhere""}".
Definition lost_second := "{""$schema"":""http://json-schema.org/draft-07/schema#"",""examples"":7}".
Theorem C30_refuted : exists w fuel o sl c e sl' l,
  url_laws w /\ fair o /\ sl_validate sl = true /\ do_call w fuel o c sl = LErr e sl' /\ sl_validate sl' = false /\
  (exists es sl2, Compile w fuel o sl l = LErr (EMeta es) sl2) /\ (exists sch sl2, Compile w fuel o sl' l = LOk sch sl2).
Proof.
  exists (serving [] []), 1000, in_order, strict, (DoAddSchemas [LString lost_first]). eexists. eexists. exists (LString lost_second).
  split; [apply serving_laws|]. split; [apply in_order_fair|]. split; [reflexivity|]. split; [vm_compute; reflexivity|]. split; [reflexivity|].
  split; [eexists; eexists; vm_compute; reflexivity|]. eexists. eexists. vm_compute. reflexivity.
Qed.
Print Assumptions C30_refuted.
Example C30_example :
  is_setting (DoAddSchemas [LString lost_second]) = false /\
  (exists es sl, do_call (serving [] []) 1000 in_order (DoAddSchemas [LString lost_second]) strict = LErr (EMeta es) sl /\ sl_validate sl = true) /\
  (exists sl, do_call (serving [] []) 1000 in_order (DoAddSchemas [LString "{""$schema"":""http://json-schema.org/draft-07/schema#""}"]) strict = LOk tt sl /\ sl_validate sl = true).
Proof. split; [reflexivity|]. split; [eexists|]; eexists; (split; [vm_compute; reflexivity|reflexivity]). Qed.

(** ** C31: references are read through the loader's file system *)
(** [other_files w fs other]: the world w, but every file system except fs has
    the files that [other] says. *)
Theorem C31_file_system : forall w fs other fuel o sl l, LoaderFactory l = fs -> sl_validate sl = false ->
  Compile (other_files w fs other) fuel o sl l = Compile w fuel o sl l.
Proof. exact Compile_files. Qed.
Print Assumptions C31_file_system.

Definition vfs := 1.
Definition fs_main := "{""$schema"":""http://json-schema.org/draft-07/schema#"",""properties"":{""a"":{""$ref"":""b.json""}},""$id"":""file:///m.json""}".
Definition fs_world : world := serving [(vfs, "/m.json", fs_main); (vfs, "/b.json", "{""minimum"":3}"); (0, "/b.json", "{""minimum"":5}")] [].
Definition fs_names (x : lres schema) (t : string) :=
  match x with LOk sch _ => Some (error_names (validateDocument go0 (s_heap sch) FUEL in_order (s_root sch) (the_doc t))) | _ => None end.
(** With Validate on they are not: having fetched the meta-schema, the loader
    reads references from the operating system's files. *)
Theorem C31_refuted : exists w other fs fuel o sl l, url_laws w /\ fair o /\ LoaderFactory l = fs /\ sl_validate sl = true /\
  Compile (other_files w fs other) fuel o sl l <> Compile w fuel o sl l.
Proof.
  exists fs_world, (fun _ _ => None), vfs, 1000, in_order, strict, (LRef vfs "file:///m.json").
  split; [apply serving_laws|]. split; [apply in_order_fair|]. split; [reflexivity|]. split; [reflexivity|].
  intros E. assert (K : match Compile fs_world 1000 in_order strict (LRef vfs "file:///m.json") with LOk _ _ => true | _ => false end = true) by (vm_compute; reflexivity).
  rewrite <- E in K. vm_compute in K. discriminate K.
Qed.
Print Assumptions C31_refuted.
Example C31_example :
  fs_names (Compile fs_world 1000 in_order NewSchemaLoader (LRef vfs "file:///m.json")) "{""a"":4}" = Some [] /\
  fs_names (Compile (other_files fs_world vfs (fun _ _ => None)) 1000 in_order NewSchemaLoader (LRef vfs "file:///m.json")) "{""a"":2}" = Some [("number_gte", "a")] /\
  fs_names (Compile fs_world 1000 in_order strict (LRef vfs "file:///m.json")) "{""a"":4}" = Some [("number_gte", "a")].
Proof. vm_compute. auto. Qed.

(** ** C32: AutoDetect off *)
(** [undrafted]: no document of the pool has a draft of its own; this stays so
    while AutoDetect is off. *)
Theorem C32_pool : forall w fuel o c sl, (forall b, c <> SetAutoDetect b) -> sl_auto sl = false -> undrafted (sl_pool sl) ->
  match do_call w fuel o c sl with LOk _ sl' | LErr _ sl' => sl_auto sl' = false /\ undrafted (sl_pool sl') | _ => True end.
Proof. exact call_calm. Qed.
Print Assumptions C32_pool.
(** Then every schema taking part has the draft of the loader, and the verdict
    is the meaning under that draft.  Documents fetched on the way must not
    declare a draft (see [page], SpecFetch.v). *)
Theorem C32_draft : forall w, url_laws w -> web_laws w -> forall fuel o sl l p doc sch sl',
  fair o -> loader_fit l -> sl_ok sl -> sl_validate sl = false -> sl_auto sl = false -> undrafted (sl_pool sl) -> source w sl l p doc ->
  all_found (view w sl l) p doc -> Compile w fuel o sl l = LOk sch sl' ->
  let d := sl_draft sl in let T := heads_to (view w sl l) p doc d in
  (forall d' x, within T d doc d' x -> d' = d) /\
  (guarded T d doc ->
   forall v, usual (e_ratlim (w_go w)) v ->
   (forall d' m x, needed T d doc v d' (VMap m) x -> assoc "$ref" m = None -> fits (e_ratlim (w_go w)) m x) ->
   forall o', fair o' ->
   exists r, returns (w_go w) (s_heap sch) (s_root sch) o' v r /\
     (Valid r = true <-> meaning (pat (w_go w)) (fmt (w_go w)) same T d doc v)).
Proof. exact auto_off_verdict. Qed.
Print Assumptions C32_draft.

Definition off (d : draft) : sloader := SLoader [] false false d 0.
Definition off_page := "{""$schema"":""http://json-schema.org/draft-04/schema#"",""const"":1}".
Definition off_main := "{""$schema"":""http://json-schema.org/draft-04/schema#"",""const"":1,""allOf"":[{""$ref"":""http://x/p""}]}".
Definition off_world : world := serving [] [("http://x/p", off_page)].
(** A fetched document that declares a draft is read under that one. *)
Theorem C32_refuted : exists w fuel o o2 l d sl1 sch sch1 v, url_laws w /\ fair o /\
  (exists sl', Compile w fuel o (off d) l = LOk sch sl') /\
  do_call w fuel o (DoAddSchema "http://x/p" (LRef 0 "http://x/p")) (off d) = LOk tt sl1 /\
  (exists sl', Compile w fuel o sl1 l = LOk sch1 sl') /\
  match validateDocument (w_go w) (s_heap sch) fuel o2 (s_root sch) v, validateDocument (w_go w) (s_heap sch1) fuel o2 (s_root sch1) v with
  | Ok r, Ok r1 => Valid r = true /\ Valid r1 = false
  | _, _ => False
  end.
Proof.
  exists off_world, 1000, in_order, in_order, (LString "{""$ref"":""http://x/p""}"), Draft7. eexists. eexists. eexists. exists (VNum "2").
  split; [apply serving_laws|]. split; [apply in_order_fair|]. split; [eexists; vm_compute; reflexivity|]. split; [vm_compute; reflexivity|].
  split; [eexists; vm_compute; reflexivity|]. vm_compute. auto.
Qed.
Print Assumptions C32_refuted.
Example C32_example :
  undrafted [] /\
  fs_names (Compile off_world 1000 in_order (off Draft7) (LString "{""$schema"":""http://json-schema.org/draft-04/schema#"",""const"":1}")) "2" = Some [("const", "(root)")] /\
  fs_names (Compile off_world 1000 in_order NewSchemaLoader (LString "{""$schema"":""http://json-schema.org/draft-04/schema#"",""const"":1}")) "2" = Some [].
Proof. split; [intros r e E; discriminate E|]. vm_compute. auto. Qed.

(** ** C40: loaders agree *)
(** One JSON text, whatever follows it ([json]: SpecJson.v). *)
Theorem C40_texts : forall w s v rest, json verbatim s v -> (match v with VNum _ => stops rest | _ => True end) ->
  let x := append s rest in forall l, In l [LString x; LBytes x; LIO x] -> forall fuel o,
  (forall sl, Compile w fuel o sl l = Compile w fuel o sl (LRaw v)) /\
  (forall url sl, AddSchema w fuel o url l sl = AddSchema w fuel o url (LRaw v) sl) /\
  (forall ls sl, AddSchemas w fuel o (l :: ls) sl = AddSchemas w fuel o (LRaw v :: ls) sl) /\
  (forall sch, Schema_Validate w fuel o sch l = Schema_Validate w fuel o sch (LRaw v)).
Proof. exact texts_load. Qed.
Print Assumptions C40_texts.
(** A Go value made of what encoding/json decodes to is loaded as itself,
    members sorted. *)
Theorem C40_go_values : forall w v, std v -> plain v = true -> forall fuel o,
  (forall sl, Compile w fuel o sl (LGo v) = Compile w fuel o sl (LRaw (vsort v))) /\
  (forall url sl, AddSchema w fuel o url (LGo v) sl = AddSchema w fuel o url (LRaw (vsort v)) sl) /\
  (forall ls sl, AddSchemas w fuel o (LGo v :: ls) sl = AddSchemas w fuel o (LRaw (vsort v) :: ls) sl) /\
  (forall sch, Schema_Validate w fuel o sch (LGo v) = Schema_Validate w fuel o sch (LRaw (vsort v))).
Proof. exact go_load. Qed.
Print Assumptions C40_go_values.
(** A reader can be loaded once only. *)
Theorem C40_reader_refuted : exists w b v, fst (LoadJSON w (LIO b)) = Some v /\ fst (LoadJSON w (snd (LoadJSON w (LIO b)))) = None.
Proof. exists (serving [] []), "{}". eexists. split; [vm_compute; reflexivity|vm_compute; reflexivity]. Qed.
Print Assumptions C40_reader_refuted.
Example C40_example :
  (exists s, json verbatim s (VMap [("minimum", VNum "3")])) /\ std (VMap [("minimum", VNum "3")]) /\ plain (VMap [("minimum", VNum "3")]) = true /\
  fst (LoadJSON (serving [] []) (LGo (VMap [("b", VNil); ("a", VNum "3.0")]))) = Some (VMap [("a", VNum "3.0"); ("b", VNil)]) /\
  fst (LoadJSON (serving [] []) (LIO "[1] x")) = Some (VArr [VNum "1"]).
Proof.
  assert (S : std (VMap [("minimum", VNum "3")])).
  { constructor; [repeat constructor; intros []|]. constructor; [|constructor]. split; [apply utf8_checked; vm_compute; reflexivity|]. constructor. vm_compute. reflexivity. }
  split; [destruct (marshal_verbatim _ S eq_refl) as (t & _ & H); exists t; exact H|]. split; [exact S|]. split; [reflexivity|]. split; vm_compute; reflexivity.
Qed.
