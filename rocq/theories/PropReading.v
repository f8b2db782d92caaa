(** Every schema the compiler accepts, corner cases included (C01).

    [unheeded], [heeded], [reading_at] (SpecReading.v): the keywords the library accepts
    without heeding them, and the rules of the drafts for what remains.  [reading]
    (ReadingProps.v): the judgement obeying these rules.  The rest: PropFetch.v. *)
From Verif Require Import CheckedFetch CheckedLeaf ReadingProps.
Open Scope string_scope.
Open Scope list_scope.
Open Scope nat_scope.

(** No demand on the schema: only that numbers are within range of float64 where
    whole values are compared. *)
Theorem C01_every_schema : forall w, url_laws w -> web_laws w -> forall fuel o sl l p doc sch sl',
  fair o -> loader_fit l -> sl_ok sl -> sl_validate sl = false -> source w sl l p doc ->
  let d := root_draft w sl doc in
  all_found (view w sl l) p doc -> settled_in (found (view w sl l) p doc) d ->
  Compile w fuel o sl l = LOk sch sl' ->
  let T := heads_to (view w sl l) p doc d in
  guarded T d doc ->
  forall v, usual (e_ratlim (w_go w)) v ->
  (forall d' m x, needed T d doc v d' (VMap m) x -> assoc "$ref" m = None -> compares m -> in_float_range x) ->
  forall V, reading_at (e_ratlim (w_go w)) (pat (w_go w)) (fmt (w_go w)) same T d doc v V ->
  forall o', fair o' ->
  exists r, returns (w_go w) (s_heap sch) (s_root sch) o' v r /\ (Valid r = true <-> V d doc v).
Proof. exact source_reads. Qed.
Print Assumptions C01_every_schema.
(** One judgement obeys the rules, and it is what the drafts say where every keyword is heeded. *)
Theorem C01_reading : forall lim pat fmt same T d s, guarded T d s -> forall v,
  reading_at lim pat fmt same T d s v (reading lim pat fmt same T) /\
  ((forall d' m x, needed T d s v d' (VMap m) x -> (forall r, assoc "$ref" m <> Some (VStr r)) -> forall k y, assoc k m = Some y -> ~ unheeded lim k y) ->
   (reading lim pat fmt same T d s v <-> meaning pat fmt same T d s v)).
Proof. exact guarded_reading. Qed.
Print Assumptions C01_reading.
(** Elsewhere it is not: the library accepts the instance, the drafts do not. *)
Theorem C01_refuted : forall s t, In (s, t)
    [("{""items"":[],""additionalItems"":false}", "[1]"); ("{""enum"":[]}", "1"); ("{""type"":[]}", "1"); ("{""anyOf"":[]}", "1"); ("{""oneOf"":[]}", "1")] ->
  exists doc v, decode_use_number s = Some doc /\ decode_use_number t = Some v /\ valid s t = Some true /\
    forall d pat fmt same T V, meaning_at pat fmt same T d doc v V -> ~ V d doc v.
Proof.
  intros s t H. cbn [In] in H.
  repeat match type of H with _ \/ _ => destruct H as [[= <- <-]|H] end; [..|destruct H];
    (eexists; eexists; split; [vm_compute; reflexivity|]; split; [vm_compute; reflexivity|]; split; [vm_compute; reflexivity|]);
    intros d pat fmt same T V M; rewrite (M _ _ _ (needed_root _ _ _ _)); cbn [schema_sem assoc String.eqb Ascii.eqb Bool.eqb]; unfold keywords.
  - intros K. assert (A : s_additionalItems V d [("items", VArr []); ("additionalItems", VBool false)] (VArr [VNum "1"])) by tauto.
    refine (proj1 (A _ eq_refl _ _ eq_refl eq_refl (VNum "1") (or_introl eq_refl)) eq_refl).
  - intros (_ & _ & A & _). destruct (A _ eq_refl _ eq_refl) as (e & [] & _).
  - intros (A & _). destruct (proj2 (A _ eq_refl) _ eq_refl) as (e & [] & _).
  - intros (_ & _ & _ & _ & _ & A & _). destruct (A _ eq_refl _ eq_refl) as (e & [] & _).
  - intros (_ & _ & _ & _ & _ & _ & A & _). destruct (A _ eq_refl _ eq_refl) as ([|i] & e & E & _); discriminate E.
Qed.
Print Assumptions C01_refuted.

(** A recursive schema over two documents with keywords of both kinds. *)
Definition loose_tree := "{""$schema"":""http://json-schema.org/draft-07/schema#"",""$id"":""http://x/tree"",""enum"":[],
  ""properties"":{""n"":{""$ref"":""types#/definitions/pos""},""kids"":{""items"":{""$ref"":""#""}},""pair"":{""items"":[],""additionalItems"":false,""maxItems"":2}}}".
Definition loose_types := "{""definitions"":{""pos"":{""type"":[],""anyOf"":[],""exclusiveMinimum"":0}}}".
Definition loose := serving [] [("http://x/tree", loose_tree); ("http://x/types", loose_types)].
Definition loose_load := LRef 0 "http://x/tree".
Definition loose_doc : value := Eval vm_compute in match fetched_doc loose NewSchemaLoader loose_load "http://x/tree" with Some q => fst q | None => VNil end.
Definition loose_pool : pool := [("http://x/tree", Spd loose_doc (Some Draft7))].
Definition loose_ce := view loose NewSchemaLoader loose_load.
Definition loose_lib : pool := Eval vm_compute in gather loose_ce loose_pool 20 (mentioned loose_doc) [].
Definition loose_lead := flead loose_ce loose_pool Draft7.
Definition loose_all : list (draft * value) := Eval vm_compute in collect loose_lead 40 [(Draft7, loose_doc)] [].
Definition loose_value := "{""n"":3,""kids"":[{""n"":0},{""pair"":[1,2]},{""pair"":[1,2,3]}]}".
Lemma loose_covered : covered loose_ce loose_pool loose_lib loose_doc.
Proof. apply covered_checked. vm_compute. reflexivity. Qed.
Example C01_every_schema_example :
  source loose NewSchemaLoader loose_load loose_pool loose_doc /\ root_draft loose NewSchemaLoader loose_doc = Draft7 /\
  all_found loose_ce loose_pool loose_doc /\ settled_in (found loose_ce loose_pool loose_doc) Draft7 /\
  guarded (heads_to loose_ce loose_pool loose_doc Draft7) Draft7 loose_doc /\
  usual 1000000 (the_doc loose_value) /\ in_float_range (the_doc loose_value) /\
  match Compile loose FUEL in_order NewSchemaLoader loose_load with
  | LOk sch _ => error_names (validateDocument go0 (s_heap sch) FUEL in_order (s_root sch) (the_doc loose_value)) =
      [("number_gt", "kids.0.n"); ("array_max_items", "kids.2.pair")]
  | _ => False
  end.
Proof.
  split; [apply (fetched_checked loose NewSchemaLoader loose_load "http://x/tree" loose_doc (Some Draft7)); vm_compute; reflexivity|].
  split; [vm_compute; reflexivity|]. split; [exact (covered_all _ _ _ _ loose_covered)|].
  split; [apply (settled_checked _ _ _ _ _ loose_covered); vm_compute; reflexivity|].
  assert (G : guarded_b loose_lead 30 loose_all (Draft7, loose_doc) = true) by (vm_compute; reflexivity).
  split; [eapply guarded_checked; [apply flead_only|exact G]|].
  assert (O : ordinary 1000000 (the_doc loose_value)) by (apply ordinary_checked; [apply (PoolDocs.decode_doc_ok loose_value); vm_compute; reflexivity|vm_compute; reflexivity]).
  split; [apply ordinary_usual; exact O|]. split; [apply O|]. vm_compute. reflexivity.
Qed.
