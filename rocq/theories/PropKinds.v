(** Schema documents: keywords that speak about one kind of instance (C17), and the
    keywords each draft knows (C21).

    [of_kind], [keywords_on], [keywords_on_all], [vocabulary], [trim]: SpecKinds.v.
    The demands on loader and document are those of C01_every_schema
    (PropReading.v); [simple], [fitting], [verdict]: PropLogic.v;
    [compiled_from], [same_result]: PropCompile.v. *)
From Verif Require Import World0 World0Facts Checked0 CheckedShape CheckedFetch PropShape PropLogic KindProps.
Open Scope string_scope.
Open Scope list_scope.
Open Scope nat_scope.

(** ** C17 *)
(** A document whose keywords all speak about one kind accepts every instance that is not of that kind. *)
Theorem C17_document : forall w, url_laws w -> web_laws w -> forall fuel o sl l p m sch sl',
  fair o -> loader_fit l -> sl_ok sl -> sl_validate sl = false -> source w sl l p (VMap m) ->
  let d := root_draft w sl (VMap m) in
  all_found (view w sl l) p (VMap m) -> settled_in (found (view w sl l) p (VMap m)) d ->
  Compile w fuel o sl l = LOk sch sl' ->
  guarded (heads_to (view w sl l) p (VMap m) d) d (VMap m) ->
  forall k, (forall r, assoc "$ref" m <> Some (VStr r)) ->
  (forall key, In key (keywords_on_all ++ keywords_on Numbers ++ keywords_on Strings ++ keywords_on Arrays ++ keywords_on Objects) -> assoc key m <> None -> In key (keywords_on k)) ->
  forall v, ordinary (e_ratlim (w_go w)) v -> ~ of_kind k v ->
  forall o', fair o' -> exists r, returns (w_go w) (s_heap sch) (s_root sch) o' v r /\ Valid r = true.
Proof. exact other_kind_document. Qed.
Print Assumptions C17_document.
(** Beside other keywords: two schemas that differ in the keywords of one kind only
    give the same verdict on every instance that is not of that kind. *)
Theorem C17_isolated_documents : forall w, url_laws w -> forall k m m' v, simple w (VMap m) -> simple w (VMap m') ->
  (forall key, ~ In key (keywords_on k) -> assoc key m = assoc key m') ->
  usual (e_ratlim (w_go w)) v -> fitting w (VMap m) v -> fitting w (VMap m') v -> ~ of_kind k v ->
  exists b, verdict w (VMap m) v b /\ verdict w (VMap m') v b.
Proof. exact kind_isolated. Qed.
Print Assumptions C17_isolated_documents.

Definition entry_text := "{""$schema"":""http://json-schema.org/draft-07/schema#"",""$id"":""http://x/entry"",""title"":""entry"",""default"":{},
  ""required"":[""n""],""properties"":{""n"":{""$ref"":""types#/definitions/pos""},""next"":{""$ref"":""#""}},""additionalProperties"":false}".
Definition entry_types := "{""definitions"":{""pos"":{""minimum"":1}}}".
Definition entry := serving [] [("http://x/entry", entry_text); ("http://x/types", entry_types)].
Definition entry_load := LRef 0 "http://x/entry".
Definition entry_map : list (string * value) := Eval vm_compute in match fetched_doc entry NewSchemaLoader entry_load "http://x/entry" with Some (VMap m, _) => m | _ => [] end.
Definition entry_pool : pool := [("http://x/entry", Spd (VMap entry_map) (Some Draft7))].
Definition entry_ce := view entry NewSchemaLoader entry_load.
Definition entry_lib : pool := Eval vm_compute in gather entry_ce entry_pool 20 (mentioned (VMap entry_map)) [].
Definition entry_lead := flead entry_ce entry_pool Draft7.
Definition entry_all : list (draft * value) := Eval vm_compute in collect entry_lead 40 [(Draft7, VMap entry_map)] [].
Lemma entry_covered : covered entry_ce entry_pool entry_lib (VMap entry_map).
Proof. apply covered_checked. vm_compute. reflexivity. Qed.
Lemma entry_example :
  source entry NewSchemaLoader entry_load entry_pool (VMap entry_map) /\ root_draft entry NewSchemaLoader (VMap entry_map) = Draft7 /\
  all_found entry_ce entry_pool (VMap entry_map) /\ settled_in (found entry_ce entry_pool (VMap entry_map)) Draft7 /\
  guarded (heads_to entry_ce entry_pool (VMap entry_map) Draft7) Draft7 (VMap entry_map).
Proof.
  split; [apply (fetched_checked entry NewSchemaLoader entry_load "http://x/entry" (VMap entry_map) (Some Draft7)); vm_compute; reflexivity|].
  split; [vm_compute; reflexivity|]. split; [exact (covered_all _ _ _ _ entry_covered)|].
  split; [apply (settled_checked _ _ _ _ _ entry_covered); vm_compute; reflexivity|].
  assert (G : guarded_b entry_lead 30 entry_all (Draft7, VMap entry_map) = true) by (vm_compute; reflexivity).
  eapply guarded_checked; [apply flead_only|exact G].
Qed.
Example C17_document_example :
  source entry NewSchemaLoader entry_load entry_pool (VMap entry_map) /\
  all_found entry_ce entry_pool (VMap entry_map) /\ settled_in (found entry_ce entry_pool (VMap entry_map)) Draft7 /\
  guarded (heads_to entry_ce entry_pool (VMap entry_map) Draft7) Draft7 (VMap entry_map) /\
  (forall key, In key (keywords_on_all ++ keywords_on Numbers ++ keywords_on Strings ++ keywords_on Arrays ++ keywords_on Objects) -> assoc key entry_map <> None -> In key (keywords_on Objects)) /\
  ordinary 1000000 (the_doc "[{""n"":0}]") /\ ~ of_kind Objects (the_doc "[{""n"":0}]") /\
  match Compile entry FUEL in_order NewSchemaLoader entry_load with
  | LOk sch _ => error_names (validateDocument go0 (s_heap sch) FUEL in_order (s_root sch) (the_doc "[{""n"":0}]")) = [] /\
      error_names (validateDocument go0 (s_heap sch) FUEL in_order (s_root sch) (the_doc "{""n"":0}")) = [("number_gte", "n")]
  | _ => False
  end.
Proof.
  destruct entry_example as (H1 & _ & H3 & H4 & H5). do 4 (split; [assumption|]).
  split. { intros key I N. cbn [keywords_on_all keywords_on app In] in I. repeat (destruct I as [<-|I]; [first [exfalso; apply N; vm_compute; reflexivity|cbn; tauto]|]). destruct I. }
  split; [apply ordinary_checked; [apply (PoolDocs.decode_doc_ok "[{""n"":0}]"); vm_compute; reflexivity|vm_compute; reflexivity]|].
  split; [vm_compute; tauto|]. vm_compute. auto.
Qed.
Definition C17_with := "{""not"":{""const"":[2]},""type"":[""string"",""array""],""minLength"":9,""pattern"":""^x""}".
Definition C17_without := "{""type"":[""string"",""array""],""not"":{""const"":[2]}}".
Definition members (t : string) : list (string * value) := match the_doc t with VMap m => m | _ => [] end.
Example C17_isolated_documents_example :
  let m := members C17_with in let m' := members C17_without in
  simple world0 (VMap m) /\ simple world0 (VMap m') /\
  (forall key, ~ In key (keywords_on Strings) -> assoc key m = assoc key m') /\
  forall u, In u ["[1]"; "[2]"; "3"] -> usual 1000000 (the_doc u) /\ fitting world0 (VMap m) (the_doc u) /\ fitting world0 (VMap m') (the_doc u) /\ ~ of_kind Strings (the_doc u) /\
    map (fun t => match validate_text t u with Ok r => Some (Valid r) | _ => None end) [C17_with; C17_without] = (let b := Some (String.eqb u "[1]") in [b; b]).
Proof.
  assert (S1 : simple_b C17_with = true) by (vm_compute; reflexivity). assert (S2 : simple_b C17_without = true) by (vm_compute; reflexivity).
  assert (F : forall u, In u ["[1]"; "[2]"; "3"] -> fitting_b C17_with u = true /\ fitting_b C17_without u = true).
  { intros u Hu. cbn [In] in Hu. decompose [or] Hu; try contradiction; subst u; vm_compute; auto. }
  pose proof (simple_checked _ S1) as A1. pose proof (simple_checked _ S2) as A2. cbv zeta.
  assert (E1 : the_doc C17_with = VMap (members C17_with)) by (vm_compute; reflexivity). assert (E2 : the_doc C17_without = VMap (members C17_without)) by (vm_compute; reflexivity).
  split; [rewrite <- E1; exact A1|]. split; [rewrite <- E2; exact A2|]. split.
  - intros key N. cbn [keywords_on In] in N.
    replace (members C17_with) with [("not", the_doc "{""const"":[2]}"); ("type", the_doc "[""string"",""array""]"); ("minLength", VNum "9"); ("pattern", VStr "^x")] by (vm_compute; reflexivity).
    replace (members C17_without) with [("type", the_doc "[""string"",""array""]"); ("not", the_doc "{""const"":[2]}")] by (vm_compute; reflexivity).
    cbn [assoc]. destruct (String.eqb_spec key "not") as [->|]; [reflexivity|]. destruct (String.eqb_spec key "type"); [reflexivity|].
    destruct (String.eqb_spec key "minLength"); [exfalso; apply N; auto|]. destruct (String.eqb_spec key "pattern"); [exfalso; apply N; auto|reflexivity].
  - intros u Hu. destruct (F u Hu) as [F1 F2]. destruct (fitting_checked _ _ S1 F1) as [G1 G2], (fitting_checked _ _ S2 F2) as [G3 _]. rewrite E1 in G1. rewrite E2 in G3.
    split; [exact G2|]. split; [exact G1|]. split; [exact G3|]. cbn [In] in Hu. decompose [or] Hu; try contradiction; subst u; (split; [vm_compute; tauto|vm_compute; reflexivity]).
Qed.

(** ** C21 *)
(** Every member the draft does not know, dropped at every level: the schema still
    compiles and every result is the same. *)
Theorem C21_unknown_keywords : forall w, url_laws w -> forall sl doc,
  (forall m k t, inside doc (VMap m) -> In k ["$ref"; "$id"; "id"] -> ~ In (k, VStr t) m) ->
  doc_ok doc -> all_numbers (moderate (e_ratlim (w_go w))) doc -> sl_pool sl = [] -> sl_validate sl = false ->
  (sl_auto sl = true -> well_declared (w_parse w) doc) ->
  let d := root_draft w sl doc in
  well_formed (fun p => e_re_ok (w_go w) p = true) (fun s => w_parse w s <> None) same d doc ->
  exists sch sch', compiled_from w sl doc sch /\ compiled_from w sl (trim d doc) sch' /\
  forall sch sch', compiled_from w sl doc sch -> compiled_from w sl (trim d doc) sch' ->
  forall o o' v r, fair o -> fair o' -> wf_value v -> returns (w_go w) (s_heap sch) (s_root sch) o v r ->
  exists r', returns (w_go w) (s_heap sch') (s_root sch') o' v r' /\ same_result r r'.
Proof. exact trimmed. Qed.
Print Assumptions C21_unknown_keywords.
(** The keywords it knows are in force: const, contains, propertyNames from draft
    6, if/then/else from draft 7, the boolean exclusive bounds of draft 4 and
    hybrid mode, the numeric ones from draft 6 on. *)
Theorem C21_known_keywords : forall w, url_laws w -> web_laws w -> forall fuel o sl l p m sch sl',
  fair o -> loader_fit l -> sl_ok sl -> sl_validate sl = false -> source w sl l p (VMap m) ->
  let d := root_draft w sl (VMap m) in
  all_found (view w sl l) p (VMap m) -> settled_in (found (view w sl l) p (VMap m)) d ->
  Compile w fuel o sl l = LOk sch sl' ->
  let T := heads_to (view w sl l) p (VMap m) d in
  guarded T d (VMap m) -> (forall r, assoc "$ref" m <> Some (VStr r)) ->
  forall v, ordinary (e_ratlim (w_go w)) v -> forall V, reading_at (e_ratlim (w_go w)) (pat (w_go w)) (fmt (w_go w)) same T d (VMap m) v V ->
  forall o', fair o' -> exists r, returns (w_go w) (s_heap sch) (s_root sch) o' v r /\ (Valid r = true ->
    s_const same d m v /\ s_contains V d m v /\ s_propertyNames V d m v /\ s_if V d m v /\
    forall a q, is_num v q ->
      (d = Draft4 \/ d = Hybrid -> forall x, is_num x a ->
        (assoc "minimum" m = Some x -> assoc "exclusiveMinimum" m = Some (VBool true) -> (a < q)%Q) /\
        (assoc "maximum" m = Some x -> assoc "exclusiveMaximum" m = Some (VBool true) -> (q < a)%Q)) /\
      (since6 d -> forall t, moderate (e_ratlim (w_go w)) t -> denotes t a ->
        (assoc "exclusiveMinimum" m = Some (VNum t) -> (a < q)%Q) /\ (assoc "exclusiveMaximum" m = Some (VNum t) -> (q < a)%Q))).
Proof. exact heard_document. Qed.
Print Assumptions C21_known_keywords.

Definition C21_full (draft : string) := append "{""$schema"":""http://json-schema.org/draft-0" (append draft
  "/schema#"",""title"":""t"",""if"":{""type"":""array""},""then"":{""minItems"":3},
  ""items"":{""const"":1,""minimun"":7,""maximum"":8,""contains"":{""type"":""null""},""propertyNames"":{""maxLength"":1}}}").
Lemma C21_accepted s : (plain_checked NewSchemaLoader s && succeeds (Compile world0 FUEL in_order NewSchemaLoader (LString s)))%bool = true -> plain_accepted NewSchemaLoader s.
Proof.
  intros H. apply andb_prop in H. destruct H as [H1 H2]. apply plain_outcome; auto. destruct (Compile world0 FUEL in_order NewSchemaLoader (LString s)); try discriminate. eauto.
Qed.
Example C21_unknown_example : forall n, In n ["4"; "6"; "7"] ->
  let doc := the_doc (C21_full n) in
  (forall m k t, inside doc (VMap m) -> In k ["$ref"; "$id"; "id"] -> ~ In (k, VStr t) m) /\
  doc_ok doc /\ all_numbers (moderate 1000000) doc /\ well_declared parse0 doc /\
  well_formed (fun p => e_re_ok go0 p = true) (fun s => parse0 s <> None) same (root_draft world0 NewSchemaLoader doc) doc.
Proof.
  intros n Hn doc. assert (E : (free_b doc && numbers_b (moderate_b 1000000) doc && match decode_use_number (C21_full n) with Some _ => true | None => false end &&
    (plain_checked NewSchemaLoader (C21_full n) && succeeds (Compile world0 FUEL in_order NewSchemaLoader (LString (C21_full n)))))%bool = true).
  { cbn [In] in Hn. decompose [or] Hn; try contradiction; subst n; vm_compute; reflexivity. }
  rewrite !andb_true_iff in E. destruct E as (((E1 & E2) & E3) & E4).
  split. { intros m k t I Hk Hi. pose proof (free_checked _ _ I E1) as X. cbn [free_b] in X. rewrite forallb_forall in X. specialize (X _ Hi). apply andb_prop in X. destruct X as [X _].
           cbn [fst snd] in X. destruct Hk as [<-|[<-|[<-|[]]]]; discriminate X. }
  split. { unfold doc, the_doc. destruct (decode_use_number (C21_full n)) as [x|] eqn:Ex; [|discriminate]. eapply decode_doc_ok; eauto. }
  split; [apply moderate_checked; auto|]. destruct (C21_accepted (C21_full n)) as [A1 A2]; [rewrite andb_true_iff; exact E4|]. split; [apply A1; reflexivity|exact A2].
Qed.
Example C21_trimmed :
  trim Draft4 (the_doc (C21_full "4")) = the_doc "{""$schema"":""http://json-schema.org/draft-04/schema#"",""items"":{""maximum"":8}}" /\
  trim Draft6 (the_doc (C21_full "6")) = the_doc "{""$schema"":""http://json-schema.org/draft-06/schema#"",
    ""items"":{""const"":1,""maximum"":8,""contains"":{""type"":""null""},""propertyNames"":{""maxLength"":1}}}" /\
  error_names (validate_text (C21_full "4") "[9,[]]") = [("number_lte", "0")] /\
  error_names (validate_text (C21_full "6") "[9,[]]") = [("number_lte", "0"); ("const", "0"); ("contains", "1"); ("const", "1")] /\
  error_names (validate_text (C21_full "7") "[1]") = [("condition_then", "(root)"); ("array_min_items", "(root)")].
Proof. repeat split; vm_compute; reflexivity. Qed.
(** The last theorem holds of the schema of C17_document_example, and of one with the keywords in question. *)
Definition heard_text := "{""$schema"":""http://json-schema.org/draft-07/schema#"",""exclusiveMinimum"":3,""const"":4,""contains"":{""const"":1},""propertyNames"":{""maxLength"":1},
  ""if"":{""type"":""number""},""then"":{""maximum"":5}}".
Example C21_known_example : exists m, the_doc heard_text = VMap m /\
  map (fun u => match validate_text heard_text u with Ok r => Some (Valid r) | _ => None end) ["4"; "5"; "[1]"; "{""ab"":1}"] = [Some true; Some false; Some false; Some false] /\
  (forall r, assoc "$ref" entry_map <> Some (VStr r)) /\ source entry NewSchemaLoader entry_load entry_pool (VMap entry_map).
Proof.
  eexists. split; [vm_compute; reflexivity|]. split; [vm_compute; reflexivity|]. split; [vm_compute; discriminate|]. apply entry_example.
Qed.
