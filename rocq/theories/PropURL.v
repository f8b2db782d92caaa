(** Go's URL library (ModelURL.v) and what the loader makes of it (C48-C50).

    [rfc_resolve] (SpecURI.v): resolution as RFC 3986 describes it, from its
    appendix B, 5.2 and 5.3.  [common_ref] (SpecURI.v): the references of the
    usual form.  [go_world]: the world with Go's URL library.  [plain_world]
    (URLProps.v): the same, but references that are not plain do not parse;
    [plain_call], [plain_loader], [plain_doc], [plain_pool]: every "$ref",
    "$id", "id" and "$schema" in it is plain or no URL at all. *)
From Verif Require Import CheckedFetch CheckedShape URLProps URLRfc.

(** ** C48 *)
Theorem C48_resolve : forall b r, common_ref b -> common_ref r -> u_scheme (split_uri b) <> None ->
  (u_path (split_uri r) <> "" \/ dotless (u_path (split_uri b))) ->
  ref_inherits b r = Some (rfc_resolve b r).
Proof. exact resolves. Qed.
Print Assumptions C48_resolve.
Theorem C48_parts : forall s, common_ref s ->
  ref_parse s = Some s /\ ref_strip s = recompose (without_fragment (split_uri s)) /\
  ref_fragment s = percent_decode (match u_frag (split_uri s) with Some f => f | None => "" end) /\
  (ref_canonical s = true <->
   (u_scheme (split_uri s) = Some "file" /\ u_path (split_uri s) <> "") \/
   (u_scheme (split_uri s) <> None /\ u_scheme (split_uri s) <> Some "file" /\ u_authority (split_uri s) <> Some "")).
Proof. intros s H. exact (conj (ordinary_parse s H) (conj (ordinary_strip s H) (conj (ordinary_fragment s H) (ordinary_canonical s H)))). Qed.
Print Assumptions C48_parts.
(** The dot segments of the base go even where RFC 3986 keeps its path. *)
Theorem C48_refuted : ~ forall b r, common_ref b -> common_ref r -> u_scheme (split_uri b) <> None -> ref_inherits b r = Some (rfc_resolve b r).
Proof.
  intros H. specialize (H "http://h/a/../b" "#/x" (common_checked "http://h/a/../b" eq_refl) (common_checked "#/x" eq_refl) ltac:(discriminate)). vm_compute in H. discriminate H.
Qed.
Print Assumptions C48_refuted.
(** A reference that parses need not resolve. *)
Theorem C48_total_refuted : ~ forall b r, ref_parse b <> None -> ref_parse r <> None -> ref_inherits b r <> None.
Proof. intros H. apply (H "" "/.//["); vm_compute; congruence. Qed.
Print Assumptions C48_total_refuted.

(** The examples of RFC 3986, section 5.4, but for "g:h" and "http:g", which are opaque. *)
Definition rfc_base := "http://a/b/c/d;p?q".
Definition rfc_examples := [
  ("g", "http://a/b/c/g"); ("./g", "http://a/b/c/g"); ("g/", "http://a/b/c/g/"); ("/g", "http://a/g"); ("//g", "http://g"); ("?y", "http://a/b/c/d;p?y");
  ("g?y", "http://a/b/c/g?y"); ("#s", "http://a/b/c/d;p?q#s"); ("g#s", "http://a/b/c/g#s"); ("g?y#s", "http://a/b/c/g?y#s"); (";x", "http://a/b/c/;x");
  ("g;x", "http://a/b/c/g;x"); ("g;x?y#s", "http://a/b/c/g;x?y#s"); ("", "http://a/b/c/d;p?q"); (".", "http://a/b/c/"); ("./", "http://a/b/c/");
  ("..", "http://a/b/"); ("../", "http://a/b/"); ("../g", "http://a/b/g"); ("../..", "http://a/"); ("../../", "http://a/"); ("../../g", "http://a/g");
  ("../../../g", "http://a/g"); ("../../../../g", "http://a/g"); ("/./g", "http://a/g"); ("/../g", "http://a/g"); ("g.", "http://a/b/c/g."); (".g", "http://a/b/c/.g");
  ("g..", "http://a/b/c/g.."); ("..g", "http://a/b/c/..g"); ("./../g", "http://a/b/g"); ("./g/.", "http://a/b/c/g/"); ("g/./h", "http://a/b/c/g/h");
  ("g/../h", "http://a/b/c/h"); ("g;x=1/./y", "http://a/b/c/g;x=1/y"); ("g;x=1/../y", "http://a/b/c/y"); ("g?y/./x", "http://a/b/c/g?y/./x");
  ("g?y/../x", "http://a/b/c/g?y/../x"); ("g#s/./x", "http://a/b/c/g#s/./x"); ("g#s/../x", "http://a/b/c/g#s/../x")].
Example C48_example : common_ref rfc_base /\ u_scheme (split_uri rfc_base) <> None /\ dotless (u_path (split_uri rfc_base)) /\
  (forall r x, In (r, x) rfc_examples -> common_ref r /\ rfc_resolve rfc_base r = x) /\
  common_ref "file:///a%20b/c.json#/definitions/x%25y" /\ ref_fragment "file:///a%20b/c.json#/definitions/x%25y" = "/definitions/x%y".
Proof.
  split; [apply common_checked; vm_compute; reflexivity|]. split; [discriminate|]. split; [vm_compute; reflexivity|]. split; [|split; [apply common_checked; vm_compute; reflexivity|vm_compute; reflexivity]].
  assert (A : forallb (fun p => common_b (fst p) && String.eqb (rfc_resolve rfc_base (fst p)) (snd p))%bool rfc_examples = true) by (vm_compute; reflexivity).
  intros r x H. rewrite forallb_forall in A. apply A in H. cbn [fst snd] in H. apply andb_true_iff in H. destruct H as [H1 H2]. split; [apply common_checked; exact H1|apply String.eqb_eq; exact H2].
Qed.

(** ** C49 *)
(** On plain documents Go's library has the laws assumed elsewhere, *)
Theorem C49_laws : forall go fs http rest, let w := plain_world go fs http rest in url_laws w /\ web_laws w /\ meta_urls w.
Proof. intros go fs http rest. exact (conj (proj1 (plain_laws go fs http rest)) (conj (proj2 (plain_laws go fs http rest)) (plain_meta go fs http rest))). Qed.
Print Assumptions C49_laws.
(** and nothing tells it from a library that has them everywhere: *)
Theorem C49_same : forall go fs http rest, serves_plain go fs http rest -> forall fuel o cs, fair o -> Forall (plain_call go fs http rest) cs ->
  outcomes (go_world go fs http rest) fuel o cs NewSchemaLoader = outcomes (plain_world go fs http rest) fuel o cs NewSchemaLoader.
Proof. exact (fun go fs http rest HS fuel o cs => same_session go fs http rest HS fuel cs o). Qed.
Print Assumptions C49_same.
Theorem C49_common_plain : forall s, common_ref s -> plain_ref s = true.
Proof. exact ordinary_plain. Qed.
Print Assumptions C49_common_plain.

(** C01, C05, C47 and C22 with Go's library. *)
Theorem C49_verdict : forall go fs http rest, serves_plain go fs http rest -> let P := plain_world go fs http rest in
  forall fuel o sl l p doc sch sl',
  fair o -> loader_fit l -> sl_ok sl -> plain_loader go fs http rest l -> plain_pool go fs http rest (sl_pool sl) -> sl_validate sl = false -> source P sl l p doc ->
  let d := root_draft P sl doc in
  all_found (view P sl l) p doc -> settled_in (found (view P sl l) p doc) d ->
  Compile (go_world go fs http rest) fuel o sl l = LOk sch sl' ->
  let T := heads_to (view P sl l) p doc d in
  guarded T d doc ->
  forall v, usual (e_ratlim go) v ->
  (forall d' m x, needed T d doc v d' (VMap m) x -> assoc "$ref" m = None -> fits (e_ratlim go) m x) ->
  forall o', fair o' ->
  exists r, returns go (s_heap sch) (s_root sch) o' v r /\ (Valid r = true <-> meaning (pat go) (fmt go) same T d doc v).
Proof. exact plain_verdict. Qed.
Print Assumptions C49_verdict.
Theorem C49_bounded : forall go fs http rest, serves_plain go fs http rest -> let P := plain_world go fs http rest in
  forall fuel o sl l p doc lib n,
  fair o -> loader_fit l -> sl_ok sl -> plain_loader go fs http rest l -> plain_pool go fs http rest (sl_pool sl) -> sl_validate sl = false -> source P sl l p doc ->
  let ce := view P sl l in let d := root_draft P sl doc in let T := heads_to ce p doc d in
  covered ce p lib doc -> lib_fuel doc lib < fuel -> settled_in (found ce p doc) d ->
  (forall d' x, meets (heads_to ce p doc) d doc d' x -> right ce d' x) -> shallow T n d doc ->
  exists sch p', Compile (go_world go fs http rest) fuel o sl l = LOk sch (with_pool p' (with_factory (LoaderFactory l) sl)) /\ grown ce p p' /\
    forall v, usual (e_ratlim go) v ->
    (forall d' m x, needed T d doc v d' (VMap m) x -> assoc "$ref" m = None -> fits (e_ratlim go) m x) ->
    forall k o', fair o' -> vsize v * S n + n <= k ->
    exists r, validateDocument go (s_heap sch) k o' (s_root sch) v = Ok r /\ (Valid r = true <-> meaning (pat go) (fmt go) same T d doc v).
Proof. exact plain_bounded. Qed.
Print Assumptions C49_bounded.
Theorem C49_rejects : forall go fs http rest, serves_plain go fs http rest -> forall fuel o sl l p doc d, (0 <= e_ratlim go)%Z ->
  plain_loader go fs http rest l -> plain_pool go fs http rest (sl_pool sl) -> checking (plain_world go fs http rest) fuel o sl l p doc d -> d <> Hybrid -> ~ conforms go d doc ->
  exists es sl', meta_tells go d doc es /\ Compile (go_world go fs http rest) fuel o sl l = LErr (EMeta es) sl'.
Proof. exact plain_rejects. Qed.
Print Assumptions C49_rejects.
Theorem C49_conforms : forall go fs http rest, serves_plain go fs http rest -> forall fuel o sl l p doc d sch sl', (0 <= e_ratlim go)%Z ->
  plain_loader go fs http rest l -> plain_pool go fs http rest (sl_pool sl) -> checking (plain_world go fs http rest) fuel o sl l p doc d ->
  Compile (go_world go fs http rest) fuel o sl l = LOk sch sl' -> d = Hybrid \/ conforms go d doc.
Proof. exact plain_conforms. Qed.
Print Assumptions C49_conforms.
Theorem C49_no_panic : forall go fs http rest, serves_plain go fs http rest ->
  forall P : string -> Prop, (forall s, P s -> moderate (e_ratlim go) s) -> (forall n s v, loadReference (go_world go fs http rest) n s = Some v -> mild P v) ->
  forall fuel cs o, fair o -> Forall (plain_call go fs http rest) cs -> Forall (call_mild (go_world go fs http rest) P) cs ->
  ~ In LPanic (outcomes (go_world go fs http rest) fuel o cs NewSchemaLoader).
Proof. exact plain_no_panic. Qed.
Print Assumptions C49_no_panic.
(** Elsewhere it panics: Inherits fails, and its result is used all the same. *)
Definition web_pages := [
  ("http://x/tree", "{""$schema"":""http://json-schema.org/draft-07/schema#"",""$id"":""http://x/tree"",""minProperties"":1,
  ""properties"":{""n"":{""$ref"":""../types#/definitions/pos""},""kids"":{""items"":{""$ref"":""#""}}}}");
  ("http://x/types", "{""definitions"":{""pos"":{""exclusiveMinimum"":0,""if"":{""minimum"":10},""then"":{""maximum"":20}}}}")].
Definition go_web : world := go_world go0 (fun _ _ => None) (fun u => assoc u web_pages) (fun _ => "").
Theorem C49_refuted : ~ forall s, mild (tame_number 1000000) (the_doc s) -> NewSchema go_web FUEL in_order (LString s) <> LPanic.
Proof.
  intros H. apply (H "{""$id"":""/.//[""}"); [|vm_compute; reflexivity]. eapply mild_checked; [apply tame_number_b_ok|]. vm_compute. reflexivity.
Qed.
Print Assumptions C49_refuted.

(** The two documents of C01_any_loader_example, with Go's library. *)
Notation PW := (plain_world go0 (fun _ _ => None) (fun u => assoc u web_pages) (fun _ => "")).
Definition gw_load := LRef 0 "http://x/tree".
Definition gw_doc : value := Eval vm_compute in match fetched_doc PW NewSchemaLoader gw_load "http://x/tree" with Some q => fst q | None => VNil end.
Definition gw_pool : pool := [("http://x/tree", Spd gw_doc (Some Draft7))].
Definition gw_ce := view PW NewSchemaLoader gw_load.
Definition gw_lib : pool := Eval vm_compute in gather gw_ce gw_pool 20 (mentioned gw_doc) [].
Definition gw_lead := flead gw_ce gw_pool Draft7.
Definition gw_all : list (draft * value) := Eval vm_compute in collect gw_lead 40 [(Draft7, gw_doc)] [].
Lemma gw_serves : serves_plain go0 (fun _ _ => None) (fun u => assoc u web_pages) (fun _ => "").
Proof.
  split; [discriminate|]. assert (A : forallb (fun p => match decode_use_number (snd p) with Some v => plain_doc go0 (fun _ _ => None) (fun u => assoc u web_pages) (fun _ => "") v | None => true end) web_pages = true) by (vm_compute; reflexivity).
  intros u t v E D. apply assoc_In in E. rewrite forallb_forall in A. apply A in E. cbn [snd] in E. rewrite D in E. exact E.
Qed.
Lemma gw_covered : covered gw_ce gw_pool gw_lib gw_doc.
Proof. apply covered_checked. vm_compute. reflexivity. Qed.
Example C49_verdict_example :
  serves_plain go0 (fun _ _ => None) (fun u => assoc u web_pages) (fun _ => "") /\ plain_loader go0 (fun _ _ => None) (fun u => assoc u web_pages) (fun _ => "") gw_load /\
  source PW NewSchemaLoader gw_load gw_pool gw_doc /\ root_draft PW NewSchemaLoader gw_doc = Draft7 /\
  all_found gw_ce gw_pool gw_doc /\ settled_in (found gw_ce gw_pool gw_doc) Draft7 /\
  (let T := heads_to gw_ce gw_pool gw_doc Draft7 in
   guarded T Draft7 gw_doc /\ forall d m, within T Draft7 gw_doc d (VMap m) -> assoc "$ref" m = None -> regular 1000000 m) /\
  match Compile go_web FUEL in_order NewSchemaLoader gw_load with
  | LOk sch _ => error_names (validateDocument go0 (s_heap sch) FUEL in_order (s_root sch) (the_doc "{""n"":20,""kids"":[{""n"":0},{""n"":21},{}]}")) =
      [("number_gt", "kids.0.n"); ("condition_then", "kids.1.n"); ("number_lte", "kids.1.n"); ("array_min_properties", "kids.2")]
  | _ => False
  end.
Proof.
  split; [exact gw_serves|]. split; [vm_compute; reflexivity|]. split; [apply (fetched_checked PW NewSchemaLoader gw_load "http://x/tree" gw_doc (Some Draft7)); vm_compute; reflexivity|].
  split; [vm_compute; reflexivity|]. split; [exact (covered_all _ _ _ _ gw_covered)|].
  split; [apply (settled_checked _ _ _ _ _ gw_covered); vm_compute; reflexivity|]. split; [|vm_compute; reflexivity].
  assert (G : guarded_b gw_lead 30 gw_all (Draft7, gw_doc) = true) by (vm_compute; reflexivity).
  assert (R : regulars_b 1000000 gw_all = true) by (vm_compute; reflexivity).
  split; [eapply guarded_checked; [apply flead_only|exact G]|]. intros d m. eapply regulars_checked; [apply flead_only|exact G|exact R].
Qed.

(** A session: meta-schema validation switched on, a document rejected, three
    added, one compiled. *)
Definition C49_calls : list call := [
  SetValidate true; DoAddSchema "http://x/c" (LString "{""$schema"":""http://json-schema.org/draft-07/schema#"",""type"":""integr""}");
  DoAddSchemas [LString "{""$id"":""http://x/a"",""items"":{""$ref"":""b""}}"; LBytes "{""$id"":""http://x/b"",""minimum"":3}"];
  DoAddSchema "http://x/c" (LString "{""$schema"":""http://json-schema.org/draft-07/schema#"",""required"":[""u""]}");
  DoCompile (LString "{""$schema"":""http://json-schema.org/draft-07/schema#"",""allOf"":[{""$ref"":""http://x/a""},{""$ref"":""http://x/c""},{""$ref"":""http://json-schema.org/draft-06/schema""}]}")].
Notation nowhere := (fun (_ : nat) (_ : string) => @None string).
Notation nothing := (fun _ : string => @None string).
Notation GW := (go_world go0 nowhere nothing (fun _ => "")).
Definition went (x : lres unit) : option bool := match x with LOk _ _ => Some true | LErr _ _ => Some false | _ => None end.
Example C49_session_example :
  serves_plain go0 nowhere nothing (fun _ => "") /\ (forall n s v, loadReference GW n s = Some v -> mild (tame_number 1000000) v) /\
  Forall (plain_call go0 nowhere nothing (fun _ => "")) C49_calls /\ Forall (call_mild GW (tame_number 1000000)) C49_calls /\
  map went (outcomes GW FUEL in_order C49_calls NewSchemaLoader) = [Some true; Some false; Some true; Some true; Some true].
Proof.
  split; [split; discriminate|]. split.
  { intros n s v. unfold loadReference. cbn [w_parse go_world]. destruct (ref_parse s) as [r|]; [|discriminate]. cbn [w_strip w_file go_world].
    destruct (ref_file (ref_strip r)) as [[p|]|]; try discriminate. unfold loadFromHTTP, GetMetaSchema. cbn [w_http go_world].
    assert (M : forall t, match decode_use_number t with Some x => mild_b (tame_number_b 1000000) x | None => true end = true -> decode_use_number t = Some v -> mild (tame_number 1000000) v).
    { intros t H E. rewrite E in H. eapply mild_checked; [apply tame_number_b_ok|exact H]. }
    repeat match goal with |- context[if String.eqb ?a ?b then _ else _] => destruct (String.eqb a b) end;
      cbn [String.eqb negb]; try discriminate; try (intros H; refine (M _ _ H); vm_compute; reflexivity). }
  split.
  - unfold plain_call. repeat first [apply Forall_nil | apply Forall_cons]; cbn [tame_call];
      repeat first [exact I | apply Forall_nil | apply Forall_cons | split; [vm_compute; reflexivity|] | intros v E; vm_compute in E; injection E as <-; vm_compute; reflexivity].
  - split; [|vm_compute; reflexivity].
    assert (U : utf8_text "http://x/c") by (apply utf8_checked; vm_compute; reflexivity).
    assert (L : forall l, loads_mild_b l = true -> loads_mild GW (tame_number 1000000) l) by (intros l E; destruct l as [s|s|v|s|v|fs s]; try discriminate E; exact (loads_mild_checked _ E)).
    repeat first [apply Forall_nil | apply Forall_cons]; cbn [call_mild]; first [apply L; vm_compute; reflexivity | split; [exact U|apply L; vm_compute; reflexivity] | intros _ s H; apply H | idtac].
Qed.

(** ** C50 *)
Theorem C50_file : forall go fs http rest n s p f, common_ref s -> split_uri s = Uri (Some "file") (Some "") p None f -> contains "+" p = false ->
  loadReference (go_world go fs http rest) n s = match fs n (percent_decode p) with Some t => decode_use_number t | None => None end.
Proof. exact load_file. Qed.
Print Assumptions C50_file.
Theorem C50_web : forall go fs http rest n s, common_ref s -> u_scheme (split_uri s) <> Some "file" ->
  loadReference (go_world go fs http rest) n s = loadFromHTTP (go_world go fs http rest) (recompose (without_fragment (split_uri s))).
Proof. exact load_web. Qed.
Print Assumptions C50_web.
(** A "+" in the name is read as a space; a query becomes part of the name. *)
Theorem C50_refuted : ~ forall go fs http rest n s p f, common_ref s -> split_uri s = Uri (Some "file") (Some "") p None f ->
  loadReference (go_world go fs http rest) n s = match fs n (percent_decode p) with Some t => decode_use_number t | None => None end.
Proof.
  intros H. specialize (H go0 (fun _ p => if String.eqb p "/a+b.json" then Some "{}" else None) (fun _ => None) (fun _ => "") 0 "file:///a+b.json" "/a+b.json" None (common_checked "file:///a+b.json" eq_refl) eq_refl). vm_compute in H. discriminate H.
Qed.
Print Assumptions C50_refuted.
Example C50_query : ref_file "file:///a.json?x=1" = Some (Some "/a.json?x=1").
Proof. vm_compute. reflexivity. Qed.
Example C50_example : common_ref "file:///a%20b/c.json#/x" /\ split_uri "file:///a%20b/c.json#/x" = Uri (Some "file") (Some "") "/a%20b/c.json" None (Some "/x") /\
  contains "+" "/a%20b/c.json" = false /\ percent_decode "/a%20b/c.json" = "/a b/c.json".
Proof. split; [apply common_checked; vm_compute; reflexivity|]. repeat split; vm_compute; reflexivity. Qed.
