(** Properties of the outcome of compilation (C20, C22, C23, C24).

    [url_laws], [known_documents], [resolve], [leads_to]: as in PropCompile.v.
    [mentions]: a "$ref" text occurs in the document.  [well_formed],
    [shapes], [meets], [mild], [panic_shape]: SpecShape.v.  [moderate]: a JSON
    number within big.Rat's exponent limit.  [documents_closed]: every
    reference leads to a document at hand.  [enough_fuel]: a bound computed
    from the documents at hand, by which all recursion ends. *)
From Verif Require Import CheckedShape.

(** ** C20 *)
Theorem C20_accepts_exactly : forall w, url_laws w -> forall sl fuel o l doc,
  fair o -> (forall fs s, l <> LRef fs s) -> loader_fit l -> fst (LoadJSON w l) = Some doc -> all_numbers (moderate (e_ratlim (w_go w))) doc ->
  (forall k, ~ mentions doc k) -> sl_validate sl = false -> sl_pool sl = [] -> NoDup (map fst (ids_of (w_parse w) (w_inherits w) "" doc)) ->
  enough_fuel w sl doc < fuel ->
  ((exists sch sl', Compile w fuel o sl l = LOk sch sl') <->
   (sl_auto sl = true -> well_declared (w_parse w) doc) /\
   well_formed (fun p => e_re_ok (w_go w) p = true) (fun s => w_parse w s <> None) same (root_draft w sl doc) doc) /\
  Compile w fuel o sl l <> LNoFuel.
Proof. exact compile_plain. Qed.
Print Assumptions C20_accepts_exactly.

(** Examples: a schema text without references, checked. *)
Definition plain_checked (sl : sloader) (s : string) : bool :=
  let doc := the_doc s in
  (match decode_use_number s with Some _ => true | None => false end && numbers_b (moderate_b 1000000) doc &&
   match ref_texts doc with [] => true | _ => false end && nodup_b (map fst (ids_of parse0 inherits0 "" doc)) && (enough_fuel world0 sl doc <? FUEL))%bool.
Definition plain_accepted (sl : sloader) (s : string) : Prop :=
  (sl_auto sl = true -> well_declared parse0 (the_doc s)) /\
  well_formed (fun p => e_re_ok go0 p = true) (fun s => parse0 s <> None) same (root_draft world0 sl (the_doc s)) (the_doc s).
Lemma plain_outcome sl s : plain_checked sl s = true -> sl_validate sl = false -> sl_pool sl = [] ->
  (exists sch sl', Compile world0 FUEL in_order sl (LString s) = LOk sch sl') <-> plain_accepted sl s.
Proof.
  unfold plain_checked. rewrite !andb_true_iff. intros ((((H1 & H2) & H3) & H4) & H5) Hv Hp.
  apply (C20_accepts_exactly world0 world0_laws sl FUEL in_order (LString s) (the_doc s)); auto.
  - apply in_order_fair.
  - discriminate.
  - exact I.
  - cbn [LoadJSON fst]. unfold the_doc. destruct (decode_use_number s); [auto|discriminate].
  - apply moderate_checked. auto.
  - apply no_mentions. destruct (ref_texts (the_doc s)); [auto|discriminate].
  - apply nodup_b_ok. auto.
  - apply Nat.ltb_lt. auto.
Qed.
Definition succeeds {A} (x : lres A) : bool := match x with LOk _ _ => true | _ => false end.
Definition with_draft (d : draft) : sloader := SLoader [] false false d 0.
Definition C20_schema := "{""$id"":""http://x/y"",""type"":[""object"",""null""],""properties"":{""a"":{""minLength"":2,""maxLength"":5},""b"":{""enum"":[1,""1""]}},
  ""exclusiveMinimum"":3,""if"":{""required"":[""a""]},""then"":true}".
(** The schema is right under draft 7, not under draft 4; a bound written 2.0,
    a length range turned around and an enum with equal values are wrong. *)
Example C20_example :
  plain_checked NewSchemaLoader C20_schema = true /\ plain_accepted NewSchemaLoader C20_schema /\ plain_accepted (with_draft Draft7) C20_schema /\
  ~ plain_accepted (with_draft Draft4) C20_schema /\
  ~ plain_accepted NewSchemaLoader "{""items"":{""minLength"":2.0}}" /\
  ~ plain_accepted NewSchemaLoader "{""not"":{""minLength"":6,""maxLength"":5}}" /\
  ~ plain_accepted NewSchemaLoader "{""definitions"":{""x"":{""enum"":[1,1.0]}}}".
Proof.
  assert (Y : forall sl s, (plain_checked sl s && succeeds (Compile world0 FUEL in_order sl (LString s)) && negb (sl_validate sl) && match sl_pool sl with [] => true | _ => false end)%bool = true -> plain_accepted sl s).
  { intros sl s H. rewrite !andb_true_iff in H. destruct H as (((H1 & H2) & H3) & H4). apply plain_outcome; auto.
    - destruct (sl_validate sl); [discriminate|auto].
    - destruct (sl_pool sl); [auto|discriminate].
    - destruct (Compile world0 FUEL in_order sl (LString s)); try discriminate. eauto. }
  assert (N : forall sl s, (plain_checked sl s && negb (succeeds (Compile world0 FUEL in_order sl (LString s))) && negb (sl_validate sl) && match sl_pool sl with [] => true | _ => false end)%bool = true -> ~ plain_accepted sl s).
  { intros sl s H. rewrite !andb_true_iff in H. destruct H as (((H1 & H2) & H3) & H4). intros A. apply plain_outcome in A; auto.
    - destruct A as (sch & sl' & E). rewrite E in H2. discriminate.
    - destruct (sl_validate sl); [discriminate|auto].
    - destruct (sl_pool sl); [auto|discriminate]. }
  repeat match goal with |- _ /\ _ => split end; [|apply Y|apply Y|apply N ..]; vm_compute; reflexivity.
Qed.

(** With references: Compile succeeds if every schema it meets, following
    references, has the right shape; when it succeeds, the document itself has
    (beside a "$ref", only id, definitions, title and description are looked at). *)
Theorem C20_references : forall w, url_laws w -> forall sl fuel o l doc,
  fair o -> (forall fs s, l <> LRef fs s) -> loader_fit l -> fst (LoadJSON w l) = Some doc -> all_numbers (moderate (e_ratlim (w_go w))) doc ->
  sl_validate sl = false -> fresh (sl_pool sl) (ids_of (w_parse w) (w_inherits w) "" doc) -> documents_closed w sl doc -> enough_fuel w sl doc < fuel ->
  assoc "" (sl_pool sl) = None -> (sl_auto sl = true -> well_declared (w_parse w) doc) ->
  (forall d v, meets (leads_to (cenv_of w sl) (known_documents w sl doc)) (root_draft w sl doc) (resolve (w_parse w) (w_inherits w) "" doc) d v ->
     right (cenv_of w sl) d v) ->
  exists sch sl', Compile w fuel o sl l = LOk sch sl'.
Proof. exact compile_right. Qed.
Print Assumptions C20_references.

(** A list whose elements are such lists again: the two schemas met are right. *)
Definition C20_recursive := "{""minItems"":1,""items"":{""$ref"":""#""}}".
Example C20_references_example :
  let doc := the_doc C20_recursive in
  let ce := cenv_of world0 NewSchemaLoader in
  documents_closed world0 NewSchemaLoader doc /\ enough_fuel world0 NewSchemaLoader doc < FUEL /\ well_declared parse0 doc /\
  (forall d v, meets (leads_to ce (known_documents world0 NewSchemaLoader doc)) (root_draft world0 NewSchemaLoader doc) (resolve parse0 inherits0 "" doc) d v -> right ce d v).
Proof.
  cbv zeta. split; [split; [discriminate|apply closed_checked; vm_compute; reflexivity]|]. split; [apply Nat.ltb_lt; vm_compute; reflexivity|].
  set (r := VMap [("$ref", VStr "")]). set (l := VMap [("minItems", VNum "1"); ("items", r)]).
  split; [right; eexists; split; [vm_compute; reflexivity|intros x; discriminate]|].
  set (ce := cenv_of world0 NewSchemaLoader). set (K := known_documents world0 NewSchemaLoader (the_doc C20_recursive)).
  assert (M : forall d v, meets (leads_to ce K) (root_draft world0 NewSchemaLoader (the_doc C20_recursive)) (resolve parse0 inherits0 "" (the_doc C20_recursive)) d v -> d = Hybrid /\ (v = l \/ v = r)).
  { intros d v H. induction H as [|d m x _ [-> IH] S|d m k d' x _ [-> IH] E L].
    - split; [vm_compute; reflexivity|left; vm_compute; reflexivity].
    - split; auto. right. destruct IH as [IH|IH]; injection IH as ->;
        inversion S as [? ? ? E|? ? ? ? Hk E|? ? Hk E|? ? ? E|? E|? ? ? Hk E|? ? ? Hk E|? ? ? Hk E|? E]; subst; simpl in *;
        repeat match goal with H : _ \/ _ |- _ => destruct H as [<-|H] | H : False |- _ => destruct H end; simpl in *; try discriminate; match goal with E : Some _ = Some _ |- _ => injection E as E; subst; reflexivity end.
    - destruct IH as [IH|IH]; injection IH as ->; [discriminate|]. injection E as <-.
      assert (Q : (d', x) = (Hybrid, l)) by (eapply lead_only; [|exact L]; vm_compute; reflexivity). injection Q as -> ->. auto. }
  intros d v H. destruct (M d v H) as [-> [->| ->]]; split; try (apply moderate_checked; vm_compute; reflexivity).
  - unfold l, r; cbv iota; unfold shapes, head_shapes, plain_shapes, schema_shapes. repeat match goal with |- _ /\ _ => split end; try (intros x E; discriminate E); try (intros _ x E; discriminate E).
    + intros x [= <-]. exists 1%Z, "1". split; auto. split; [|lia]. left. right. split; [exists 0|intros y; discriminate]. apply (ds_cons 1 "" 0 0); [lia|constructor].
    + intros x [= <-]. right. right. eexists. reflexivity.
  - unfold l, r; cbv iota; unfold shapes, head_shapes, plain_shapes, schema_shapes. repeat match goal with |- _ /\ _ => split end; try (intros x E; discriminate E); try (intros _ x E; discriminate E).
    intros x [= <-]. exists "". split; auto. discriminate.
Qed.


(** ** C22 *)
(** Whatever calls are made on a SchemaLoader, and whether they succeed or
    fail: as long as the documents given and fetched are mild, no call panics. *)
Theorem C22_no_panic : forall w, url_laws w -> forall P : string -> Prop, (forall s, P s -> moderate (e_ratlim (w_go w)) s) ->
  (forall fs s v, loadReference w fs s = Some v -> mild P v) ->
  forall sl fuel o c, session w P sl -> fair o -> call_mild w P c -> do_call w fuel o c sl <> LPanic.
Proof. exact session_no_panic. Qed.
Print Assumptions C22_no_panic.
Theorem C22_refuted : ~ forall fuel o s, fair o -> NewSchema world0 fuel o (LString s) <> LPanic.
Proof. intros H. apply (H FUEL in_order "{""definitions"":true}" in_order_fair). vm_compute. reflexivity. Qed.
Print Assumptions C22_refuted.
Example C22_refuted_type : NewSchema world0 FUEL in_order (LString "{""items"":{""type"":[1]}}") = LPanic.
Proof. vm_compute. reflexivity. Qed.

(** A session: meta-schema validation switched on, a document rejected, three
    added, one compiled; the hypotheses hold for its calls. *)
Definition C22_calls : list (call) := [
  SetValidate true; DoAddSchema "http://x/c" (LString "{""$schema"":""http://json-schema.org/draft-07/schema#"",""type"":""integr""}");
  DoAddSchemas [LString "{""$id"":""http://x/a"",""items"":{""$ref"":""b""}}"; LBytes "{""$id"":""http://x/b"",""minimum"":3}"];
  DoAddSchema "http://x/c" (LString "{""$schema"":""http://json-schema.org/draft-07/schema#"",""required"":[""u""]}");
  DoCompile (LString "{""$schema"":""http://json-schema.org/draft-07/schema#"",""allOf"":[{""$ref"":""http://x/a""},{""$ref"":""http://x/c""},{""$ref"":""http://json-schema.org/draft-06/schema""}]}")].
Fixpoint run_calls (cs : list call) (sl : sloader) : list bool :=
  match cs with
  | [] => []
  | c :: cs' => match do_call world0 FUEL in_order c sl with
                | LOk _ sl' => true :: run_calls cs' sl'
                | LErr _ sl' => false :: run_calls cs' sl'
                | _ => []
                end
  end.
Example C22_example :
  (forall fs s v, loadReference world0 fs s = Some v -> mild (tame_number 1000000) v) /\
  Forall (call_mild world0 (tame_number 1000000)) C22_calls /\ run_calls C22_calls NewSchemaLoader = [true; false; true; true; true].
Proof.
  split; [exact served0|]. split; [|vm_compute; reflexivity].
  assert (U : utf8_text "http://x/c") by (apply utf8_checked; vm_compute; reflexivity).
  assert (L : forall l, loads_mild_b l = true -> loads_mild world0 (tame_number 1000000) l) by exact loads_mild_checked.
  repeat first [apply Forall_nil | apply Forall_cons]; cbn [call_mild]; first [apply L; vm_compute; reflexivity | split; [exact U|apply L; vm_compute; reflexivity] | intros _ s H; apply H].
Qed.

(** ** C23 *)
(** The order in which maps are iterated does not decide whether a document
    without references compiles. *)
Theorem C23_order : forall w, url_laws w -> forall sl fuel o fuel' o' l doc,
  fair o -> fair o' -> (forall fs s, l <> LRef fs s) -> loader_fit l -> fst (LoadJSON w l) = Some doc -> all_numbers (moderate (e_ratlim (w_go w))) doc ->
  (forall k, ~ mentions doc k) -> sl_validate sl = false -> sl_pool sl = [] -> NoDup (map fst (ids_of (w_parse w) (w_inherits w) "" doc)) ->
  enough_fuel w sl doc < fuel -> enough_fuel w sl doc < fuel' ->
  (exists sch sl', Compile w fuel o sl l = LOk sch sl') <-> (exists sch sl', Compile w fuel' o' sl l = LOk sch sl').
Proof. exact compile_order. Qed.
Print Assumptions C23_order.
(** When a document compiles in two orders, the two schemas give the same verdict. *)
Theorem C23_same_verdict : forall w, url_laws w -> forall fuel o fuel' o' l doc sch sl sch' sl',
  fair o -> fair o' -> (forall fs s, l <> LRef fs s) -> loader_fit l -> fst (LoadJSON w l) = Some doc ->
  all_numbers (moderate (e_ratlim (w_go w))) doc -> NoDup (map fst (ids_of (w_parse w) (w_inherits w) "" doc)) ->
  let ce := cenv_of w NewSchemaLoader in
  let p := known_documents w NewSchemaLoader doc in
  let d := root_draft w NewSchemaLoader doc in
  let s := resolve (w_parse w) (w_inherits w) "" doc in
  let T := leads_to ce p d in
  closed_refs ce p s -> guarded T d s -> NewSchema w fuel o l = LOk sch sl -> NewSchema w fuel' o' l = LOk sch' sl' ->
  forall v, usual (e_ratlim (w_go w)) v ->
  (forall d' m x, needed T d s v d' (VMap m) x -> assoc "$ref" m = None -> fits (e_ratlim (w_go w)) m x) ->
  forall o1 o2 r1 r2, fair o1 -> fair o2 -> returns (w_go w) (s_heap sch) (s_root sch) o1 v r1 -> returns (w_go w) (s_heap sch') (s_root sch') o2 v r2 ->
  Valid r1 = Valid r2.
Proof. exact compile_same_verdict. Qed.
Print Assumptions C23_same_verdict.
(** A malformed keyword beside a "$ref" is reported or not, depending on
    whether the same reference has been followed before. *)
Definition C23_schema := "{""definitions"":{""a"":{""$ref"":""#/definitions/c"",""type"":1},""b"":{""$ref"":""#/definitions/c""},""c"":{}}}".
Theorem C23_refuted : ~ forall fuel o o' s, fair o -> fair o' -> enough_fuel world0 NewSchemaLoader (the_doc s) < fuel ->
  (exists sch sl', NewSchema world0 fuel o (LString s) = LOk sch sl') -> exists sch sl', NewSchema world0 fuel o' (LString s) = LOk sch sl'.
Proof.
  intros H. destruct (H FUEL in_order backwards C23_schema in_order_fair backwards_fair) as (sch & sl & E).
  - apply Nat.ltb_lt. vm_compute. reflexivity.
  - destruct (NewSchema world0 FUEL in_order (LString C23_schema)) as [sch sl| | |] eqn:E; [eauto|vm_compute in E; discriminate ..].
  - vm_compute in E. discriminate.
Qed.
Print Assumptions C23_refuted.
Example C23_example : plain_checked NewSchemaLoader C20_schema = true /\
  succeeds (NewSchema world0 FUEL in_order (LString C20_schema)) = true /\ succeeds (NewSchema world0 FUEL backwards (LString C20_schema)) = true /\
  text_checked world0 20 C23_schema = true.
Proof. vm_compute. auto. Qed.

(** ** C24 *)
Theorem C24_returns : forall w, url_laws w -> forall sl fuel o l doc,
  fair o -> (forall fs s, l <> LRef fs s) -> loader_fit l -> fst (LoadJSON w l) = Some doc -> all_numbers (moderate (e_ratlim (w_go w))) doc ->
  sl_validate sl = false -> fresh (sl_pool sl) (ids_of (w_parse w) (w_inherits w) "" doc) -> documents_closed w sl doc ->
  enough_fuel w sl doc < fuel -> Compile w fuel o sl l <> LNoFuel.
Proof. exact compile_returns. Qed.
Print Assumptions C24_returns.

(** Two documents added to a loader refer to each other; the document compiled
    refers to both, to itself, and to a reference to itself. *)
Definition C24_loader : sloader :=
  match AddSchemas world0 FUEL in_order [LString "{""$id"":""http://x/a"",""items"":{""$ref"":""b""},""not"":{""$ref"":""#""}}"; LString "{""$id"":""http://x/b"",""allOf"":[{""$ref"":""a""}]}"] NewSchemaLoader with
  | LOk _ sl => sl | _ => NewSchemaLoader end.
Definition C24_schema := "{""$ref"":""#/definitions/p"",""definitions"":{""p"":{""$ref"":""#/definitions/q""},""q"":{""$ref"":""#/definitions/p"",""definitions"":{""r"":{""$ref"":""http://x/a#/items""}}},""s"":{""$ref"":""#""}}}".
Example C24_example :
  fresh (sl_pool C24_loader) (ids_of parse0 inherits0 "" (the_doc C24_schema)) /\ documents_closed world0 C24_loader (the_doc C24_schema) /\
  enough_fuel world0 C24_loader (the_doc C24_schema) < FUEL /\ succeeds (Compile world0 FUEL backwards C24_loader (LString C24_schema)) = true.
Proof.
  split; [split; [constructor|intros r []]|]. split.
  - assert (S : session world0 (tame_number 1000000) C24_loader).
    { refine (session_call _ _ NewSchemaLoader FUEL in_order (DoAddSchemas [LString "{""$id"":""http://x/a"",""items"":{""$ref"":""b""},""not"":{""$ref"":""#""}}"; LString "{""$id"":""http://x/b"",""allOf"":[{""$ref"":""a""}]}"]) _ (session_new _ _) in_order_fair _ _).
      - cbn [call_mild]. repeat first [apply Forall_nil | apply Forall_cons]; apply loads_mild_checked; vm_compute; reflexivity.
      - left. vm_compute. reflexivity. }
    destruct (session_fine world0 world0_laws (tame_number 1000000) (fun s H => proj1 H) served0 _ S) as [[HF _] _].
    split.
    + intros r e E. split; [apply (HF r e E)|]. apply closed_checked. assert (X : pool_closed_b world0 C24_loader (the_doc C24_schema) = true) by (vm_compute; reflexivity).
      unfold pool_closed_b in X. rewrite forallb_forall in X. apply (X (r, e)). apply assoc_In. auto.
    + apply closed_checked. vm_compute. reflexivity.
  - split; [apply Nat.ltb_lt|]; vm_compute; reflexivity.
Qed.
