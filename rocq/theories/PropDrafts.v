(** The meta-schemas the library ships (C56).

    [lawful has eqv d doc] (SpecDrafts.v): doc is a schema of draft d, spelled
    out keyword by keyword from the documents of the drafts; [has f s]: the
    string s has the format f.  [conforms env d doc] (SpecMeta.v): doc is valid
    against the text of the meta-schema of draft d that the library ships.
    [usable]: what the library asks of a schema beyond the draft.
    [schema_part]: the schemas in a schema.  [checking] (MetaLoad.v): a loader
    with Validate on is about to compile l, which starts from doc. *)
From Verif Require Import DraftsLoad CheckedShape CheckedFetch.

Theorem C56_conforms : forall env d doc, d <> Hybrid -> doc_ok doc ->
  (conforms env d doc <-> lawful (fun f s => fmt env f (VStr s)) same d doc).
Proof. exact conforms_lawful. Qed.
Print Assumptions C56_conforms.

(** With Validate on, a document without references is taken exactly if it is a
    schema of its draft. *)
Theorem C56_checked : forall w, url_laws w -> web_laws w -> meta_urls w -> (0 <= e_ratlim (w_go w))%Z ->
  forall fuel o sl l p doc d, checking w fuel o sl l p doc d -> d <> Hybrid -> (forall k, ~ mentions doc k) -> vsize doc < fuel ->
  (forall m, schema_part d doc (VMap m) -> usable (fun p => e_re_ok (w_go w) p = true) (fun s => w_parse w s <> None) d m) ->
  let ok := lawful (fun f s => fmt (w_go w) f (VStr s)) same d doc in
  (ok /\ exists sch sl', Compile w fuel o sl l = LOk sch sl') \/ (~ ok /\ exists es sl', Compile w fuel o sl l = LErr (EMeta es) sl').
Proof. exact checked_lawful. Qed.
Print Assumptions C56_checked.

(** Without, a schema of the draft is taken exactly if it is usable throughout. *)
Theorem C56_usable : forall w, url_laws w -> forall has sl fuel o l doc d,
  fair o -> (forall fs s, l <> LRef fs s) -> loader_fit l -> fst (LoadJSON w l) = Some doc -> all_numbers (moderate (e_ratlim (w_go w))) doc ->
  (forall k, ~ mentions doc k) -> sl_validate sl = false -> sl_pool sl = [] -> NoDup (map fst (ids_of (w_parse w) (w_inherits w) "" doc)) ->
  enough_fuel w sl doc < fuel -> (sl_auto sl = true -> well_declared (w_parse w) doc) ->
  d = root_draft w sl doc -> d <> Hybrid -> lawful has same d doc ->
  ((exists sch sl', Compile w fuel o sl l = LOk sch sl') <->
   forall m, schema_part d doc (VMap m) -> usable (fun p => e_re_ok (w_go w) p = true) (fun s => w_parse w s <> None) d m).
Proof.
  exact usable_compiles.
Qed.
Print Assumptions C56_usable.

(** Schemas and others. *)
Definition enough : nat := 60 * 80.
Notation here t := (known_documents (serving [] []) strict (the_doc t)).
Notation its_doc t := (resolve parse0 inherits0 "" (the_doc t)).
Notation good d t := (lawful (fun f s => fmt go0 f (VStr s)) same d (its_doc t)).
Definition drafts_7 := "{""$schema"":""http://json-schema.org/draft-07/schema#"",""$id"":""http://x/y"",""type"":[""object"",""null""],""properties"":{""a"":{""minLength"":2,""maxLength"":5},""b"":{""enum"":[1,""1""]}},
  ""dependencies"":{""a"":[""b""],""b"":false},""if"":{""required"":[]},""then"":true,""items"":[{""multipleOf"":0.5}]}".
Definition drafts_4 := "{""$schema"":""http://json-schema.org/draft-04/schema#"",""required"":[]}".
Definition drafts_6 := "{""$schema"":""http://json-schema.org/draft-06/schema#"",""required"":[]}".
Definition drafts_any := "{""$schema"":""http://json-schema.org/draft-07/schema#"",""items"":{""anyOf"":[]}}".
Definition drafts_limit := "{""$schema"":""http://json-schema.org/draft-07/schema#"",""items"":{""minLength"":2.0}}".
Lemma drafts_checking t d : (match decode_use_number t with Some _ => true | None => false end && checking_b (serving [] []) d enough t)%bool = true ->
  checking (serving [] []) enough in_order strict (LString t) (here t) (its_doc t) d.
Proof.
  intros B. apply andb_prop in B. destruct B as [B1 B2]. apply (checking_checked (serving [] []) d enough t (serving_laws _ _) (serving_web _ _)); auto.
  unfold the_doc. destruct (decode_use_number t); [auto|discriminate].
Qed.
Lemma drafts_good t d : d <> Hybrid -> (match decode_use_number t with Some _ => true | None => false end && checking_b (serving [] []) d enough t)%bool = true ->
  (forall es sl', Compile (serving [] []) enough in_order strict (LString t) <> LErr (EMeta es) sl') -> good d t.
Proof.
  intros Hd B. apply (checked_otherwise _ (serving_laws [] []) (serving_web [] []) (serving_meta [] []) ltac:(discriminate) _ _ _ _ _ _ _ (drafts_checking t d B) Hd).
Qed.
Lemma drafts_usable t d : d <> Hybrid -> good d t -> d = root_draft (serving [] []) NewSchemaLoader (the_doc t) ->
  (match decode_use_number t with Some _ => true | None => false end && numbers_b (moderate_b 1000000) (the_doc t) && match ref_texts (the_doc t) with [] => true | _ => false end &&
   nodup_b (map fst (ids_of parse0 inherits0 "" (the_doc t))) && Nat.ltb (enough_fuel (serving [] []) NewSchemaLoader (the_doc t)) enough &&
   declared_b parse0 (the_doc t) && match Compile (serving [] []) enough in_order NewSchemaLoader (LString t) with LOk _ _ => true | _ => false end)%bool = true ->
  forall m, schema_part d (its_doc t) (VMap m) -> usable (fun p => e_re_ok go0 p = true) (fun s => parse0 s <> None) d m.
Proof.
  intros Hd G RD B. rewrite !andb_true_iff in B. destruct B as ((((((B1 & B2) & B3) & B4) & B5) & B6) & B7).
  assert (NM : forall k, ~ mentions (the_doc t) k) by (apply no_mentions; destruct (ref_texts (the_doc t)); [auto|discriminate]).
  assert (E : its_doc t = the_doc t) by (apply (resolve_mentions_none (cenv_of (serving [] []) NewSchemaLoader) (S (vsize (the_doc t)))); auto). rewrite E in *.
  apply (C56_usable _ (serving_laws [] []) _ NewSchemaLoader enough in_order (LString t) (the_doc t) d in_order_fair) in G; auto.
  - apply G. destruct (Compile _ _ _ _ _); try discriminate. eauto.
  - discriminate.
  - exact I.
  - cbn [LoadJSON fst]. unfold the_doc. destruct (decode_use_number t); [auto|discriminate].
  - apply moderate_checked. auto.
  - apply nodup_b_ok. auto.
  - apply Nat.ltb_lt. auto.
  - intros _. apply declared_checked. auto.
Qed.
Example C56_example :
  checking (serving [] []) enough in_order strict (LString drafts_7) (here drafts_7) (its_doc drafts_7) Draft7 /\ (forall k, ~ mentions (its_doc drafts_7) k) /\ vsize (its_doc drafts_7) < enough /\
  (forall m, schema_part Draft7 (its_doc drafts_7) (VMap m) -> usable (fun p => e_re_ok go0 p = true) (fun s => parse0 s <> None) Draft7 m) /\
  good Draft7 drafts_7 /\ ~ good Draft4 drafts_4 /\ good Draft6 drafts_6.
Proof.
  split; [apply drafts_checking; vm_compute; reflexivity|]. split; [apply no_mentions; vm_compute; reflexivity|]. split; [apply Nat.ltb_lt; vm_compute; reflexivity|].
  assert (G : good Draft7 drafts_7) by (apply drafts_good; [discriminate|vm_compute; reflexivity|]; intros sl'; vm_compute; discriminate).
  split; [apply drafts_usable; [discriminate|exact G|vm_compute; reflexivity|vm_compute; reflexivity]|]. split; [exact G|split].
  - intros L. inversion L as [|m LK _ E]. destruct LK as (_ & _ & _ & (_ & _ & _ & K & _) & _).
    destruct (K (VArr [])) as (l & E1 & _ & E2); [subst m; vm_compute; reflexivity|]. unfold texts in E1. injection E1 as E1. symmetry in E1. apply map_eq_nil in E1. exact (E2 eq_refl E1).
  - apply drafts_good; [discriminate|vm_compute; reflexivity|]. intros sl'. vm_compute. discriminate.
Qed.

(** Without Validate, Compile takes more than the schemas of the draft; and even
    with it, not all of them. *)
Theorem C56_refuted :
  (exists t sch sl', Compile (serving [] []) enough in_order NewSchemaLoader (LString t) = LOk sch sl' /\ root_draft (serving [] []) NewSchemaLoader (its_doc t) = Draft7 /\ ~ good Draft7 t) /\
  (exists t e sl', good Draft7 t /\ root_draft (serving [] []) NewSchemaLoader (its_doc t) = Draft7 /\ Compile (serving [] []) enough in_order NewSchemaLoader (LString t) = LErr e sl').
Proof.
  split.
  - exists drafts_any. eexists. eexists. split; [vm_compute; reflexivity|]. split; [vm_compute; reflexivity|]. intros L. inversion L as [|m _ LS E].
    assert (L1 : lawful (fun f s => fmt go0 f (VStr s)) same Draft7 (VMap [("anyOf", VArr [])])).
    { apply LS. apply in_items; [reflexivity|]. intros [l K]. discriminate K. }
    inversion L1 as [|m1 LK _ E1]. destruct LK as (_ & _ & _ & _ & (_ & K & _)). destruct (K (VArr []) eq_refl) as (l & [= <-] & N). exact (N eq_refl).
  - exists drafts_limit. eexists. eexists. split; [|split; [vm_compute; reflexivity|vm_compute; reflexivity]].
    apply drafts_good; [discriminate|vm_compute; reflexivity|]. intros sl'. vm_compute. discriminate.
Qed.
Print Assumptions C56_refuted.
