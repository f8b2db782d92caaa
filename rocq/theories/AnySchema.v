(** Schemas compiled through any loader, with any documents fetched on the way,
    meta-schema validation on or off: what the verdict of such a schema is. *)
From Verif Require Export LoadTotal.
From Coq Require Import Lia.
Open Scope nat_scope.

Section Compiled.
  Variable w : world.
  Notation lim := (e_ratlim (w_go w)).
  Notation meaning T := (meaning (pat (w_go w)) (fmt (w_go w)) same T).

  Theorem compiled_verdict sl sch d doc : compiled w sl sch d doc ->
    let T := target (cenv_of w sl) (s_state sch) in
    forall v, usual lim v ->
    (forall d' m x, needed T d doc v d' (VMap m) x -> assoc "$ref" m = None -> fits lim m x) ->
    (forall V, meaning_at (pat (w_go w)) (fmt (w_go w)) same T d doc v V ->
       forall o' r, fair o' -> returns (w_go w) (s_heap sch) (s_root sch) o' v r -> (Valid r = true <-> V d doc v)) /\
    (guarded T d doc -> forall o', fair o' ->
       exists r, returns (w_go w) (s_heap sch) (s_root sch) o' v r /\ (Valid r = true <-> meaning T d doc v)).
  Proof.
    intros (EH & ER & W & K & C) T v U FT. rewrite EH, ER in *.
    assert (VE : forall r, Valid r = true <-> errors r = []) by (intros r; unfold Valid; destruct (errors r); split; congruence).
    assert (A : forall V, meaning_at (pat (w_go w)) (fmt (w_go w)) same T d doc v V ->
       forall o' r, fair o' -> returns (w_go w) (st_heap (s_state sch)) 0 o' v r -> (Valid r = true <-> V d doc v)).
    { intros V M o' r F' [k R]. rewrite VE. eapply (valid_link (cenv_of w sl) _ (s_state sch) W C d doc v U FT V M); eauto. }
    split; [exact A|]. intros G o' F'.
    assert (M : meaning_at (pat (w_go w)) (fmt (w_go w)) same T d doc v (meaning T)).
    { apply meaning_exists. eapply guarded_well_founded; [exact G|constructor]. }
    pose proof (guarded_acyclic (cenv_of w sl) _ (s_state sch) W C d doc 0 K G) as AC.
    destruct (terminates (w_go w) (st_heap (s_state sch)) 0 v o' F' AC) as [[r R]|[k P]]; [exists r; split; eauto|].
    exfalso. refine (fits_no_panic (cenv_of w sl) _ (s_state sch) d doc v W C U _ k o' 0 _ F' K P).
    intros d' m x N E. apply (FT d' m x N E).
  Qed.

  (** Schemas without subschemas and references: their own keywords decide. *)
  Definition flat (d : draft) (m : list (string * value)) : Prop := assoc "$ref" m = None /\ forall x, ~ part d m x.

  Theorem compiled_flat sl sch d m : compiled w sl sch d (VMap m) -> flat d m ->
    forall v, usual lim v -> fits lim m v -> forall o', fair o' ->
    exists r, returns (w_go w) (s_heap sch) (s_root sch) o' v r /\
      (Valid r = true <-> keywords (pat (w_go w)) (fmt (w_go w)) same (fun _ _ _ => False) d m v).
  Proof.
    intros C [Nr Np] v U FT o' F'. set (T := target (cenv_of w sl) (s_state sch)).
    assert (NA : forall x y, ~ asks T d (VMap m) v x y v /\ True) by (intros; split; [intros A|auto]; inversion A; subst; try congruence; eapply Np; unfold part; eauto).
    assert (NA' : forall d' s' v', ~ asks T d (VMap m) v d' s' v').
    { intros d' s' v' A. inversion A; subst; try congruence; eapply Np; unfold part; eauto. }
    assert (ND : forall d' s' v', needed T d (VMap m) v d' s' v' -> d' = d /\ s' = VMap m /\ v' = v).
    { intros d' s' v' N. induction N as [|a b c d' s' v' N IH A]; auto. destruct IH as (-> & -> & ->). destruct (NA' _ _ _ A). }
    assert (NW : forall d' s', within T d (VMap m) d' s' -> d' = d /\ s' = VMap m).
    { intros d' s' N. induction N as [|d' m' x N IH Nr' P|d' m' r d'' x N IH Er HT]; auto; destruct IH as [-> [= ->]]; [destruct (Np _ P)|congruence]. }
    destruct (compiled_verdict sl sch d (VMap m) C v U) as [_ B].
    - intros d' m' x N E. destruct (ND _ _ _ N) as (-> & [= ->] & ->). exact FT.
    - destruct B with (o' := o') as (r & R & VR); auto.
      + apply no_refs_guarded. intros d' m' N r. destruct (NW _ _ N) as [-> [= ->]]. congruence.
      + exists r. split; auto. rewrite VR. fold T.
        rewrite (meaning_rules _ _ _ T d (VMap m) v) by (constructor; intros [[d' s'] v'] A; destruct (NA' _ _ _ A)).
        unfold schema_sem. rewrite Nr. apply keywords_ext with (T := T).
        * rewrite Nr. discriminate.
        * intros d' s' v' A. destruct (NA' _ _ _ A).
  Qed.
End Compiled.

Section Root.
  Variable w : world.
  Hypothesis HU : url_laws w.
  Notation lim := (e_ratlim (w_go w)).
  Notation resolve := (resolve (w_parse w) (w_inherits w)).
  Notation ids_of := (ids_of (w_parse w) (w_inherits w)).

  Lemma compile_parse_draft fuel o sl0 sl ref doc sch sl' : fair o -> doc_ok doc -> all_numbers (moderate lim) doc -> sl_ok sl0 ->
    sl_auto sl0 = sl_auto sl -> sl_draft sl0 = sl_draft sl ->
    compile_parse w fuel o sl0 ref doc = LOk sch sl' -> compiled w sl0 sch (root_draft w sl doc) doc.
  Proof.
    intros F Hd Hm Hs EA ED E. unfold compile_parse in E. apply lbind_ok in E. destruct E as (d & sl1 & E1 & E).
    assert (X : sl1 = sl0 /\ d = root_draft w sl doc).
    { unfold root_draft, doc_draft. cbn [cenv_of c_autodetect u_parse]. rewrite <- EA, <- ED. destruct (sl_auto sl0); [|injection E1 as <- <-; auto].
      apply lbind_ok in E1. destruct E1 as (q & sl2 & E1 & E2). apply run_out_ok in E1. destruct E1 as [E1 ->].
      match type of E1 with parseSchemaURL ?c _ = _ => destruct (parseSchemaURL_named c doc Hd Hm) as [[_ [u Eu]]|[_ [e Eu]]] end; rewrite Eu in E1; injection E1 as <-; [|discriminate].
      cbn [cenv_of u_parse] in E2. destruct (named_draft (w_parse w) doc); injection E2 as <- <-; auto. }
    destruct X as [-> ->]. apply lbind_ok in E. destruct E as ([id s'] & sl2 & E2 & E). injection E as <- <-. apply run_comp_ok in E2. destruct E2 as [E2 ->].
    pose proof (draft_policy_fetch (cenv_of w sl0) (fun _ => True) (url_laws_text _ _ HU) (cenv_fetch_ok w sl0)) as HG.
    apply (parse_ok _ _ HG) in E2; [|apply shift_fair; auto|exact Hs|split; [auto|exact I]|exact I]. destruct E2 as (-> & W & L & K & C).
    split; [reflexivity|]. split; [reflexivity|]. split; auto.
  Qed.

  (** The schema compiled is that of the document loaded, read under the draft it
      declares (else the loader's). *)
  Theorem compile_root sl fuel o l doc sch sl' :
    fair o -> (forall fs s, l <> LRef fs s) -> loader_fit l -> fst (LoadJSON w l) = Some doc -> all_numbers (moderate lim) doc ->
    sl_ok sl -> fresh (sl_pool sl) (ids_of "" doc) -> Compile w fuel o sl l = LOk sch sl' ->
    exists sl0, compiled w sl0 sch (root_draft w sl doc) (resolve "" doc).
  Proof.
    intros F Hl Hfit EL Hm Hs Hf E. pose proof (LoadJSON_doc_ok w l doc Hfit EL) as Hd.
    unfold Compile in E. apply lbind_ok in E. destruct E as (rd & sl1 & E1 & E).
    destruct (compile_doc_known w HU sl _ l doc rd sl1 (shift_fair _ 0 F) Hl EL Hd Hm Hf E1) as (-> & _ & _ & Esl & _).
    apply compile_doc_ok in E1; auto; [|apply shift_fair; auto]. destruct E1 as (D1 & S1 & Q1). cbn [snd fst] in D1, E.
    apply lbind_ok in E. destruct E as ([] & sl2 & E2 & E).
    assert (H2 : sl_ok sl2 /\ sl_auto sl2 = sl_auto sl /\ sl_draft sl2 = sl_draft sl).
    { destruct (sl_validate sl1) eqn:Ev; [|injection E2 as <-; rewrite Esl in *; auto].
      apply validateMetaschema_ok in E2; auto; [|apply shift_fair; auto]. destruct E2 as [E2 [-> |Q]]; split; auto; [|rewrite Q]; rewrite Esl; auto. }
    destruct H2 as (S2 & A2 & D2).
    assert (Hmr : all_numbers (moderate lim) (resolve "" doc)) by (apply (resolve_numbers (cenv_of w sl) lim (S (vsize doc))); auto).
    eapply compile_parse_draft in E; eauto; [|apply shift_fair; auto]. exists sl2. replace (root_draft w sl doc) with (root_draft w sl (resolve "" doc)); auto.
    unfold root_draft, doc_draft. cbn [cenv_of c_autodetect u_parse]. destruct (sl_auto sl); auto.
    assert (RN : named_draft (w_parse w) (resolve "" doc) = named_draft (w_parse w) doc) by exact (resolve_named (cenv_of w sl) "" doc). rewrite RN. auto.
  Qed.

  Lemma flat_map_nil {A B} (f : A -> list B) l : (forall x, In x l -> f x = []) -> flat_map f l = [].
  Proof. induction l as [|x l IH]; intros H; auto. cbn [flat_map]. rewrite (H x) by (left; auto). apply IH. intros y Hy. apply H. right. auto. Qed.

  (** Documents made of keywords without subschemas. *)
  Definition leaf_keys : list string :=
    ["$schema"; "title"; "description"; "type"; "const"; "enum"; "format"; "multipleOf"; "maximum"; "minimum"; "exclusiveMaximum"; "exclusiveMinimum";
     "maxLength"; "minLength"; "pattern"; "maxItems"; "minItems"; "uniqueItems"; "maxProperties"; "minProperties"; "required"].
  Definition scalar (x : value) : Prop := match x with VArr _ | VMap _ | VIMap _ => False | _ => True end.
  (** The literals under const and enum may be anything. *)
  Definition leaf (e : string * value) : Prop :=
    In (fst e) leaf_keys /\
    (fst e = "const" \/ fst e = "enum" \/ scalar (snd e) \/ exists l, snd e = VArr l /\ Forall scalar l).

  Lemma leaf_key m k : Forall leaf m -> assoc k m <> None -> In k leaf_keys.
  Proof.
    intros H E. destruct (assoc k m) as [x|] eqn:Ek; [|congruence]. apply assoc_In in Ek. rewrite Forall_forall in H. apply (H _ Ek).
  Qed.
  Lemma leaf_none m k : Forall leaf m -> (if in_dec string_dec k leaf_keys then true else false) = false -> assoc k m = None.
  Proof.
    intros H E. destruct (assoc k m) as [x|] eqn:Ek; auto. exfalso. destruct (in_dec string_dec k leaf_keys) as [|N]; [discriminate|]. apply N. eapply leaf_key; eauto. congruence.
  Qed.
  Lemma scalar_resolve b x : scalar x -> resolve b x = x.
  Proof. destruct x; simpl; tauto. Qed.
  Lemma scalar_ids b x : scalar x -> ids_of b x = [].
  Proof. destruct x; simpl; tauto. Qed.
  Lemma leaf_not k m : Forall leaf m -> forall x, In (k, x) m -> is_schema_map k = false /\ String.eqb k "$ref" = false.
  Proof.
    intros H x Hx. rewrite Forall_forall in H. destruct (H _ Hx) as [Hk _]. cbn [fst] in Hk. unfold leaf_keys in Hk. simpl in Hk.
    repeat (destruct Hk as [<-|Hk]; [vm_compute; auto|]). destruct Hk.
  Qed.
  Lemma leaf_resolve b m : Forall leaf m -> resolve b (VMap m) = VMap m.
  Proof.
    intros H. cbn [SpecResolve.resolve]. f_equal. rewrite <- (map_id m) at 2. apply map_ext_in. intros [k x] Hx. cbn [fst snd]. f_equal.
    destruct (leaf_not k m H x Hx) as [S R]. rewrite Forall_forall in H. destruct (H _ Hx) as [_ L]. cbn [fst snd] in L.
    destruct (is_literal k) eqn:El; auto. rewrite S, R. assert (X : forall b, resolve b x = x).
    { intros b'. destruct L as [-> | [-> | [L|(l & -> & L)]]]; try discriminate El; [apply scalar_resolve; auto|]. cbn [SpecResolve.resolve]. f_equal.
      rewrite <- (map_id l) at 2. apply map_ext_in. intros y Hy. rewrite Forall_forall in L. apply scalar_resolve. auto. }
    destruct x; auto.
  Qed.
  Lemma leaf_ids b m : Forall leaf m -> ids_of b (VMap m) = [].
  Proof.
    intros H. cbn [SpecResolve.ids_of]. unfold new_scope, id_text. rewrite !(leaf_none m) by (auto; vm_compute; reflexivity). cbn [app].
    apply flat_map_nil. intros [k x] Hx. cbn [fst snd]. destruct (leaf_not k m H x Hx) as [S _]. rewrite Forall_forall in H. destruct (H _ Hx) as [_ L]. cbn [fst snd] in L.
    destruct (is_literal k) eqn:El; auto. rewrite S.
    destruct L as [-> | [-> | [L|(l & -> & L)]]]; try discriminate El; [apply scalar_ids; auto|]. cbn [SpecResolve.ids_of]. apply flat_map_nil. intros y Hy. rewrite Forall_forall in L. apply scalar_ids. auto.
  Qed.
  Lemma leaf_flat d m : Forall leaf m -> flat d m.
  Proof.
    intros H. split; [apply leaf_none; auto|]. intros x P.
    assert (N : forall k, (if in_dec string_dec k leaf_keys then true else false) = false -> assoc k m = None) by (intros; apply leaf_none; auto).
    destruct P as [P|[P|[P|P]]]; [destruct P as [? E|k ? ? Hk E|k ? ? Hk E|? ? ? E]|destruct P as [k ? Hk E|? ? E|? ? E]|destruct P as [? E|k ? ? ? Hk E]|destruct P as [_ E]];
      try (rewrite N in E by (vm_compute; reflexivity); discriminate E);
      simpl in Hk; repeat (destruct Hk as [<-|Hk]; [rewrite N in E by (vm_compute; reflexivity); discriminate E|]); destruct Hk.
  Qed.

  (** Compile on such a document, on a loader in any state: validation always
      returns, and the keywords decide. *)
  Theorem leaf_verdict sl fuel o l m sch sl' :
    fair o -> (forall fs s, l <> LRef fs s) -> loader_fit l -> fst (LoadJSON w l) = Some (VMap m) -> all_numbers (moderate lim) (VMap m) ->
    sl_ok sl -> Forall leaf m -> Compile w fuel o sl l = LOk sch sl' ->
    forall v, usual lim v -> fits lim m v -> forall o', fair o' ->
    exists r, returns (w_go w) (s_heap sch) (s_root sch) o' v r /\
      (Valid r = true <-> keywords (pat (w_go w)) (fmt (w_go w)) same (fun _ _ _ => False) (root_draft w sl (VMap m)) m v).
  Proof.
    intros F Hl Hfit EL Hm Hs HL E v U FT o' F'.
    destruct (compile_root sl fuel o l (VMap m) sch sl' F Hl Hfit EL Hm Hs) as [sl0 C]; auto.
    - rewrite leaf_ids; auto. split; [constructor|intros r []].
    - rewrite leaf_resolve in C by auto. eapply compiled_flat; eauto. apply leaf_flat. auto.
  Qed.
End Root.
