(** The settings of a SchemaLoader over its calls: Validate, the file system,
    AutoDetect; and the document loaders. *)
From Verif Require Export CheckedPool JsonProps.
From Coq Require Import Lia.
Open Scope nat_scope.

(** ** Validate *)
Section Validating.
  Variable w : world.
  Variable fuel : nat.

  Definition vkeeps (sl sl' : sloader) : Prop := sl_validate sl' = sl_validate sl.
  Lemma comp_vkeeps {A} sl (c : comp A) : after (vkeeps sl) (run_comp sl c).
  Proof. unfold run_comp. destruct (c _); cbn; auto; reflexivity. Qed.
  Lemma refs_vkeeps o doc ref pooled sl : after (vkeeps sl) (pool_parseReferences w o doc ref pooled sl).
  Proof. unfold pool_parseReferences. destruct (parseReferences _ _ _ _ _ _) as [q| |]; cbn; auto. destruct (pr_err q); reflexivity. Qed.
  Lemma doc_vkeeps o sl l : after (vkeeps sl) (compile_doc w o sl l).
  Proof.
    unfold compile_doc. destruct (JsonReference w l) as [ref|]; [|reflexivity]. destruct (negb _).
    - apply after_bind; [|intros a sl1 _ H; exact H]. eapply after_weak; [apply comp_vkeeps|]. intros sl1 H. exact H.
    - destruct (fst (LoadJSON w l)) as [doc|]; [|reflexivity]. apply after_bind; [|intros a sl1 _ H; exact H].
      eapply after_weak; [apply refs_vkeeps|]. intros sl1 H. exact H.
  Qed.
  Lemma compile_parse_vkeeps o sl r doc : after (vkeeps sl) (compile_parse w fuel o sl r doc).
  Proof.
    unfold compile_parse. apply after_bind.
    - destruct (sl_auto sl); [|reflexivity]. apply after_bind; [apply after_out; reflexivity|]. intros [e|[u [d|]]] sl1 _ H; exact H.
    - intros d sl1 _ H. apply after_bind; [|intros a sl2 _ H2; exact H2]. eapply after_weak; [apply comp_vkeeps|]. intros sl2 H2. unfold vkeeps in *. congruence.
  Qed.
  Lemma Compile0_vkeeps o sl l : after (vkeeps sl) (Compile0 w fuel o sl l).
  Proof.
    unfold Compile0. apply after_bind; [apply doc_vkeeps|]. intros a sl1 _ H. eapply after_weak; [apply compile_parse_vkeeps|]. intros sl2 H2. unfold vkeeps in *. congruence.
  Qed.

  (** Compile0 is Compile with Validate off, up to the numbering of its choices. *)
  Definition renumber (o : oracle) : oracle := fun p => match p with 0 :: p' => o p' | 2 :: p' => o p' | _ => o p end.
  Lemma renumber_fair o : fair o -> fair (renumber o).
  Proof. intros F p A l. destruct p as [|[|[|[|k]]] p]; apply F. Qed.
  Lemma Compile0_Compile o sl l : sl_validate sl = false -> Compile0 w fuel o sl l = Compile w fuel (renumber o) sl l.
  Proof.
    intros V. unfold Compile, Compile0. change (shift (renumber o) 0) with o. change (shift (renumber o) 2) with o.
    pose proof (doc_vkeeps o sl l) as K. destruct (compile_doc w o sl l) as [rd sl1|e sl1| |]; cbn [lbind]; auto.
    unfold vkeeps in K. cbn in K. rewrite K, V. reflexivity.
  Qed.

  (** Validate stays, unless a meta-schema could not be compiled. *)
  Definition lost (sl sl' : sloader) : Prop :=
    sl_validate sl = true /\ sl_validate sl' = false /\
    exists url o sl1 e, keeps sl sl1 /\ Compile w fuel o (with_validate false sl1) (LRef 0 url) = LErr e sl'.
  Definition vstays {A} (sl : sloader) (x : lres A) : Prop := both_after (vkeeps sl) (fun sl' => vkeeps sl sl' \/ lost sl sl') x.
  Lemma vstays_after {A} sl (x : lres A) : after (vkeeps sl) x -> vstays sl x.
  Proof. destruct x; cbn; auto. Qed.
  Lemma vstays_bind {A B} sl (x : lres A) (f : A -> sloader -> lres B) : vstays sl x ->
    (forall a sl1, x = LOk a sl1 -> vkeeps sl sl1 -> vstays sl (f a sl1)) -> vstays sl (lbind x f).
  Proof. intros H1 H2. destruct x; cbn in *; auto. Qed.
  Lemma vstays_from {A} sl sl1 (x : lres A) : keeps sl sl1 -> vkeeps sl sl1 -> vstays sl1 x -> vstays sl x.
  Proof.
    intros K V H. unfold vkeeps in V. destruct x as [a sl2|e sl2| |]; unfold vstays, both_after, vkeeps, lost in *; rewrite <- ?V; auto.
    destruct H as [H|(H1 & H2 & url & o & sl3 & e3 & H3 & H4)]; auto. right. split; auto. split; auto. exists url, o, sl3, e3. split; auto. eapply keeps_trans; eauto.
  Qed.
  Lemma meta_vstays o sl doc : sl_validate sl = true -> vstays sl (validateMetaschema w fuel o sl doc).
  Proof.
    intros V. unfold validateMetaschema. apply vstays_bind.
    - apply vstays_after. destruct (sl_auto sl); [|reflexivity]. apply after_bind; [apply after_out; reflexivity|]. intros [e|[u d]] sl1 _ H; exact H.
    - intros url sl1 E1 H. destruct (_ && _)%bool; [exact H|]. cbv zeta.
      assert (K : keeps sl sl1).
      { destruct (sl_auto sl); [|injection E1 as _ <-; auto]. apply lbind_ok in E1. destruct E1 as ([e|[u d]] & sl2 & E1 & E2); [discriminate|].
        apply run_out_ok in E1. destruct E1 as [_ ->]. injection E2 as _ <-. auto. }
      set (u := if String.eqb url "" then _ else _).
      pose proof (Compile0_vkeeps (shift o 0) (with_validate false sl1) (LRef 0 u)) as K0.
      rewrite Compile0_Compile in * by reflexivity.
      destruct (Compile w fuel _ (with_validate false sl1) (LRef 0 u)) as [sch sl2|e sl2| |] eqn:E; cbn [lbind]; [|cbn|exact I ..].
      + destruct (validateDocument _ _ _ _ _ _) as [r| |]; cbn; auto; destruct (Valid r); cbn; unfold vkeeps in *; cbn; auto; left; congruence.
      + right. split; auto. split; [exact K0|]. exists u, (renumber (shift o 0)), sl1, e. auto.
  Qed.
  Lemma Compile_vstays o sl l : vstays sl (Compile w fuel o sl l).
  Proof.
    unfold Compile. apply vstays_bind; [apply vstays_after, doc_vkeeps|]. intros rd sl1 E1 H1.
    assert (K1 : keeps sl sl1) by (pose proof (doc_keeps w (shift o 0) sl l) as K; rewrite E1 in K; exact K).
    apply vstays_bind.
    - destruct (sl_validate sl1) eqn:V; [|exact H1]. eapply vstays_from; [exact K1|exact H1|]. apply meta_vstays. auto.
    - intros [] sl2 _ H2. apply vstays_after. eapply after_weak; [apply compile_parse_vkeeps|]. intros sl3 H3. unfold vkeeps in *. congruence.
  Qed.
  Lemma AddSchema_vstays o url l sl : vstays sl (AddSchema w fuel o url l sl).
  Proof.
    unfold AddSchema. destruct (w_parse w url); [|left; reflexivity]. destruct (fst (LoadJSON w l)) as [doc|]; [|left; reflexivity]. apply vstays_bind.
    - destruct (sl_validate sl) eqn:V; [|reflexivity]. apply meta_vstays; auto.
    - intros [] sl1 _ H. apply vstays_after. apply after_bind; [|intros a sl2 _ H2; exact H2]. eapply after_weak; [apply refs_vkeeps|]. intros sl2 H2. unfold vkeeps in *. congruence.
  Qed.
  Lemma AddSchemas_vstays ls : forall o sl, vstays sl (AddSchemas w fuel o ls sl).
  Proof.
    induction ls as [|l ls IH]; intros o sl; cbn [AddSchemas]; [reflexivity|]. destruct (fst (LoadJSON w l)) as [doc|]; [|left; reflexivity]. apply vstays_bind.
    - destruct (sl_validate sl) eqn:V; [|reflexivity]. apply meta_vstays; auto.
    - intros [] sl1 E1 H.
      assert (K1 : keeps sl sl1).
      { destruct (sl_validate sl); [|injection E1 as <-; auto]. pose proof (meta_keeps w fuel (shift o 0) sl doc) as K. rewrite E1 in K. exact K. }
      apply vstays_bind.
      + apply vstays_after. eapply after_weak; [apply refs_vkeeps|]. intros sl2 H2. unfold vkeeps in *. congruence.
      + intros x sl2 E2 H2. eapply vstays_from; [|exact H2|apply IH]. eapply keeps_trans; [exact K1|].
        pose proof (after_refs w (shift o 1) doc "" false sl1) as K. rewrite E2 in K. exact K.
  Qed.

  Definition is_setting (c : call) : bool := match c with DoCompile _ | DoAddSchema _ _ | DoAddSchemas _ => false | _ => true end.
  Lemma call_vstays o c sl : is_setting c = false -> vstays sl (do_call w fuel o c sl).
  Proof.
    destruct c as [l|u l|ls|b|b|d]; intros H; try discriminate H; cbn [do_call].
    - pose proof (Compile_vstays o sl l) as K. destruct (Compile w fuel o sl l); exact K.
    - apply AddSchema_vstays.
    - apply AddSchemas_vstays.
  Qed.
  Theorem call_validate o c sl sl' : is_setting c = false -> do_call w fuel o c sl = LOk tt sl' -> sl_validate sl' = sl_validate sl.
  Proof. intros H E. pose proof (call_vstays o c sl H) as K. rewrite E in K. exact K. Qed.
  Theorem failed_validate o c sl e sl' : is_setting c = false -> do_call w fuel o c sl = LErr e sl' ->
    sl_validate sl' = sl_validate sl \/
    sl_validate sl = true /\ sl_validate sl' = false /\
    exists url o' sl1 e', keeps sl sl1 /\ Compile w fuel o' (with_validate false sl1) (LRef 0 url) = LErr e' sl'.
  Proof. intros H E. pose proof (call_vstays o c sl H) as K. rewrite E in K. exact K. Qed.
End Validating.

(** ** The file system *)
Section Files.
  Variable w : world.
  (** The same world, but for the contents of the file systems other than fs. *)
  Definition other_files (fs : nat) (other : nat -> string -> option string) : world :=
    World (w_go w) (w_parse w) (w_inherits w) (w_strip w) (w_fragment w) (w_canonical w) (w_file w)
          (fun g => if Nat.eqb g fs then w_fs w fs else other g) (w_http w) (w_rest w).
  Variable fs : nat.
  Variable other : nat -> string -> option string.
  Notation w' := (other_files fs other).

  Lemma same_files : loadReference w' fs = loadReference w fs.
  Proof. unfold loadReference, loadFromFile, other_files. cbn [w_parse w_strip w_file w_fs w_http loadFromHTTP]. rewrite Nat.eqb_refl. reflexivity. Qed.
  Lemma same_cenv sl : sl_factory sl = fs -> cenv_of w' sl = cenv_of w sl.
  Proof. intros E. unfold cenv_of. rewrite E, same_files. reflexivity. Qed.

  Definition fkeeps (sl sl' : sloader) : Prop := sl_factory sl' = sl_factory sl.
  Lemma comp_fkeeps {A} sl (c : comp A) : after (fkeeps sl) (run_comp sl c).
  Proof. unfold run_comp. destruct (c _); cbn; auto; reflexivity. Qed.
  Lemma refs_fkeeps w0 o doc ref pooled sl : after (fkeeps sl) (pool_parseReferences w0 o doc ref pooled sl).
  Proof. unfold pool_parseReferences. destruct (parseReferences _ _ _ _ _ _) as [q| |]; cbn; auto. destruct (pr_err q); reflexivity. Qed.

  Lemma LoadJSON_files l : LoaderFactory l = fs -> fst (LoadJSON w' l) = fst (LoadJSON w l).
  Proof. intros E. destruct l as [s|s|v|s|v|g s]; auto. cbn in E. subst g. cbn [LoadJSON fst]. rewrite same_files. reflexivity. Qed.
  Lemma doc_files o sl l : LoaderFactory l = fs -> compile_doc w' o sl l = compile_doc w o sl l /\ both_after (fun sl' => sl_factory sl' = fs) (fun _ => True) (compile_doc w o sl l).
  Proof.
    intros E. unfold compile_doc. assert (EJ : JsonReference w' l = JsonReference w l) by (destruct l; reflexivity). rewrite EJ.
    destruct (JsonReference w l) as [ref|]; [|cbn; auto]. rewrite same_cenv by exact E. rewrite (LoadJSON_files l E). destruct (negb _).
    - split; auto. pose proof (comp_fkeeps (with_factory (LoaderFactory l) sl) (GetDocument (cenv_of w (with_factory (LoaderFactory l) sl)) (shift o 0) ref)) as K.
      destruct (run_comp _ _); cbn in *; auto. unfold fkeeps in K. rewrite K. exact E.
    - destruct (fst (LoadJSON w l)) as [doc|]; [|cbn; auto].
      assert (EP : pool_parseReferences w' (shift o 0) doc ref true (with_factory (LoaderFactory l) sl) = pool_parseReferences w (shift o 0) doc ref true (with_factory (LoaderFactory l) sl)).
      { unfold pool_parseReferences. rewrite same_cenv by exact E. reflexivity. }
      rewrite EP. clear EP. split; auto. pose proof (refs_fkeeps w (shift o 0) doc ref true (with_factory (LoaderFactory l) sl)) as K.
      destruct (pool_parseReferences _ _ _ _ _ _); cbn in *; auto. unfold fkeeps in K. rewrite K. exact E.
  Qed.
  Lemma compile_parse_files fuel o sl r doc : sl_factory sl = fs -> compile_parse w' fuel o sl r doc = compile_parse w fuel o sl r doc.
  Proof.
    intros E. unfold compile_parse. rewrite same_cenv by exact E.
    set (x := if sl_auto sl then _ else _). assert (K : both_after (fun sl' => sl_factory sl' = fs) (fun _ => True) x).
    { unfold x. destruct (sl_auto sl); [|exact E]. destruct (parseSchemaURL _ _) as [[e|[u [d|]]]| |]; cbn; auto. }
    destruct x as [d sl1|e sl1| |]; cbn [lbind]; auto. rewrite same_cenv by exact K. reflexivity.
  Qed.

  (** Without meta-schema validation, no other file system is read. *)
  Theorem Compile_files fuel o sl l : LoaderFactory l = fs -> sl_validate sl = false -> Compile w' fuel o sl l = Compile w fuel o sl l.
  Proof.
    intros E V. unfold Compile. destruct (doc_files (shift o 0) sl l E) as [-> K]. pose proof (doc_vkeeps w (shift o 0) sl l) as KV.
    destruct (compile_doc w _ sl l) as [rd sl1|e sl1| |]; cbn [lbind]; auto. unfold vkeeps in KV. cbn in KV. rewrite KV, V. cbn [lbind]. apply compile_parse_files. exact K.
  Qed.
End Files.

(** ** Document loaders *)
Section Same.
  Variable w : world.
  Definition by_value (l : loader) : bool := match l with LRef _ _ => false | _ => true end.
  Theorem same_load l l' : by_value l = true -> by_value l' = true -> fst (LoadJSON w l) = fst (LoadJSON w l') -> forall fuel o,
    (forall sl, Compile w fuel o sl l = Compile w fuel o sl l') /\
    (forall url sl, AddSchema w fuel o url l sl = AddSchema w fuel o url l' sl) /\
    (forall ls sl, AddSchemas w fuel o (l :: ls) sl = AddSchemas w fuel o (l' :: ls) sl) /\
    (forall sch, Schema_Validate w fuel o sch l = Schema_Validate w fuel o sch l').
  Proof.
    intros B B' E fuel o. split; [|split; [|split]].
    - intros sl. unfold Compile, compile_doc. assert (EJ : JsonReference w l = JsonReference w l') by (destruct l, l'; try discriminate B; try discriminate B'; reflexivity).
      assert (EF : LoaderFactory l = LoaderFactory l') by (destruct l, l'; try discriminate B; try discriminate B'; reflexivity). rewrite EJ, EF, E. reflexivity.
    - intros url sl. unfold AddSchema. rewrite E. reflexivity.
    - intros ls sl. cbn [AddSchemas]. rewrite E. reflexivity.
    - intros sch. unfold Schema_Validate. rewrite E. reflexivity.
  Qed.
  Theorem texts_load s v rest : json verbatim s v -> (match v with VNum _ => stops rest | _ => True end) ->
    let x := append s rest in forall l, In l [LString x; LBytes x; LIO x] -> forall fuel o,
    (forall sl, Compile w fuel o sl l = Compile w fuel o sl (LRaw v)) /\
    (forall url sl, AddSchema w fuel o url l sl = AddSchema w fuel o url (LRaw v) sl) /\
    (forall ls sl, AddSchemas w fuel o (l :: ls) sl = AddSchemas w fuel o (LRaw v :: ls) sl) /\
    (forall sch, Schema_Validate w fuel o sch l = Schema_Validate w fuel o sch (LRaw v)).
  Proof.
    intros H He x l Hl. assert (D : decode_use_number x = Some v).
    { apply decode_complete; auto. destruct v; try exact I; [exact He|]. exfalso. revert H. apply json_no_float. }
    apply same_load; auto; [|]; destruct Hl as [<-|[<-|[<-|[]]]]; auto.
  Qed.
  Theorem go_load v : std v -> plain v = true -> forall fuel o,
    (forall sl, Compile w fuel o sl (LGo v) = Compile w fuel o sl (LRaw (vsort v))) /\
    (forall url sl, AddSchema w fuel o url (LGo v) sl = AddSchema w fuel o url (LRaw (vsort v)) sl) /\
    (forall ls sl, AddSchemas w fuel o (LGo v :: ls) sl = AddSchemas w fuel o (LRaw (vsort v) :: ls) sl) /\
    (forall sch, Schema_Validate w fuel o sch (LGo v) = Schema_Validate w fuel o sch (LRaw (vsort v))).
  Proof.
    intros Hs Hp. apply same_load; auto. destruct (marshal_verbatim v Hs Hp) as (t & Et & Ht). cbn [LoadJSON fst]. rewrite Et.
    pose proof (decode_complete t (vsort v) "") as K. rewrite append_nil_r in K. apply K; auto. destruct (vsort v); exact I.
  Qed.
End Same.
