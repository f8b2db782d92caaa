(** Loading a schema document, and what the compiled schema means. *)
From Verif Require Export SpecLoad PoolResolve CompileRefs ModelLoader.
From Coq Require Import Lia.
Open Scope nat_scope.

Section Documents.
  Variable ce : cenv.
  Notation lim := (e_ratlim (c_go ce)).
  Notation resolve := (resolve (u_parse ce) (u_inherits ce)).
  Notation ids_of := (ids_of (u_parse ce) (u_inherits ce)).
  Notation scope := (scope (u_parse ce) (u_inherits ce)).
  Notation new_scope := (new_scope (u_parse ce) (u_inherits ce)).
  Notation absolute := (absolute (u_parse ce) (u_inherits ce)).
  Notation named_draft := (named_draft (u_parse ce)).
  Notation well_declared := (well_declared (u_parse ce)).
  Hypothesis Hinh : forall b r s, u_parse ce s = Some r -> u_inherits ce b r <> None.

  (** *** Resolved documents *)
  Lemma resolve_assoc base m k : assoc k (map (fun e => (fst e, res_member ce base (fst e) (snd e))) m) =
    match assoc k m with Some x => Some (res_member ce base k x) | None => None end.
  Proof.
    induction m as [|[k' x] m IH]; [reflexivity|]. cbn [map assoc fst snd]. destruct (String.eqb_spec k k'); [subst; reflexivity|auto].
  Qed.
  Lemma resolve_named base doc : named_draft (resolve base doc) = named_draft doc.
  Proof.
    destruct doc as [| | | | |l|m|]; try reflexivity. rewrite resolve_map. unfold SpecLoad.named_draft. rewrite resolve_assoc.
    destruct (assoc "$schema" m) as [x|]; auto. destruct x; reflexivity.
  Qed.
  Lemma resolve_declared base doc : well_declared (resolve base doc) <-> well_declared doc.
  Proof.
    destruct doc as [| | | | |l|m|]; try tauto.
    - split; (intros [[b H]|(m & H & _)]; discriminate H).
    - rewrite resolve_map. split.
      + intros [[b H]|(m' & H & D)]; [discriminate|]. injection H as <-. right. exists m. split; auto. intros x E.
        specialize (D (res_member ce (scope base m) "$schema" x)). rewrite resolve_assoc, E in D. destruct (D eq_refl) as (s & r & Es & Er).
        exists s, r. split; auto. destruct x as [| | | |t| | |]; try discriminate Es. exact Es.
      + intros [[b H]|(m' & H & D)]; [discriminate|]. injection H as <-. right. eexists. split; [reflexivity|]. intros x. rewrite resolve_assoc.
        destruct (assoc "$schema" m) as [y|] eqn:E; [|discriminate]. intros [= <-]. destruct (D _ eq_refl) as (s & r & -> & Er). exists s, r. auto.
  Qed.

  Lemma parseSchemaURL_named doc : doc_ok doc -> all_numbers (moderate lim) doc ->
    (well_declared doc /\ exists u, parseSchemaURL ce doc = Ok (inr (u, named_draft doc))) \/
    (~ well_declared doc /\ exists e, parseSchemaURL ce doc = Ok (inl e)).
  Proof.
    intros Hd Hm. destruct doc as [|b|t|f|t|l|m|m]; try (destruct Hd; discriminate);
      try (right; split; [intros [[? H]|(? & H & _)]; discriminate H|]; eexists; reflexivity).
    - left. split; [left; eauto|]. eexists. reflexivity.
    - right. split; [intros [[? H]|(? & H & _)]; discriminate H|]. unfold parseSchemaURL, isKind.
      destruct (kind_moderate ce (VNum t) Hd Hm) as (k & Ek & _). cbn [kind_of] in *.
      destruct (rat_of lim t) as [q|]; [|discriminate Ek]. eexists. reflexivity.
    - unfold parseSchemaURL, isKind. cbn [kind_of obind existsb kind_eqb negb orb]. destruct (assoc "$schema" m) as [x|] eqn:E.
      2: { left. split. { right. exists m. split; auto. congruence. } unfold SpecLoad.named_draft. rewrite E. eauto. }
      pose proof (doc_ok_assoc _ _ _ Hd E) as [_ Hx].
      assert (Hmx : all_numbers (moderate lim) x).
      { inversion Hm as [| | | | | |? G]; subst. rewrite Forall_forall in G. apply assoc_In in E. apply (G _ E). }
      destruct (kind_moderate ce x Hx Hmx) as (k & Ek & Hk). rewrite Ek. cbn [obind existsb]. rewrite orb_false_r.
      destruct (kind_eqb k KString) eqn:Es.
      + destruct (proj1 Hk eq_refl) as [s ->]. cbn [negb]. destruct (u_parse ce s) as [r|] eqn:Er.
        * left. split. { right. exists m. split; auto. intros x Ex. rewrite E in Ex. injection Ex as <-. eauto. }
          exists r. unfold SpecLoad.named_draft. rewrite E, Er. unfold GetDraftVersion, META4, META6, META7.
          rewrite (String.eqb_sym r "http://json-schema.org/draft-04/schema"), (String.eqb_sym r "http://json-schema.org/draft-06/schema"), (String.eqb_sym r "http://json-schema.org/draft-07/schema"). reflexivity.
        * right. split; [|eauto]. intros [[? H]|(m' & H & D)]; [discriminate|]. injection H as <-. destruct (D _ E) as (s' & r & Ex & Er'). injection Ex as <-. congruence.
      + right. cbn [negb]. split; [|eauto]. intros [[? H]|(m' & H & D)]; [discriminate|]. injection H as <-. destruct (D _ E) as (s' & r & -> & Er').
        destruct Hk as [_ Hk]. discriminate Hk. eauto.
  Qed.

  (** *** parseReferences *)
  Definition doc_draft (doc : value) : option draft := if c_autodetect ce then named_draft doc else None.

  Theorem parseReferences_resolves o doc ref pooled p :
    fair o -> doc_ok doc -> all_numbers (moderate lim) doc -> fresh p (ids_of ref doc) -> (pooled = true -> assoc ref p = None) ->
    (c_autodetect ce = true -> well_declared doc) ->
    exists p', adds (doc_draft doc) p (ids_of ref doc) p' /\
      parseReferences ce o doc ref pooled p =
        Ok (Prr (resolve ref doc) (if pooled then aset ref (Spd (resolve ref doc) (doc_draft doc)) p' else p') None).
  Proof.
    intros F Hd Hm Hf Hr Hw. unfold parseReferences.
    assert (E0 : (pooled && match assoc ref p with Some _ => true | None => false end)%bool = false).
    { destruct pooled; auto. rewrite Hr; auto. }
    rewrite E0.
    assert (E1 : (if c_autodetect ce then do r <- parseSchemaURL ce doc; match r with inl e => Ok (inl e) | inr (_, d) => Ok (inr d) end
                  else Ok (inr None)) = Ok (@inr cerr (option draft) (doc_draft doc))).
    { unfold doc_draft. destruct (c_autodetect ce); auto. destruct (parseSchemaURL_named doc Hd Hm) as [[_ [u ->]]|[H _]]; [reflexivity|]. destruct H; auto. }
    rewrite E1. cbn [obind].
    destruct (parseReferencesRecursive_resolves ce Hinh (S (vsize doc)) o doc ref (doc_draft doc) p) as (p' & -> & A); auto.
    exists p'. split; auto. cbn [obind]. destruct pooled; reflexivity.
  Qed.
  (** It fails otherwise. *)
  Lemma parseReferences_declared o doc ref pooled p r : doc_ok doc -> all_numbers (moderate lim) doc -> c_autodetect ce = true ->
    parseReferences ce o doc ref pooled p = Ok r -> pr_err r = None -> well_declared doc.
  Proof.
    intros Hd Hm Ha. unfold parseReferences. destruct (pooled && _)%bool; [intros [= <-]; discriminate|]. rewrite Ha.
    destruct (parseSchemaURL_named doc Hd Hm) as [[H _]|[_ [e ->]]]; auto. intros [= <-]. discriminate.
  Qed.

  (** *** Identified subschemas are parts of the document *)
  Lemma ids_mentions_size n : forall v base r x k, vsize v < n -> In (r, x) (ids_of base v) -> mentions x k -> mentions (resolve base v) k.
  Proof.
    induction n as [|n IH]; intros v base r x k Hn Hin M; [lia|]. destruct v as [| | | | |l|m|m]; try destruct Hin.
    - cbn [SpecResolve.ids_of] in Hin. apply in_flat_map in Hin. destruct Hin as (y & Hy & Hin).
      cbn [SpecResolve.resolve]. eapply mentions_arr; [apply in_map; exact Hy|]. eapply IH; eauto. apply vsize_item in Hy. lia.
    - rewrite ids_map in Hin. rewrite resolve_map in *. apply in_app_or in Hin. destruct Hin as [Hin|Hin].
      { destruct (new_scope base m) as [r'|]; [|destruct Hin]. destruct Hin as [Hin|[]]. injection Hin as <- <-. exact M. }
      apply in_flat_map in Hin. destruct Hin as ([nm y] & Hy & Hin).
      unfold ids_member in Hin. cbn [fst snd] in Hin. destruct (is_literal nm) eqn:El; [destruct Hin|].
      eapply mentions_map; [apply in_map_iff; exists (nm, y); split; [reflexivity|exact Hy]|]. cbn [fst snd]. unfold res_member. rewrite El.
      apply vsize_member in Hy. destruct (is_schema_map nm).
      + destruct y as [| | | | | |c|]; try destruct Hin. apply in_flat_map in Hin. destruct Hin as ([n' z] & Hz & Hin). cbn [snd] in Hin.
        eapply mentions_map; [apply in_map_iff; exists (n', z); split; [reflexivity|exact Hz]|]. apply vsize_member in Hz. eapply IH; eauto. cbn [snd]. lia.
      + destruct y; try destruct Hin; (eapply IH; [|exact Hin|exact M]; lia).
  Qed.
  Lemma ids_mentions v base r x k : In (r, x) (ids_of base v) -> mentions x k -> mentions (resolve base v) k.
  Proof. apply (ids_mentions_size (S (vsize v))). lia. Qed.
End Documents.

(** *** What is asked of the URL library *)
Definition url_laws (w : world) : Prop :=
  w_parse w "#" = Some "" /\
  (forall b r s, w_parse w s = Some r -> w_inherits w b r <> None) /\
  (forall s r, utf8_text s -> w_parse w s = Some r -> utf8_text r) /\
  (forall b r a, utf8_text b -> utf8_text r -> w_inherits w b r = Some a -> utf8_text a) /\
  (forall r, utf8_text r -> utf8_text (w_strip w r)).
Lemma url_laws_text w sl : url_laws w -> urls_text (cenv_of w sl).
Proof. intros (_ & _ & H1 & H2 & H3). split; [|split]; auto. Qed.
Lemma utf8_empty : utf8_text "".
Proof. exists []. constructor. Qed.

Lemma lbind_ok {A B} (x : lres A) (f : A -> sloader -> lres B) b sl : lbind x f = LOk b sl -> exists a sl1, x = LOk a sl1 /\ f a sl1 = LOk b sl.
Proof. destruct x as [a sl1| | |]; simpl; try discriminate. eauto. Qed.
Lemma run_out_ok {A} sl (x : out A) a sl' : run_out sl x = LOk a sl' -> x = Ok a /\ sl' = sl.
Proof. destruct x; simpl; intros [= <- <-]; auto. Qed.
Lemma run_comp_ok {A} sl (x : comp A) a s sl' : run_comp sl x = LOk (a, s) sl' ->
  x (CState [] [] (sl_pool sl) []) = COk a s /\ sl' = with_pool (st_pool s) sl.
Proof. unfold run_comp. destruct (x _) as [b t| | |]; intros [= <- <- <-]; auto. Qed.

Lemma assoc_entries dr r ds : assoc r (entries dr ds) = match assoc r ds with Some x => Some (Spd x dr) | None => None end.
Proof. induction ds as [|[k x] ds IH]; [reflexivity|]. cbn [entries map assoc fst snd]. destruct (String.eqb r k); auto. Qed.

(** Pools that agree on every URL. *)
Lemma locates_ext ce p q : (forall r, assoc r p = assoc r q) -> forall r e, locates ce p r e -> locates ce q r e.
Proof.
  intros H r e [E|(E & b & ts & x & Eb & R)]; [left|right]; rewrite <- H; auto. split; auto. exists b, ts, x. rewrite <- H. auto.
Qed.
Lemma closed_refs_ext ce p q v : (forall r, assoc r p = assoc r q) -> closed_refs ce p v -> closed_refs ce q v.
Proof. intros H C k r M E. destruct (C k r M E) as [e L]. exists e. eapply locates_ext; eauto. Qed.
Lemma leads_to_ext ce p q d k d' x : (forall r, assoc r p = assoc r q) -> leads_to ce p d k d' x -> leads_to ce q d k d' x.
Proof. intros H (r & e & E & L & R). exists r, e. split; auto. split; auto. eapply locates_ext; eauto. Qed.

Lemma resolve_numbers ce lm n : forall v base, vsize v < n -> all_numbers (moderate lm) v ->
  all_numbers (moderate lm) (resolve (u_parse ce) (u_inherits ce) base v).
Proof.
  induction n as [|n IH]; intros v base Hn Hm; [lia|]. destruct v as [| | | | |l|m|m]; auto.
  - cbn [resolve]. inversion Hm as [| | | | |? G|]; subst. constructor. rewrite Forall_forall in *. intros x Hx. apply in_map_iff in Hx. destruct Hx as (y & <- & Hy).
    apply IH; auto. apply vsize_item in Hy. lia.
  - rewrite resolve_map. inversion Hm as [| | | | | |? G]; subst. constructor. rewrite Forall_forall in *. intros e He. apply in_map_iff in He.
    destruct He as ([k x] & <- & Hx). cbn [fst snd]. pose proof (G _ Hx) as Gx. cbn [snd] in Gx. apply vsize_member in Hx. unfold res_member.
    destruct (is_literal k); auto. destruct (is_schema_map k).
    + destruct x as [| | | | | |c|]; auto. inversion Gx as [| | | | | |? Gc]; subst. constructor. rewrite Forall_forall in *. intros e He. apply in_map_iff in He.
      destruct He as ([k' y] & <- & Hy). cbn [fst snd]. pose proof (Gc _ Hy) as Gy. apply vsize_member in Hy. apply IH; auto. lia.
    + destruct x; try (apply IH; auto; lia). destruct (String.eqb k "$ref"); constructor.
Qed.

(** Subschemas with an identifier are documents too. *)
Lemma ids_doc_ok_size ce n : forall v base r x, vsize v < n -> doc_ok (resolve (u_parse ce) (u_inherits ce) base v) ->
  In (r, x) (ids_of (u_parse ce) (u_inherits ce) base v) -> doc_ok x.
Proof.
  induction n as [|n IH]; intros v base r x Hn Hd Hin; [lia|]. destruct v as [| | | | |l|m|m]; try destruct Hin.
  - cbn [ids_of] in Hin. apply in_flat_map in Hin. destruct Hin as (y & Hy & Hin). cbn [resolve] in Hd. apply doc_ok_arr in Hd. rewrite Forall_forall in Hd.
    apply (IH y base r x); auto; [apply vsize_item in Hy; lia|]. apply Hd, in_map, Hy.
  - rewrite ids_map in Hin. apply in_app_or in Hin. destruct Hin as [Hin|Hin].
    { destruct (new_scope _ _ base m) as [r'|]; [|destruct Hin]. destruct Hin as [Hin|[]]. injection Hin as <- <-. exact Hd. }
    rewrite resolve_map in Hd. apply in_flat_map in Hin. destruct Hin as ([nm y] & Hy & Hin).
    unfold ids_member in Hin. cbn [fst snd] in Hin. destruct (is_literal nm) eqn:El; [destruct Hin|].
    assert (Hy' : doc_ok (res_member ce (scope (u_parse ce) (u_inherits ce) base m) nm y)).
    { apply doc_ok_map in Hd. destruct Hd as [_ Hd]. rewrite Forall_forall in Hd.
      apply (Hd (nm, res_member ce (scope (u_parse ce) (u_inherits ce) base m) nm y)). apply in_map_iff. exists (nm, y). auto. }
    unfold res_member in Hy'. rewrite El in Hy'. apply vsize_member in Hy. destruct (is_schema_map nm).
    + destruct y as [| | | | | |c|]; try destruct Hin. apply in_flat_map in Hin. destruct Hin as ([n' z] & Hz & Hin). cbn [snd] in Hin.
      apply doc_ok_map in Hy'. destruct Hy' as [_ Hy']. rewrite Forall_forall in Hy'. pose proof (vsize_member _ _ _ Hz).
      eapply IH; [|apply (Hy' (n', resolve (u_parse ce) (u_inherits ce) (scope (u_parse ce) (u_inherits ce) base m) z))|exact Hin]; [lia|].
      apply in_map_iff. exists (n', z). auto.
    + destruct y; try destruct Hin; (eapply IH; [|exact Hy'|exact Hin]; lia).
Qed.
Lemma ids_doc_ok ce v base r x : doc_ok (resolve (u_parse ce) (u_inherits ce) base v) ->
  In (r, x) (ids_of (u_parse ce) (u_inherits ce) base v) -> doc_ok x.
Proof. apply (ids_doc_ok_size ce (S (vsize v))). lia. Qed.

(** *** Compile *)
Section Verdict.
  Variable w : world.
  Hypothesis HU : url_laws w.
  Variable sl : sloader.
  Notation ce := (cenv_of w sl).
  Notation lim := (e_ratlim (w_go w)).
  Notation resolve := (resolve (w_parse w) (w_inherits w)).
  Notation ids_of := (ids_of (w_parse w) (w_inherits w)).

  Definition root_draft (doc : value) : draft := match doc_draft ce doc with Some d => d | None => sl_draft sl end.
  Definition known_documents (doc : value) : pool :=
    entries (doc_draft ce doc) (documents (w_parse w) (w_inherits w) "" doc) ++ sl_pool sl.

  Lemma assoc_app {A} r (a b : list (string * A)) : assoc r (a ++ b) = match assoc r a with Some x => Some x | None => assoc r b end.
  Proof. induction a as [|[k x] a IH]; [reflexivity|]. simpl. destruct (String.eqb r k); auto. Qed.

  (** What the first half of Compile leaves behind. *)
  Lemma compile_doc_known o l doc rd sl1 : fair o -> (forall fs s, l <> LRef fs s) -> fst (LoadJSON w l) = Some doc -> doc_ok doc ->
    all_numbers (moderate lim) doc -> fresh (sl_pool sl) (ids_of "" doc) ->
    compile_doc w o sl l = LOk rd sl1 ->
    rd = ("", resolve "" doc) /\ assoc "" (sl_pool sl) = None /\ (sl_auto sl = true -> well_declared (w_parse w) doc) /\
    sl1 = with_pool (sl_pool sl1) (with_factory 0 sl) /\ forall r, assoc r (sl_pool sl1) = assoc r (known_documents doc).
  Proof.
    intros F Hl EL Hd Hm Hf E. unfold compile_doc in E. destruct HU as (U1 & U2 & _).
    assert (EJ : JsonReference w l = Some "") by (destruct l; auto; destruct (Hl _ _ eq_refl)). rewrite EJ, String.eqb_refl in E. cbn [negb] in E. rewrite EL in E.
    assert (EF : LoaderFactory l = 0) by (destruct l; auto; destruct (Hl _ _ eq_refl)). rewrite EF in E.
    apply lbind_ok in E. destruct E as (doc' & sl2 & E & Er). injection Er as <- <-. unfold pool_parseReferences in E.
    apply lbind_ok in E. destruct E as (r & sl3 & E & Er). apply run_out_ok in E. destruct E as [E ->].
    destruct (pr_err r) eqn:Ee; [discriminate|]. injection Er as <- <-.
    cbn [with_factory sl_pool] in E.
    assert (Hr : assoc "" (sl_pool sl) = None).
    { unfold parseReferences in E. destruct (assoc "" (sl_pool sl)); auto. injection E as <-. discriminate. }
    assert (Hw : sl_auto sl = true -> well_declared (w_parse w) doc).
    { intros Ha. exact (parseReferences_declared (cenv_of w (with_factory 0 sl)) _ doc "" true _ r Hd Hm Ha E Ee). }
    destruct (parseReferences_resolves (cenv_of w (with_factory 0 sl)) U2 (shift o 0) doc "" true (sl_pool sl)) as (p' & A & E'); auto; [apply shift_fair; auto|].
    rewrite E' in E. injection E as <-. cbn [pr_doc pr_pool]. split; [reflexivity|]. split; auto. split; auto. split; [reflexivity|].
    intros r. cbn [with_pool sl_pool]. rewrite assoc_aset. unfold known_documents. rewrite assoc_app, assoc_entries.
    unfold documents. cbn [assoc]. destruct (String.eqb_spec r "") as [->|Hne]; [reflexivity|].
    destruct Hf as [Nd Hf]. destruct (assoc r p') as [e|] eqn:Ep.
    - apply A in Ep. destruct Ep as [Ep|(x & Hx & ->)].
      + destruct (assoc r (ids_of "" doc)) as [y|] eqn:Ey; [|auto]. apply assoc_In in Ey. rewrite (Hf r) in Ep; [discriminate|].
        change r with (fst (r, y)). apply in_map. auto.
      + rewrite (proj2 (assoc_In_iff _ r x Nd)); auto.
    - destruct (assoc r (ids_of "" doc)) as [y|] eqn:Ey.
      + apply assoc_In in Ey. exfalso. assert (Hp : assoc r p' = Some (Spd y (doc_draft ce doc))); [|congruence]. apply A. right. exists y. auto.
      + destruct (assoc r (sl_pool sl)) as [e|] eqn:Es; auto. assert (Hp : assoc r p' = Some e) by (apply A; auto). congruence.
  Qed.

  (** What a successful Compile comes down to, all the documents its
      references lead to being known. *)
  Lemma compile_parts fuel o l doc sch sl' :
    fair o -> (forall fs s, l <> LRef fs s) -> fst (LoadJSON w l) = Some doc -> doc_ok doc -> all_numbers (moderate lim) doc ->
    sl_validate sl = false -> fresh (sl_pool sl) (ids_of "" doc) ->
    let p0 := known_documents doc in
    let d := root_draft doc in
    (forall r e, assoc r (sl_pool sl) = Some e -> doc_ok (sp_doc e) /\ closed_refs ce p0 (sp_doc e)) ->
    settled p0 d -> closed_refs ce p0 (resolve "" doc) ->
    Compile w fuel o sl l = LOk sch sl' ->
    exists ce1 p1 o1 s', fair o1 /\ settled p1 d /\
      (forall r e, assoc r p1 = Some e -> doc_ok (sp_doc e) /\ closed_refs ce1 p1 (sp_doc e)) /\
      known_pool ce1 p1 p1 /\ doc_ok (resolve "" doc) /\ closed_refs ce1 p1 (resolve "" doc) /\
      (forall k d2 x, leads_to ce1 p1 d k d2 x <-> leads_to ce p0 d k d2 x) /\ c_go ce1 = w_go w /\
      parse ce1 fuel o1 "" d (resolve "" doc) (CState [] [] p1 []) = COk (s_root sch) s' /\ s_heap sch = st_heap s' /\
      (forall r, assoc r p0 = assoc r p1).
  Proof.
    intros F Hl EL Hd Hm Hv Hf p0 d Hpool Hset Hcl EC.
    unfold Compile in EC. apply lbind_ok in EC. destruct EC as (rd & sl1 & E1 & EC).
    destruct (compile_doc_known _ l doc rd sl1 (shift_fair _ 0 F) Hl EL Hd Hm Hf E1) as (-> & Hr0 & Hw & Esl & Hp1).
    assert (Hv1 : sl_validate sl1 = false) by (rewrite Esl; exact Hv). rewrite Hv1 in EC. cbn [lbind fst snd] in EC.
    assert (Hdr : doc_ok (resolve "" doc)).
    { destruct (parseReferences_resolves ce (proj1 (proj2 HU)) o doc "" false (sl_pool sl)) as (p' & _ & E'); auto; try discriminate.
      eapply (parseReferences_docs ce (fun _ => True) (url_laws_text _ _ HU)) in E'; [exact (proj1 E')|auto|apply utf8_empty|auto| |].
      - intros r0 e0 He0. split; [apply (Hpool _ _ He0)|auto].
      - intros _ u x _. exact I. }
    unfold compile_parse in EC. apply lbind_ok in EC. destruct EC as (d' & sl2 & E2 & EC).
    assert (Ed : d' = d /\ sl2 = sl1).
    { unfold d, root_draft, doc_draft. cbn [c_autodetect u_parse]. rewrite Esl in E2. cbn [with_pool with_factory sl_auto sl_draft] in E2. cbn [cenv_of c_autodetect u_parse].
      destruct (sl_auto sl) eqn:Ea; [|injection E2 as <- <-; rewrite <- Esl; auto].
      apply lbind_ok in E2. destruct E2 as (q & sl3 & E2 & E3). apply run_out_ok in E2. destruct E2 as [E2 ->].
      assert (Hmr : all_numbers (moderate lim) (resolve "" doc)) by (apply (resolve_numbers ce lim (S (vsize doc))); auto).
      match type of E2 with parseSchemaURL ?c _ = _ => destruct (parseSchemaURL_named c (resolve "" doc) Hdr Hmr) as [[_ [u Eu]]|[_ [e Eu]]] end; rewrite Eu in E2; injection E2 as <-; [|discriminate].
      assert (RN : named_draft (w_parse w) (resolve "" doc) = named_draft (w_parse w) doc) by exact (resolve_named ce "" doc).
      cbn [cenv_of u_parse] in E3. rewrite RN in E3.
      destruct (named_draft (w_parse w) doc); injection E3 as <- <-; rewrite <- Esl; auto. }
    destruct Ed as [-> ->]. apply lbind_ok in EC. destruct EC as ([id s'] & sl3 & E3 & EC). injection EC as <- <-.
    apply run_comp_ok in E3. destruct E3 as [E3 ->].
    rewrite Esl in E3. cbn [sl_pool with_pool] in E3.
    (* the compiler's own environment differs only in the file system it would fetch from *)
    set (p1 := sl_pool sl1) in *. set (ce1 := cenv_of w (with_pool p1 (with_factory 0 sl))) in *.
    assert (X : forall r, assoc r p0 = assoc r p1) by (intros; symmetry; apply Hp1).
    assert (T1 : forall d' k d2 x, leads_to ce1 p1 d' k d2 x <-> leads_to ce p0 d' k d2 x).
    { intros. split; intros H; [apply (leads_to_ext ce p1 p0); auto|apply (leads_to_ext ce p0 p1) in H; auto]. }
    assert (Hdocs : forall r e, assoc r p1 = Some e -> doc_ok (sp_doc e) /\ closed_refs ce1 p1 (sp_doc e)).
    { intros r0 e0 E0. assert (G : doc_ok (sp_doc e0) /\ closed_refs ce p0 (sp_doc e0)).
      2: { destruct G as [G1 G2]. split; auto. apply (closed_refs_ext ce p0 p1) in G2; auto. }
      rewrite Hp1 in E0. unfold known_documents in E0. rewrite assoc_app, assoc_entries in E0.
      destruct (assoc r0 (documents _ _ "" doc)) as [x|] eqn:Ex.
      - injection E0 as <-. cbn [sp_doc]. apply assoc_In in Ex. destruct Ex as [Ex|Ex]; [injection Ex as <- <-; auto|]. split.
        + apply (ids_doc_ok ce _ _ _ _ Hdr Ex).
        + intros k0 r1 M. apply Hcl. exact (ids_mentions ce (proj1 (proj2 HU)) doc "" r0 x k0 Ex M).
      - apply Hpool in E0. auto. }
    assert (Hset1 : settled p1 d).
    { destruct Hset as [H|H]; [left|right]; intros; rewrite Hp1 in *; eauto. }
    assert (KP : known_pool ce1 p1 p1) by (split; [intros r0 e0; auto|intros r0 e0; left; auto]).
    assert (Hcl1 : closed_refs ce1 p1 (resolve "" doc)) by (apply (closed_refs_ext ce p0 p1) in Hcl; auto).
    exists ce1, p1, (shift (shift o 2) 1), s'. cbn [s_heap s_root fst snd].
    repeat match goal with |- _ /\ _ => apply conj end; auto. repeat apply shift_fair; auto.
  Qed.

  (** A compiled schema accepts what its document means, all the documents its
      references lead to being known. *)
  Theorem compile_verdict fuel o l doc sch sl' :
    fair o -> (forall fs s, l <> LRef fs s) -> fst (LoadJSON w l) = Some doc -> doc_ok doc -> all_numbers (moderate lim) doc ->
    sl_validate sl = false -> fresh (sl_pool sl) (ids_of "" doc) ->
    let p0 := known_documents doc in
    let d := root_draft doc in
    (forall r e, assoc r (sl_pool sl) = Some e -> doc_ok (sp_doc e) /\ closed_refs ce p0 (sp_doc e)) ->
    settled p0 d -> closed_refs ce p0 (resolve "" doc) ->
    Compile w fuel o sl l = LOk sch sl' ->
    forall v V, usual lim v ->
    (forall d' m x, needed (leads_to ce p0 d) d (resolve "" doc) v d' (VMap m) x -> assoc "$ref" m = None -> fits lim m x) ->
    meaning_at (pat (w_go w)) (fmt (w_go w)) same (leads_to ce p0 d) d (resolve "" doc) v V ->
    forall k o', fair o' -> validateDocument (w_go w) (s_heap sch) k o' (s_root sch) v <> Panic /\
      forall r, validateDocument (w_go w) (s_heap sch) k o' (s_root sch) v = Ok r -> (Valid r = true <-> V d (resolve "" doc) v).
  Proof.
    intros F Hl EL Hd Hm Hv Hf p0 d Hpool Hset Hcl EC v V ORD REG EQ k o' F'.
    destruct (compile_parts fuel o l doc sch sl' F Hl EL Hd Hm Hv Hf Hpool Hset Hcl EC) as (ce1 & p1 & o1 & s' & F1 & Hset1 & Hdocs & KP & Hdr & Hcl1 & T1 & Eg & E3 & Eh & _).
    pose proof (known_link ce1 p1 d Hset1 Hdocs fuel o1 "" (resolve "" doc) (s_root sch) s' KP Hdr Hcl1 F1 E3) as L. rewrite Eg in L.
    assert (VE : forall r, Valid r = true <-> errors r = []) by (intros r; unfold Valid; destruct (errors r); split; congruence).
    unfold validateDocument. rewrite Eh.
    edestruct (L v V ORD) as [LN LV]; [| |exact F'|split; [exact LN|intros r ER; rewrite VE; exact (LV r ER)]].
    - intros d2 m x N. apply (REG d2 m x). eapply needed_ext_l; [|exact N]. intros; apply T1.
    - eapply meaning_at_refs; [|exact EQ]. intros; apply T1.
  Qed.

  (** No chain of cells hands an instance back to where it came from. *)
  Theorem compile_acyclic fuel o l doc sch sl' :
    fair o -> (forall fs s, l <> LRef fs s) -> fst (LoadJSON w l) = Some doc -> doc_ok doc -> all_numbers (moderate lim) doc ->
    sl_validate sl = false -> fresh (sl_pool sl) (ids_of "" doc) ->
    let p0 := known_documents doc in
    let d := root_draft doc in
    (forall r e, assoc r (sl_pool sl) = Some e -> doc_ok (sp_doc e) /\ closed_refs ce p0 (sp_doc e)) ->
    settled p0 d -> closed_refs ce p0 (resolve "" doc) ->
    Compile w fuel o sl l = LOk sch sl' ->
    guarded (leads_to ce p0 d) d (resolve "" doc) ->
    forall a, reach (s_heap sch) (s_root sch) a -> ~ chain (s_heap sch) a a.
  Proof.
    intros F Hl EL Hd Hm Hv Hf p0 d Hpool Hset Hcl EC G.
    destruct (compile_parts fuel o l doc sch sl' F Hl EL Hd Hm Hv Hf Hpool Hset Hcl EC) as (ce1 & p1 & o1 & s' & F1 & Hset1 & Hdocs & KP & Hdr & Hcl1 & T1 & Eg & E3 & Eh & _).
    rewrite Eh. eapply (known_acyclic ce1 p1 d Hset1 Hdocs fuel o1 "" (resolve "" doc)); eauto. eapply guarded_ext; [|exact G]. intros; symmetry; apply T1.
  Qed.
End Verdict.
