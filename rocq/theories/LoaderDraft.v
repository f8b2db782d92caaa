(** With AutoDetect off, the pool records no drafts. *)
From Verif Require Export LoaderProps LoadFetch.
From Coq Require Import Lia.
Open Scope nat_scope.

Definition undrafted (p : pool) : Prop := forall r e, assoc r p = Some e -> sp_draft e = None.
Definition quiet (p p' : pool) : Prop := undrafted p -> undrafted p'.
Lemma quiet_refl p : quiet p p.
Proof. intros H. exact H. Qed.
Lemma quiet_trans p q r : quiet p q -> quiet q r -> quiet p r.
Proof. unfold quiet. auto. Qed.
Lemma quiet_add p q r x : quiet p q -> quiet p (aset r (Spd x None) q).
Proof. intros H Hp k e E. rewrite assoc_aset in E. destruct (String.eqb k r); [injection E as <-; reflexivity|]. exact (H Hp _ _ E). Qed.
#[global] Hint Resolve quiet_refl : core.

Section Grow.
  Variable ce : cenv.
  Variable rec : oracle -> value -> string -> option draft -> pool -> out prr.
  Hypothesis Hrec : forall o v b p r, rec o v b None p = Ok r -> quiet p (pr_pool r).

  Lemma prr_list_quiet o i b l : forall p q, prr_list rec o i b None l p = Ok q -> quiet p (snd q).
  Proof.
    revert i. induction l as [|x l IH]; intros i p q E; cbn [prr_list] in E.
    - injection E as <-. auto.
    - apply obind_ok in E. destruct E as (r & Er & E). apply obind_ok in E. destruct E as (q' & Eq & E). injection E as <-. simpl.
      eapply quiet_trans; [eapply Hrec; eauto|eapply IH; eauto].
  Qed.
  Lemma prr_map_quiet o b es : forall i m p q, prr_map rec o i b None es m p = Ok q -> quiet p (snd q).
  Proof.
    induction es as [|[k x] es IH]; intros i m p q E; cbn [prr_map] in E.
    - injection E as <-. auto.
    - apply obind_ok in E. destruct E as (r & Er & E). apply IH in E. eapply quiet_trans; [eapply Hrec; eauto|auto].
  Qed.
  Lemma prr_member_quiet o b k x p q : prr_member rec o b None k x p = Ok q -> quiet p (snd q).
  Proof.
    unfold prr_member. destruct (literal_key k); [intros [= <-]; auto|]. destruct (map_key k).
    - destruct x; try (intros [= <-]; auto; fail). intros E. apply obind_ok in E. destruct E as (r & Er & E). injection E as <-.
      eapply prr_map_quiet; eauto.
    - intros E. apply obind_ok in E. destruct E as (r & Er & E). injection E as <-. eapply Hrec; eauto.
  Qed.
  Lemma prr_members_quiet o b es : forall i m p q, prr_members rec o i b None es m p = Ok q -> quiet p (snd q).
  Proof.
    induction es as [|[k x] es IH]; intros i m p q E; cbn [prr_members] in E.
    - injection E as <-. auto.
    - apply obind_ok in E. destruct E as (r & Er & E). apply IH in E. eapply quiet_trans; [eapply prr_member_quiet; eauto|auto].
  Qed.
  Lemma parseReferencesNode_quiet o v b p r : parseReferencesNode ce rec o v b None p = Ok r -> quiet p (pr_pool r).
  Proof.
    unfold parseReferencesNode. destruct v; try (intros [= <-]; simpl; auto; fail).
    - intros E. apply obind_ok in E. destruct E as (q & Eq & E). injection E as <-. eapply prr_list_quiet; eauto.
    - intros E. apply obind_ok in E. destruct E as (lid & Ei & E). destruct lid as [id|].
      + destruct (assoc id p) eqn:Ep; [injection E as <-; simpl; auto|].
        apply obind_ok in E. destruct E as (m1 & Em & E). apply obind_ok in E. destruct E as (q & Eq & E). injection E as <-. simpl.
        apply quiet_add; auto. eapply quiet_trans; [|eapply prr_members_quiet; eauto]. apply quiet_add; auto.
      + apply obind_ok in E. destruct E as (m1 & Em & E). apply obind_ok in E. destruct E as (q & Eq & E). injection E as <-. simpl.
        eapply prr_members_quiet; eauto.
  Qed.
End Grow.

Lemma parseReferencesRecursive_quiet ce k : forall o v b p r,
  parseReferencesRecursive ce k o v b None p = Ok r -> quiet p (pr_pool r).
Proof.
  induction k as [|k IH]; intros o v b p r E; [discriminate|]. cbn [parseReferencesRecursive] in E.
  eapply parseReferencesNode_quiet; eauto.
Qed.

Lemma parseReferences_quiet ce o doc ref pooled p r : c_autodetect ce = false -> parseReferences ce o doc ref pooled p = Ok r -> quiet p (pr_pool r).
Proof.
  intros HA. unfold parseReferences. rewrite HA. destruct (pooled && _)%bool eqn:Ep; [intros [= <-]; simpl; auto|].
  intros E. apply obind_ok in E. destruct E as ([e|d] & Ed & E); [injection E as <-; simpl; auto|]. injection Ed as <-.
  apply obind_ok in E. destruct E as (q & Eq & E). apply parseReferencesRecursive_quiet in Eq.
  destruct pooled; injection E as <-; simpl; auto. apply quiet_add; auto.
Qed.

Definition hushed {A} (c : comp A) : Prop := forall s, match c s with COk _ s' | CErr _ s' => quiet (st_pool s) (st_pool s') | _ => True end.
Lemma hushed_still {A} (c : comp A) : still c -> hushed c.
Proof. intros H s. specialize (H s). destruct (c s) as [a s'|e s'| |]; auto; subst; auto. Qed.
Lemma hushed_bind {A B} (c : comp A) (f : A -> comp B) : hushed c -> (forall a, hushed (f a)) -> hushed (cbind c f).
Proof.
  intros H1 H2 s. specialize (H1 s). unfold cbind. destruct (c s) as [a s'|e s'| |]; auto. specialize (H2 a s'). destruct (f a s') as [b s2|e s2| |]; auto; eapply quiet_trans; eauto.
Qed.
Lemma hushed_ret {A} (a : A) : hushed (cret a).
Proof. intros s. cbn. auto. Qed.
Lemma hushed_fail {A} e : hushed (@cfail A e).
Proof. intros s. cbn. auto. Qed.
Lemma hushed_panic {A} : hushed (@cpanic A).
Proof. intros s. exact I. Qed.
Lemma hushed_lift {A} (x : out A) : hushed (lift_out x).
Proof. apply hushed_still, still_lift. Qed.
Lemma hushed_alloc prop d doc : hushed (alloc prop d doc).
Proof. intros s. cbn. auto. Qed.
Lemma hushed_store id n : hushed (store id n).
Proof. intros s. cbn. auto. Qed.
Lemma hushed_refs_get r : hushed (refs_get r).
Proof. intros s. cbn. auto. Qed.
Lemma hushed_refs_add r id : hushed (refs_add r id).
Proof. intros s. cbn. auto. Qed.
Lemma hushed_cmap {A B} (f : nat -> A -> comp B) : (forall i x, hushed (f i x)) -> forall l i, hushed (cmap f i l).
Proof.
  intros H. induction l as [|x l IH]; intros i; cbn [cmap]; [apply hushed_ret|]. apply hushed_bind; auto. intros y. apply hushed_bind; auto. intros ys. apply hushed_ret.
Qed.
Lemma GetDocument_hushed ce o r : c_autodetect ce = false -> hushed (GetDocument ce o r).
Proof.
  intros HA s. unfold GetDocument, cbind, get_pool. destruct (assoc r (st_pool s)) as [d|] eqn:Er; [cbn; auto|].
  destruct (assoc (u_strip ce r) (st_pool s)) as [d|] eqn:Eb.
  - destruct (pointer_get _ _); [|cbn; auto]. cbn. intros H k e Ek. rewrite assoc_aset in Ek. destruct (String.eqb k r); [injection Ek as <-; exact (H _ _ Eb)|exact (H _ _ Ek)].
  - destruct (negb _); [cbn; auto|]. destruct (c_fetch ce r); [|cbn; auto]. destruct (parseReferences _ _ _ _ _ _) as [q| |] eqn:E; cbn; auto.
    apply parseReferences_quiet in E; auto. destruct (parseSchemaURL ce (pr_doc q)); cbn; auto. destruct (pointer_get _ _); cbn; auto.
Qed.

Ltac hushed1 := first
  [ apply hushed_ret | apply hushed_fail | apply hushed_panic | apply hushed_lift | apply hushed_alloc | apply hushed_store | apply hushed_refs_get | apply hushed_refs_add
  | (apply GetDocument_hushed; assumption) | (apply hushed_still; solve [auto with still nocore]) | (apply hushed_bind; [|intros ?]) | (apply hushed_cmap; intros ? ?)
  | match goal with H : forall o a i v, hushed (_ o a i v) |- _ => apply H end
  | match goal with |- hushed (match ?x with _ => _ end) => destruct x end
  | match goal with |- hushed (if ?x then _ else _) => destruct x end ].
Ltac hushed := repeat hushed1.
Section Parse.
  Variable ce : cenv.
  Hypothesis HA : c_autodetect ce = false.
  Variable rec : oracle -> pargs -> nat -> value -> comp unit.
  Hypothesis Hrec : forall o a i v, hushed (rec o a i v).
  Lemma child_hushed o p d i v : hushed (child rec o p d i v).
  Proof. unfold child. hushed. Qed.
  Ltac kids := repeat first [apply child_hushed | hushed1].
  Lemma keywords_hushed o a i r m : hushed (p_keywords ce rec o a i r m).
  Proof.
    unfold p_keywords. cbv zeta.
    repeat (apply hushed_bind; [|intros ?]); try (apply hushed_still; solve [auto with still nocore]); try apply hushed_ret;
      unfold p_properties, p_additional, p_patternProperties, p_propertyNames, p_dependencies, p_items, p_contains, p_schemas, p_cond, p_schema, p_dependency, ck; kids.
  Qed.
  Lemma parseReference_hushed o d i r : hushed (parseReference ce rec o d i r).
  Proof.
    assert (G : forall id, hushed (let! _ := alloc "$ref" d VNil in
       let! _ := refs_add r id in
       let! dsp := GetDocument ce (shift o 0) r in
       let! b := ck ce (sp_doc dsp) [KMap; KBool] in
       if negb b then cfail (MustBeOfType "valid schema" TYPE_OBJECT) else
       let d' := match sp_draft dsp with Some x => x | None => d end in
       let! _ := (fun s' => COk tt (CState (st_heap s') (set_nth id (d', sp_doc dsp) (st_src s'))
                                           (st_pool s') (st_refs s'))) in
       let! _ := rec (shift o 1) (PArgs "$ref" d' false r i) id (sp_doc dsp) in
       cret id)).
    { intros id. unfold ck. cbv zeta. hushed; try (intros s; cbn; auto; fail). }
    intros s. unfold parseReference. exact (G _ s).
  Qed.
  Lemma node_hushed o a i v : hushed (parseSchemaNode ce rec o a i v).
  Proof.
    unfold parseSchemaNode. cbv zeta. unfold p_definitions, ck.
    repeat first [apply keywords_hushed | apply parseReference_hushed | apply child_hushed | hushed1].
  Qed.
End Parse.
Lemma parseSchema_hushed ce k : c_autodetect ce = false -> forall o a i v, hushed (parseSchema ce k o a i v).
Proof. intros HA. induction k as [|k IH]; intros o a i v; cbn [parseSchema]; [intros s; exact I|apply node_hushed; auto]. Qed.
Lemma parse_hushed ce k o r d v : c_autodetect ce = false -> hushed (parse ce k o r d v).
Proof. intros HA. unfold parse. hushed. apply parseSchema_hushed. auto. Qed.


(** ** Calls on a SchemaLoader *)
Definition calm (sl sl' : sloader) : Prop := (sl_auto sl = false -> quiet (sl_pool sl) (sl_pool sl')) /\ sl_auto sl' = sl_auto sl /\ sl_draft sl' = sl_draft sl.
Lemma calm_refl sl : calm sl sl.
Proof. split; auto. Qed.
Lemma calm_trans a b c : calm a b -> calm b c -> calm a c.
Proof. intros (H1 & H2 & H3) (K1 & K2 & K3). split; [intros HA; eapply quiet_trans; [apply H1; auto|apply K1; congruence]|]. split; congruence. Qed.
#[global] Hint Resolve calm_refl : core.
Section Loaders.
  Variable w : world.
  Lemma calm_comp {A} sl (c : comp A) : (sl_auto sl = false -> hushed c) -> after (calm sl) (run_comp sl c).
  Proof. intros G0. unfold run_comp. destruct (sl_auto sl) eqn:HA; [destruct (c _); cbn; auto; split; auto; congruence|]. specialize (G0 eq_refl). pose proof G0 as G. clear G0. specialize (G (CState [] [] (sl_pool sl) [])). unfold run_comp. destruct (c _) as [a s|e s| |]; cbn in *; auto; split; auto. Qed.
  Lemma calm_refs o doc ref pooled sl : after (calm sl) (pool_parseReferences w o doc ref pooled sl).
  Proof.
    unfold pool_parseReferences. destruct (parseReferences _ _ _ _ _ _) as [q| |] eqn:E; cbn; auto.
    assert (K : calm sl (with_pool (pr_pool q) sl)).
    { split; auto. intros HA. apply parseReferences_quiet in E; auto. }
    destruct (pr_err q); exact K.
  Qed.
  Section Fuel.
    Variable fuel : nat.
    Lemma doc_calm o sl l : after (calm sl) (compile_doc w o sl l).
    Proof.
      unfold compile_doc. destruct (JsonReference w l) as [ref|]; [|cbn; auto].
      assert (K : calm sl (with_factory (LoaderFactory l) sl)) by (split; auto).
      destruct (negb _).
      - apply after_bind; [|intros a sl1 _ H; exact H]. eapply after_weak; [apply calm_comp; intros HA; apply GetDocument_hushed; exact HA|]. intros sl1. apply calm_trans. auto.
      - destruct (fst (LoadJSON w l)) as [doc|]; [|cbn; auto]. apply after_bind; [|intros a sl1 _ H; exact H].
        eapply after_weak; [apply calm_refs|]. intros sl1. apply calm_trans. auto.
    Qed.
    Lemma compile_parse_calm o sl r doc : after (calm sl) (compile_parse w fuel o sl r doc).
    Proof.
      unfold compile_parse. apply after_bind.
      - destruct (sl_auto sl); [|cbn; auto]. apply after_bind; [apply after_out; auto|]. intros [e|[u [d|]]] sl1 _ H; exact H.
      - intros d sl1 _ H. apply after_bind; [|intros a sl2 _ H2; exact H2]. eapply after_weak; [apply calm_comp; intros HA; apply parse_hushed; exact HA|]. intros sl2. apply calm_trans. auto.
    Qed.
    Lemma Compile0_calm o sl l : after (calm sl) (Compile0 w fuel o sl l).
    Proof.
      unfold Compile0. apply after_bind; [apply doc_calm|]. intros a sl1 _ H. eapply after_weak; [apply compile_parse_calm|]. intros sl2. apply calm_trans. auto.
    Qed.
    Lemma meta_calm o sl doc : after (calm sl) (validateMetaschema w fuel o sl doc).
    Proof.
      unfold validateMetaschema. apply after_bind.
      - destruct (sl_auto sl); [|cbn; auto]. apply after_bind; [apply after_out; auto|]. intros [e|[u d]] sl1 _ H; exact H.
      - intros url sl1 _ H. destruct (_ && _)%bool; [exact H|]. cbv zeta. apply after_bind.
        + eapply after_weak; [apply Compile0_calm|]. intros sl2 K. eapply calm_trans; [exact H|]. eapply calm_trans; [|exact K]. split; auto.
        + intros sch sl2 _ H2. assert (K : calm sl (with_validate true sl2)) by (destruct H2 as (A1 & A2 & A3); split; auto).
          apply after_bind; [apply after_out; auto|]. intros r sl3 _ H3. destruct (Valid r); exact H3.
    Qed.
    Lemma Compile_calm o sl l : after (calm sl) (Compile w fuel o sl l).
    Proof.
      unfold Compile. apply after_bind; [apply doc_calm|]. intros a sl1 _ H. apply after_bind.
      - destruct (sl_validate sl1); [|exact H]. eapply after_weak; [apply meta_calm|]. intros sl2. apply calm_trans. auto.
      - intros [] sl2 _ H2. eapply after_weak; [apply compile_parse_calm|]. intros sl3. apply calm_trans. auto.
    Qed.
    Lemma AddSchema_calm o url l sl : after (calm sl) (AddSchema w fuel o url l sl).
    Proof.
      unfold AddSchema. destruct (w_parse w url) as [ref|]; [|cbn; auto]. destruct (fst (LoadJSON w l)) as [doc|]; [|cbn; auto]. apply after_bind.
      - destruct (sl_validate sl); [apply meta_calm|cbn; auto].
      - intros [] sl1 _ H. apply after_bind; [|intros a sl2 _ H2; exact H2]. eapply after_weak; [apply calm_refs|]. intros sl2. apply calm_trans. auto.
    Qed.
    Lemma AddSchemas_calm ls : forall o sl, after (calm sl) (AddSchemas w fuel o ls sl).
    Proof.
      induction ls as [|l ls IH]; intros o sl; cbn [AddSchemas]; [cbn; auto|]. destruct (fst (LoadJSON w l)) as [doc|]; [|cbn; auto]. apply after_bind.
      - destruct (sl_validate sl); [apply meta_calm|cbn; auto].
      - intros [] sl1 _ H. apply after_bind.
        + eapply after_weak; [apply calm_refs|]. intros sl2. apply calm_trans. auto.
        + intros x sl2 _ H2. eapply after_weak; [apply IH|]. intros sl3. apply calm_trans. auto.
    Qed.
  End Fuel.

  (** A call on a loader with AutoDetect off. *)
  Theorem call_calm fuel o c sl : (forall b, c <> SetAutoDetect b) -> sl_auto sl = false -> undrafted (sl_pool sl) ->
    after (fun sl' => sl_auto sl' = false /\ undrafted (sl_pool sl')) (do_call w fuel o c sl).
  Proof.
    intros Hc HA HU. assert (D : forall sl', calm sl sl' -> sl_auto sl' = false /\ undrafted (sl_pool sl')).
    { intros sl' (K1 & K2 & _). split; [congruence|]. apply K1; auto. }
    destruct c as [l|u l|ls|b|b|d]; cbn [do_call]; try (destruct (Hc b eq_refl)); try (cbn; auto; fail).
    - pose proof (Compile_calm fuel o sl l) as K. destruct (Compile w fuel o sl l); cbn in *; auto.
    - eapply after_weak; [apply AddSchema_calm|auto].
    - eapply after_weak; [apply AddSchemas_calm|auto].
  Qed.
End Loaders.

(** ** The drafts met *)
Section Met.
  Variable w : world.
  Lemma found_undrafted ce p doc r e : c_autodetect ce = false -> undrafted p -> found ce p doc r e -> sp_draft e = None.
  Proof.
    intros HA HU [_ [L|(_ & _ & _ & _ & ts & x & dr & y & P & _ & _ & ->)]].
    - destruct L as [L|(_ & b & ts & x & L & _ & _ & ->)]; [exact (HU _ _ L)|exact (HU _ _ L)].
    - destruct P as (raw & _ & _ & _ & [C|C] & _ & _ & _ & ->); [congruence|exact C].
  Qed.
  Theorem auto_off sl l p doc : sl_auto sl = false -> undrafted p ->
    root_draft w sl doc = sl_draft sl /\ settled_in (found (view w sl l) p doc) (sl_draft sl) /\
    forall d x, within (heads_to (view w sl l) p doc (sl_draft sl)) (sl_draft sl) doc d x -> d = sl_draft sl.
  Proof.
    intros HA HU. assert (Hv : c_autodetect (view w sl l) = false) by exact HA. split; [|split].
    - unfold root_draft, doc_draft. cbn [cenv_of c_autodetect]. rewrite HA. reflexivity.
    - right. intros r e x F E. rewrite (found_undrafted _ _ _ _ _ Hv HU F) in E. discriminate E.
    - induction 1 as [|d m x _ IH _ _|d m r d' x _ IH _ T]; auto. destruct T as (r' & e & _ & F & _ & ->).
      rewrite (found_undrafted _ _ _ _ _ Hv HU F). reflexivity.
  Qed.
  Lemma source_undrafted sl l p doc : sl_auto sl = false -> undrafted (sl_pool sl) -> source w sl l p doc -> undrafted p.
  Proof.
    intros HA HU [raw _ _ _ _ _ _|r e _ _ _ _ _|r raw _ _ _ _ _ _ _ _ _ _ _]; auto.
    - intros r e E. unfold known_documents in E. rewrite assoc_app in E. destruct (assoc r (entries _ _)) as [e'|] eqn:E1; [|exact (HU _ _ E)].
      injection E as ->. rewrite assoc_entries in E1. destruct (assoc r (documents _ _ _ _)); [|discriminate E1]. injection E1 as <-. cbn [sp_draft].
      unfold doc_draft. cbn [cenv_of c_autodetect]. rewrite HA. reflexivity.
    - intros k e E. rewrite assoc_aset in E. destruct (String.eqb k _); [|exact (HU _ _ E)]. injection E as <-. cbn [sp_draft].
      unfold doc_draft. cbn [cenv_of c_autodetect]. rewrite HA. reflexivity.
  Qed.
  Theorem auto_off_verdict : url_laws w -> web_laws w -> forall fuel o sl l p doc sch sl',
    fair o -> loader_fit l -> sl_ok sl -> sl_validate sl = false -> sl_auto sl = false -> undrafted (sl_pool sl) -> source w sl l p doc ->
    all_found (view w sl l) p doc -> Compile w fuel o sl l = LOk sch sl' ->
    let d := sl_draft sl in let T := heads_to (view w sl l) p doc d in
    (forall d' x, within T d doc d' x -> d' = d) /\
    (guarded T d doc ->
     forall v, usual (e_ratlim (w_go w)) v ->
     (forall d' m x, needed T d doc v d' (VMap m) x -> assoc "$ref" m = None -> fits (e_ratlim (w_go w)) m x) ->
     forall o', fair o' ->
     exists r, returns (w_go w) (s_heap sch) (s_root sch) o' v r /\
       (Valid r = true <-> meaning (pat (w_go w)) (fmt (w_go w)) same T d doc v)).
  Proof.
    intros HU HW fuel o sl l p doc sch sl' F Hfit Hs Hv HA Hn S HF E d T.
    pose proof (source_undrafted sl l p doc HA Hn S) as Hp. destruct (auto_off sl l p doc HA Hp) as (R & St & W). split; [exact W|].
    pose proof (source_total w HU HW fuel o sl l p doc sch sl' F Hfit Hs Hv S) as K. cbv zeta in K. rewrite R in K. apply (K HF St E).
  Qed.
End Met.
