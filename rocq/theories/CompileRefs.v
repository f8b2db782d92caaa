(** When all references lead to known documents, the compiler resolves them as
    specified, and its verdicts are those of the documents. *)
From Verif Require Export ValidatePanic SpecLocate Pointer CompileSem PoolDocs Meaning ValidateTerm.
Open Scope nat_scope.

Lemma Forall_I {A} (P : A -> Prop) l : (forall x, P x) -> Forall P l.
Proof. intros H. induction l; auto. Qed.

(** A policy about drafts only. *)
Definition draft_policy (pd : draft -> Prop) : policy :=
  Policy pd (fun _ => True) (pool_ok pd) (fun l _ => Forall_I _ l (fun _ => I)) (fun m _ => Forall_I _ m (fun _ => I)).
Lemma draft_policy_fetch ce pd : urls_text ce -> fetch_ok ce pd ->
  forall o m k r s dsp s', fair o -> good (draft_policy pd) (VMap m) -> assoc "$ref" m = Some (VStr k) -> u_parse ce k = Some r ->
    py_pool (draft_policy pd) (st_pool s) -> GetDocument ce o r s = COk dsp s' ->
    py_pool (draft_policy pd) (st_pool s') /\ good (draft_policy pd) (sp_doc dsp) /\ (forall x, sp_draft dsp = Some x -> draft_policy pd x).
Proof.
  intros HU HF o m k r s dsp s' F [Hm _] Em Eu Hp E.
  assert (Hr : utf8_text r).
  { destruct (doc_ok_assoc _ _ _ Hm Em) as [_ [Hs _]]. inversion Hs as [| | | |? Ht| |]; subst. eapply (proj1 HU); eauto. }
  apply (GetDocument_docs ce pd HU o r s dsp s' HF F Hr Hp) in E. destruct E as (E1 & E2 & E3). split; [exact E1|]. split; [split; [auto|exact I]|exact E3].
Qed.

(** *** Judgements and reference maps *)
Section MeaningExt.
  Variables (pat : string -> string -> Prop) (fmt : string -> value -> Prop) (same : value -> value -> Prop).
  Variables (T T' : string -> draft -> value -> Prop) (d0 : draft) (s0 v0 : value).
  Hypothesis H : forall d m v r, needed T d0 s0 v0 d (VMap m) v -> assoc "$ref" m = Some (VStr r) -> forall d' x, T r d' x <-> T' r d' x.

  Lemma needed_ext_l d s v : needed T d0 s0 v0 d s v -> needed T' d0 s0 v0 d s v.
  Proof.
    induction 1 as [|d s v d' s' v' N IH A]; [constructor|]. eapply needed_step; [exact IH|].
    destruct A; try (constructor; auto; fail); try (econstructor; eauto; fail). eapply ask_ref; eauto. eapply H; eauto.
  Qed.
  Lemma needed_ext_r d s v : needed T' d0 s0 v0 d s v -> needed T d0 s0 v0 d s v.
  Proof.
    induction 1 as [|d s v d' s' v' N IH A]; [constructor|]. eapply needed_step; [exact IH|].
    destruct A; try (constructor; auto; fail); try (econstructor; eauto; fail). eapply ask_ref; eauto. eapply H; eauto.
  Qed.
  Lemma meaning_at_refs V : meaning_at pat fmt same T' d0 s0 v0 V -> meaning_at pat fmt same T d0 s0 v0 V.
  Proof.
    intros M d s v N. rewrite (M d s v (needed_ext_l _ _ _ N)). unfold schema_sem. destruct s as [| | | | | |m|]; try tauto.
    destruct (assoc "$ref" m) as [y|] eqn:E; try tauto. destruct y as [| | | |r| | |]; try tauto.
    split; intros (d' & s' & HT & HV); exists d', s'; (split; [|auto]); eapply H; eauto.
  Qed.
End MeaningExt.

(** *** Every part of a compiled schema is compiled *)
Lemma describes_covers (kd : nat -> draft -> value -> Prop) nm lm ro dd mm n : describes lm ro kd nm dd mm n ->
  forall y, part dd mm (VMap y) -> exists id, kd id dd (VMap y).
Proof.
  intros H y P. unfold describes in H.
  destruct H as (D1 & D2 & D3 & D4 & D5 & D6 & D7 & D8 & D9 & D10 & D11 & D12 & D13 & D14 & D15 & D16 & D17 & D18 & D19 & D20 & D21 & D22 & D23 & D24 & D25 & D26 & D27 & D28 & D29 & D30 & D31).
  assert (G6 : since6 dd -> draft_ge6 dd = true) by (intros G; destruct dd; auto; destruct (G eq_refl)).
  assert (G7 : since7 dd -> draft_ge7 dd = true) by (intros [-> | ->]; auto).
  assert (OPT : forall key r, opt_ok kd dd mm key r -> assoc key mm = Some (VMap y) -> exists id, kd id dd (VMap y)).
  { intros key r Ho E. unfold opt_ok in Ho. rewrite E in Ho. destruct Ho as (id & _ & K). eauto. }
  assert (GOPT : forall b key r, b = true -> gated b r (opt_ok kd dd mm key r) -> assoc key mm = Some (VMap y) -> exists id, kd id dd (VMap y)).
  { intros b key r -> Ho. eapply OPT; eauto. }
  assert (SC : forall key ids l, schemas_ok kd dd mm key ids -> assoc key mm = Some (VArr l) -> In (VMap y) l -> exists id, kd id dd (VMap y)).
  { intros key ids l Ho E Hin. unfold schemas_ok in Ho. rewrite E in Ho. destruct (Forall2_in_l _ _ _ _ Ho Hin) as (id & _ & K). eauto. }
  assert (AD : forall key r, addl_ok kd dd mm key r -> assoc key mm = Some (VMap y) -> exists id, kd id dd (VMap y)).
  { intros key r Ho E. unfold addl_ok in Ho. rewrite E in Ho. destruct Ho as (id & _ & K). eauto. }
  destruct P as [P|[P|[P|P]]].
  - inversion P as [x E|k x G Hk E|k l x Hk E Hin|ds nn x E Hin]; subst.
    + eapply OPT; [|exact E]. eassumption.
    + destruct Hk as [<-|[<-|[<-|[]]]]; (eapply GOPT; [apply G7, G| |exact E]); eassumption.
    + destruct Hk as [<-|[<-|[<-|[]]]]; (eapply SC; [|exact E|exact Hin]); eassumption.
    + unfold deps_ok in D6. rewrite E in D6. destruct D6 as (es & ls & HP & HF & _).
      destruct (Forall2_in_l _ _ _ _ HF (Permutation_in _ HP Hin)) as (l & _ & Hd). destruct Hd as (id & _ & K). eauto.
  - inversion P as [k x Hk E|x G E|l x E Hin]; subst.
    + destruct Hk as [<-|[<-|[]]]; [|exact (AD _ _ D8 E)]. unfold items_ok in D7. rewrite E in D7. destruct D7 as (_ & id & _ & K). eauto.
    + eapply GOPT; [apply G6, G| |exact E]. eassumption.
    + unfold items_ok in D7. rewrite E in D7. destruct D7 as (_ & HF). destruct (Forall2_in_l _ _ _ _ HF Hin) as (id & _ & K). eauto.
  - inversion P as [x E|k ms nn x Hk E Hin]; subst; [exact (AD _ _ D3 E)|]. destruct Hk as [<-|[<-|[]]].
    + unfold props_ok in D2. rewrite E in D2. destruct D2 as (es & HP & HF). destruct (Forall2_in_l _ _ _ _ HF (Permutation_in _ HP Hin)) as (id & _ & K & _). eauto.
    + unfold pats_ok in D4. rewrite E in D4. destruct D4 as (es & HP & HF). destruct (Forall2_in_l _ _ _ _ HF (Permutation_in _ HP Hin)) as (id & _ & _ & _ & K). eauto.
  - destruct P as [G E]. eapply GOPT; [apply G6, G| |exact E]. eassumption.
Qed.

(** *** Instances within range fit every regular schema *)
Lemma ordinary_needed T lim d0 s0 v0 d s v : ordinary lim v0 -> needed T d0 s0 v0 d s v -> ordinary lim v.
Proof.
  intros O N. induction N as [|d s v d' s' v' N IH A]; auto. destruct A; auto.
  - eapply ordinary_arr; eauto.
  - eapply ordinary_map; eauto.
  - apply in_map_iff in H1. destruct H1 as ([k' x'] & <- & H1). eapply ordinary_map in H1; [|exact IH]. apply H1.
Qed.
Lemma regular_fits T lim d0 s0 v0 : ordinary lim v0 ->
  (forall d m, within T d0 s0 d (VMap m) -> assoc "$ref" m = None -> regular lim m) ->
  forall d m x, needed T d0 s0 v0 d (VMap m) x -> assoc "$ref" m = None -> fits lim m x.
Proof.
  intros O R d m x N E. split; [eapply R; eauto; eapply needed_within; eauto|]. intros _. apply (ordinary_needed _ _ _ _ _ _ _ _ O N).
Qed.

(** *** Validation does not panic where numbers are within range *)
Lemma describes_demands env kd nm d m n v : describes (e_ratlim env) (e_re_ok env) kd nm d m n -> suited (e_ratlim env) m v -> demands env n v.
Proof.
  intros H Sv. unfold describes in H.
  destruct H as (D1 & D2 & D3 & D4 & D5 & D6 & D7 & D8 & D9 & D10 & D11 & D12 & D13 & D14 & D15 & D16 & D17 & D18 & D19 & D20 & D21 & D22 & D23 & D24 & _).
  pose proof Sv as ([Hs Hp] & Hr & Hm). split; [|split].
  - intros HE E. assert (Q : compares m).
    { destruct HE as [HE|HE].
      - unfold const_ok in D23. destruct (draft_ge6 d); [|congruence]. destruct (assoc "const" m) eqn:Ec; [left; congruence|congruence].
      - unfold enum_ok in D24. destruct (assoc "enum" m) eqn:Ec; [right; left; congruence|congruence]. }
    destruct (mwn_some v Hs (Hr Q)) as [t Et]. congruence.
  - intros _. destruct v; try exact I. destruct (suited_num _ _ _ Sv) as (_ & q & E & _). unfold readable. congruence.
  - destruct v as [| | | | |l|o|o]; auto; try discriminate Hp. intros Hu. apply Forall_forall. intros x Hx.
    assert (Q : compares m).
    { unfold unique_ok in D21. destruct (assoc "uniqueItems" m) as [[|b| | | | | |]|] eqn:Ec; try tauto; try congruence. right. right. congruence. }
    assert (O : ordinary (e_ratlim env) (VArr l)) by (split; [split; auto|split; auto]).
    destruct (ordinary_arr _ _ _ O Hx) as ([Hsx _] & Hrx & _). intros E. destruct (mwn_some x Hsx Hrx) as [t Et]. congruence.
Qed.
Theorem fits_no_panic ce pd s d0 x0 v0 : wf ce pd s -> (forall j, j < length (st_heap s) -> cell ce s j) ->
  usual (e_ratlim (c_go ce)) v0 ->
  (forall d m v, needed (target ce s) d0 x0 v0 d (VMap m) v -> assoc "$ref" m = None -> compares m -> in_float_range v) ->
  forall k o id c, fair o -> kid s id d0 x0 -> validateRecursive (c_go ce) (st_heap s) k o id v0 c <> Panic.
Proof.
  intros W C U R k o id c F K.
  apply (validateRecursive_no_panic_on (c_go ce) (st_heap s)
    (fun id v => (exists d x, kid s id d x /\ needed (target ce s) d0 x0 v0 d x v) /\ usual (e_ratlim (c_go ce)) v)); auto.
  - intros i v ((d & x & Kx & N) & Uv). destruct (kid_cell ce pd s W C _ _ _ Kx) as (n & En & Hn). exists n. split; auto. destruct Hn as [Ho Hn]. split; [exact Ho|].
    intros Ep Er. destruct x as [|b| | | | |m|]; try tauto; [destruct Hn as [_ Hn]; congruence|]. destruct Hn as [_ Hn].
    destruct (assoc "$ref" m) as [y|] eqn:Ey; [destruct y; try tauto; destruct Hn as (? & ? & _ & _ & ?); congruence|]. destruct Hn as [_ Hn].
    eapply describes_demands; [exact Hn|]. apply suited_iff. split; auto. eapply R; eauto.
  - intros i n v i' v' En ((d & x & Kx & N) & Uv) St. eapply steps_link; eauto.
  - split; auto. exists d0, x0. split; auto. constructor.
Qed.

(** *** The schemas a compiled document is made of *)
Section Compiled.
  Variable ce : cenv.
  Variable pd : policy.
  Variable s : cstate.
  Hypothesis W : wf ce pd s.
  Hypothesis C : forall j, j < length (st_heap s) -> cell ce s j.
  Variables (d0 : draft) (x0 : value) (root : nat).
  Hypothesis K0 : kid s root d0 x0.

  Lemma part_kid i d m y : kid s i d (VMap m) -> (forall r, assoc "$ref" m <> Some (VStr r)) -> part d m y ->
    (exists j, kid s j d y) \/ forall m', y <> VMap m'.
  Proof.
    intros K Nr P. destruct y as [| | | | | |my|]; try (right; discriminate). left.
    destruct (kid_cell ce pd s W C _ _ _ K) as (n & En & _ & _ & Hn).
    destruct (assoc "$ref" m) as [z|]; [destruct z as [| | | |z| | |]; try tauto; destruct (Nr z eq_refl)|]. destruct Hn as [_ Hn]. eapply describes_covers; eauto.
  Qed.
  Lemma within_kid d x : within (target ce s) d0 x0 d x -> (exists i, kid s i d x) \/ forall m, x <> VMap m.
  Proof.
    induction 1 as [|d m x Hw IH Nr P|d m r d' x Hw IH Er HT]; [left; eauto| |].
    - destruct IH as [[i Ki]|N]; [|destruct (N m eq_refl)]. eapply part_kid; eauto.
    - destruct HT as (? & j & _ & _ & Kj). eauto.
  Qed.
  (** Edges of the graph are steps between schemas. *)
  Lemma edge_hands a b d x : kid s a d x -> edge (st_heap s) a b ->
    exists d' x', kid s b d' x' /\ hands_on (target ce s) (d', x') (d, x) /\ (within (target ce s) d0 x0 d x -> within (target ce s) d0 x0 d' x').
  Proof.
    intros K (n & En & Hb). destruct (kid_cell ce pd s W C _ _ _ K) as (n' & En' & F). assert (n' = n) by congruence. subst n'. destruct F as [_ F].
    unfold same_instance in Hb. destruct x as [|v| | | | |m|]; try tauto.
    - destruct F as [_ F]. rewrite F in Hb. destruct Hb.
    - destruct F as [Ep F]. rewrite Ep in Hb. destruct (assoc "$ref" m) as [y|] eqn:Er.
      + destruct y as [| | | |k| | |]; try tauto. destruct F as (r & rid & Hu & Ha & E). rewrite E in Hb. destruct Hb as [<-|[]].
        pose proof W as (_ & _ & _ & WR). destruct (WR _ _ Ha) as (d' & x' & K' & _). exists d', x'. split; auto.
        assert (HT : target ce s k d' x') by (exists r, rid; auto). split; [eapply hands_ref; eauto|]. intros Hw. eapply within_ref; eauto.
      + assert (Nr : forall r, assoc "$ref" m <> Some (VStr r)) by (rewrite Er; discriminate).
        destruct F as [E F]. rewrite E in Hb. apply describes_parts in F. destruct F as (F1 & _). rewrite Forall_forall in F1.
        destruct (F1 _ Hb) as (x & Kx & P). exists d, x. split; auto. split; [apply hands_part; auto|]. intros Hw. eapply within_part; eauto. left; auto.
  Qed.
  Lemma used_within a b d x n : kid s a d x -> nth_error (st_heap s) a = Some n -> In b (used n) -> within (target ce s) d0 x0 d x ->
    exists d' x', kid s b d' x' /\ within (target ce s) d0 x0 d' x'.
  Proof.
    intros K En Hb Hw. destruct (kid_cell ce pd s W C _ _ _ K) as (n' & En' & F). assert (n' = n) by congruence. subst n'. destruct F as [_ F].
    unfold used in Hb. destruct x as [|v| | | | |m|]; try tauto.
    - destruct F as [_ F]. rewrite F in Hb. destruct Hb.
    - destruct F as [Ep F]. rewrite Ep in Hb. destruct (assoc "$ref" m) as [y|] eqn:Er.
      + destruct y as [| | | |k| | |]; try tauto. destruct F as (r & rid & Hu & Ha & E). rewrite E in Hb. destruct Hb as [<-|[]].
        pose proof W as (_ & _ & _ & WR). destruct (WR _ _ Ha) as (d' & x' & K' & _). exists d', x'. split; auto. eapply within_ref; eauto. exists r, rid. auto.
      + assert (Nr : forall r, assoc "$ref" m <> Some (VStr r)) by (rewrite Er; discriminate).
        destruct F as [E F]. rewrite E in Hb. apply describes_parts in F. destruct F as (F1 & F2 & F3 & F4). rewrite Forall_forall in F1, F2, F3, F4.
        unfold kids in Hb. rewrite E in Hb. cbn [opt_list app] in Hb. rewrite !in_app_iff in Hb.
        assert (G : exists x, kid s b d x /\ part d m x).
        { destruct Hb as [H|[H|[H|H]]]; [destruct (F1 _ H) as (x & Kx & P)|destruct (F2 _ H) as (x & Kx & P)|destruct (F3 _ H) as (x & Kx & P)|destruct (F4 _ H) as (x & Kx & P)];
            exists x; unfold part; tauto. }
        destruct G as (x & Kx & P). exists d, x. split; auto. eapply within_part; eauto.
  Qed.
  Lemma reach_within a : reach (st_heap s) root a -> exists d x, kid s a d x /\ within (target ce s) d0 x0 d x.
  Proof.
    induction 1 as [|a n b R IH En Hb]; [exists d0, x0; split; [auto|constructor]|]. destruct IH as (d & x & K & Hw). eapply used_within; eauto.
  Qed.
  (** A document that never hands an instance back to the same schema compiles
      to a graph without such a chain. *)
  Theorem guarded_acyclic : guarded (target ce s) d0 x0 -> forall a, reach (st_heap s) root a -> ~ chain (st_heap s) a a.
  Proof.
    intros G a R. destruct (reach_within a R) as (d & x & K & Hw). pose proof (G d x Hw) as A.
    assert (M : forall q, Acc (hands_on (target ce s)) q -> forall a, kid s a (fst q) (snd q) -> ~ chain (st_heap s) a a).
    { clear a R d x K Hw A. intros q A. induction A as [q _ IH]. intros a K Ch. destruct q as [d x]. cbn [fst snd] in K.
      assert (ST : forall b, edge (st_heap s) a b -> exists d' x', kid s b d' x' /\ hands_on (target ce s) (d', x') (d, x)).
      { intros b E. destruct (edge_hands a b d x K E) as (d' & x' & K' & H & _). eauto. }
      assert (TR : forall u v, chain (st_heap s) u v -> forall t, edge (st_heap s) v t -> chain (st_heap s) u t).
      { intros u v H. induction H as [u v E|u y z E H IHc]; intros t Et; [eapply chain_cons; [exact E|constructor; auto]|eapply chain_cons; [exact E|auto]]. }
      inversion Ch as [? ? E|? b ? E Ch']; subst.
      - destruct (ST _ E) as (d' & x' & K' & H). exact (IH (d', x') H a K' Ch).
      - destruct (ST _ E) as (d' & x' & K' & H). apply (IH (d', x') H b K'). apply (TR b a Ch' b E). }
    exact (M (d, x) A a K).
  Qed.
End Compiled.

(** *** Compiling when it is known where references lead *)
Section Library.
  Variable ce : cenv.
  Variable loc : string -> spd -> Prop.
  Variable kp : pool -> Prop.
  Variable d1 : draft.
  Definition settled_in : Prop :=
    (forall r e, loc r e -> sp_draft e <> None) \/ (forall r e x, loc r e -> sp_draft e = Some x -> x = d1).
  Hypothesis Hset : settled_in.
  Hypothesis Hdocs : forall r e, loc r e -> doc_ok (sp_doc e) /\ closed_in ce loc (sp_doc e).
  Hypothesis Hfun : forall r e e', loc r e -> loc r e' -> e = e'.
  Hypothesis Hget : forall o r s dsp s', fair o -> kp (st_pool s) -> (exists e, loc r e) -> GetDocument ce o r s = COk dsp s' ->
    kp (st_pool s') /\ loc r dsp.
  Notation closed := (closed_in ce loc).
  Notation leads := (leads_in ce loc).

  Lemma closed_in_arr l : closed (VArr l) -> Forall closed l.
  Proof. intros H. apply Forall_forall. intros x Hx k r M. apply H. eapply mentions_arr; eauto. Qed.
  Lemma closed_in_map m : closed (VMap m) -> Forall (fun e => closed (snd e)) m.
  Proof. intros H. apply Forall_forall. intros [n x] Hx k r M. apply H. eapply mentions_map; eauto. Qed.
  Definition lib_draft (d : draft) : Prop := (exists r e, loc r e /\ sp_draft e = Some d) \/ d = d1.
  Definition lib_policy : policy := Policy lib_draft closed kp closed_in_arr closed_in_map.

  Lemma mentions_assoc m k : assoc "$ref" m = Some (VStr k) -> mentions (VMap m) k.
  Proof. intros E. constructor. apply assoc_In. auto. Qed.
  Lemma lib_fetch o m k r s dsp s' : fair o -> good lib_policy (VMap m) -> assoc "$ref" m = Some (VStr k) -> u_parse ce k = Some r ->
    py_pool lib_policy (st_pool s) -> GetDocument ce o r s = COk dsp s' ->
    py_pool lib_policy (st_pool s') /\ good lib_policy (sp_doc dsp) /\ (forall x, sp_draft dsp = Some x -> lib_policy x).
  Proof.
    intros F [_ Hc] Em Eu Hp E. eapply Hget in E; [|exact F|exact Hp|exact (Hc _ _ (mentions_assoc _ _ Em) Eu)].
    destruct E as [E1 E2]. split; auto. split; [exact (Hdocs _ _ E2)|]. intros x Ex. left. eauto.
  Qed.

  (** The references of the compiled schema lead where they should. *)
  Lemma lib_targets s k d x : wf ce lib_policy s -> (exists m, closed (VMap m) /\ assoc "$ref" m = Some (VStr k)) ->
    target ce s k d x -> leads d1 k d x.
  Proof.
    intros W (m & Hc & Em) (r & rid & Eu & Ea & K). destruct W as (_ & _ & _ & W). destruct (W _ _ Ea) as (d' & x' & K' & M).
    destruct (kid_fun s _ _ _ _ _ K K') as [<- <-]. destruct M as (o & t & dsp & t' & d0 & F & Hp & E & _ & Hd0 & -> & ->).
    eapply Hget in E; [|exact F|exact Hp|exact (Hc _ _ (mentions_assoc _ _ Em) Eu)]. destruct E as [_ E].
    exists r, dsp. split; auto. split; auto. split; auto. destruct (sp_draft dsp) as [y|] eqn:Ey; auto.
    destruct Hset as [HS|HS].
    - exfalso. eapply HS; eauto.
    - destruct Hd0 as [(r' & e' & H1 & H2)|H]; auto. eapply HS; eauto.
  Qed.
  Lemma leads_in_fun k d x d' x' : leads d1 k d x -> leads d1 k d' x' -> d = d' /\ x = x'.
  Proof.
    intros (r & e & E1 & E2 & -> & ->) (r' & e' & E1' & E2' & -> & ->). assert (r = r') by congruence. subst.
    rewrite (Hfun _ _ _ E2 E2'). auto.
  Qed.

  (** What a compiled schema refers to is what the documents refer to. *)
  Lemma lib_same s i d m t : wf ce lib_policy s -> (forall j, j < length (st_heap s) -> cell ce s j) -> kid s i d (VMap m) -> assoc "$ref" m = Some (VStr t) ->
    forall d' x, target ce s t d' x <-> leads d1 t d' x.
  Proof.
    intros W C Ki Er d' x. pose proof W as (_ & _ & W3 & W4). pose proof (W3 _ _ _ Ki) as [[_ Hcm] _]. split.
    - apply lib_targets; auto. exists m. split; [exact Hcm|exact Er].
    - intros HL. destruct (kid_cell ce lib_policy s W C _ _ _ Ki) as (n & En & _ & _ & Hn). rewrite Er in Hn.
      destruct Hn as (r0 & rid & Eu & Ea & _). destruct (W4 _ _ Ea) as (d2 & x2 & K2 & _).
      assert (T2 : target ce s t d2 x2) by (exists r0, rid; auto).
      pose proof (lib_targets s t d2 x2 W (ex_intro _ m (conj Hcm Er)) T2) as L2.
      destruct (leads_in_fun _ _ _ _ _ HL L2) as [-> ->]. exact T2.
  Qed.
  Lemma lib_within s root doc : wf ce lib_policy s -> (forall j, j < length (st_heap s) -> cell ce s j) -> kid s root d1 doc ->
    forall d x, within (target ce s) d1 doc d x <-> within (leads d1) d1 doc d x.
  Proof.
    intros W C K d x.
    assert (X : forall d m t, within (target ce s) d1 doc d (VMap m) -> assoc "$ref" m = Some (VStr t) -> forall d' x, target ce s t d' x <-> leads d1 t d' x).
    { intros d2 m t Hw Er. destruct (within_kid ce lib_policy s W C d1 doc root K _ _ Hw) as [[i Ki]|N]; [|destruct (N m eq_refl)]. eapply lib_same; eauto. }
    split.
    - induction 1 as [|d m x Hw IH Nr P|d m r d' x Hw IH Er HT]; [constructor|eapply within_part; eauto|]. eapply within_ref; eauto. apply (X _ _ _ Hw Er). auto.
    - induction 1 as [|d m x Hw IH Nr P|d m r d' x Hw IH Er HT]; [constructor|eapply within_part; eauto|]. eapply within_ref; eauto. apply (X _ _ _ IH Er). auto.
  Qed.
  Lemma lib_guarded s root doc : wf ce lib_policy s -> (forall j, j < length (st_heap s) -> cell ce s j) -> kid s root d1 doc ->
    guarded (leads d1) d1 doc -> guarded (target ce s) d1 doc.
  Proof.
    intros W C K G d x Hw. pose proof (G d x (proj1 (lib_within s root doc W C K d x) Hw)) as A. revert Hw.
    assert (M : forall q, Acc (hands_on (leads d1)) q -> within (target ce s) d1 doc (fst q) (snd q) -> Acc (hands_on (target ce s)) q); [|exact (M (d, x) A)].
    clear d x A. intros q A. induction A as [[d2 x2] _ IH]. cbn [fst snd]. intros Hw. constructor. intros [d3 x3] H.
    assert (H' : hands_on (leads d1) (d3, x3) (d2, x2) /\ within (target ce s) d1 doc d3 x3).
    { inversion H as [? m r ? ? Er HT|? m ? Nr P]; subst.
      - split; [|eapply within_ref; eauto]. eapply hands_ref; eauto. destruct (within_kid ce lib_policy s W C d1 doc root K _ _ Hw) as [[i Ki]|N]; [|destruct (N m eq_refl)].
        eapply lib_same; eauto.
      - split; [apply hands_part; auto|]. eapply within_part; eauto. left; auto. }
    destruct H' as [H1 H2]. apply (IH _ H1). exact H2.
  Qed.
  Theorem lib_acyclic fuel o docref doc p0 id s' :
    kp p0 -> doc_ok doc -> closed doc -> fair o ->
    parse ce fuel o docref d1 doc (CState [] [] p0 []) = COk id s' ->
    guarded (leads d1) d1 doc -> forall a, reach (st_heap s') id a -> ~ chain (st_heap s') a a.
  Proof.
    intros HP Hd Hc F E G.
    destruct (parse_ok ce lib_policy lib_fetch fuel o docref d1 doc p0 id s' F HP (conj Hd Hc) (or_intror eq_refl) E) as (-> & W & L & K & C).
    eapply (guarded_acyclic ce lib_policy s' W C d1 doc 0 K). eapply lib_guarded; eauto.
  Qed.

  (** Validation with the compiled schema decides the meaning of the document. *)
  Theorem lib_link fuel o docref doc p0 id s' :
    kp p0 -> doc_ok doc -> closed doc -> fair o ->
    parse ce fuel o docref d1 doc (CState [] [] p0 []) = COk id s' ->
    forall v V, usual (e_ratlim (c_go ce)) v ->
    (forall d m w, needed (leads d1) d1 doc v d (VMap m) w -> assoc "$ref" m = None -> fits (e_ratlim (c_go ce)) m w) ->
    meaning_at (pat (c_go ce)) (fmt (c_go ce)) same (leads d1) d1 doc v V ->
    forall k o' c, fair o' -> validateRecursive (c_go ce) (st_heap s') k o' id v c <> Panic /\
      forall r, validateRecursive (c_go ce) (st_heap s') k o' id v c = Ok r -> (errors r = [] <-> V d1 doc v).
  Proof.
    intros HP Hd Hc F E v V ORD REG EQ k o' c F'.
    destruct (parse_ok ce lib_policy lib_fetch fuel o docref d1 doc p0 id s' F HP (conj Hd Hc) (or_intror eq_refl) E) as (-> & W & L & K & C).
    assert (HT : forall d m w t, needed (target ce s') d1 doc v d (VMap m) w -> assoc "$ref" m = Some (VStr t) ->
      forall d' x, target ce s' t d' x <-> leads d1 t d' x).
    { intros d m w t N Er. apply needed_within in N.
      destruct (within_kid ce lib_policy s' W C d1 doc 0 K _ _ N) as [[i Ki]|Nm]; [|destruct (Nm m eq_refl)]. eapply lib_same; eauto. }
    assert (REG' : forall d m w, needed (target ce s') d1 doc v d (VMap m) w -> assoc "$ref" m = None -> fits (e_ratlim (c_go ce)) m w).
    { intros d m w N Er. eapply REG; [|exact Er]. eapply needed_ext_l; eauto. }
    split; [eapply fits_no_panic; eauto; intros d m w N Er; apply (REG' d m w N Er)|]. intros r ER.
    eapply (valid_link ce lib_policy s' W C d1 doc v ORD); eauto.
    eapply meaning_at_refs; eauto.
  Qed.
End Library.

(** *** Compiling with known documents *)
Section Known.
  Variable ce : cenv.
  Variable p0 : pool.
  Variable d1 : draft.
  Definition settled : Prop :=
    (forall r e, assoc r p0 = Some e -> sp_draft e <> None) \/ (forall r e x, assoc r p0 = Some e -> sp_draft e = Some x -> x = d1).
  Hypothesis Hset : settled.
  Hypothesis Hdocs : forall r e, assoc r p0 = Some e -> doc_ok (sp_doc e) /\ closed_refs ce p0 (sp_doc e).

  Definition known_pool (p : pool) : Prop := pool_le p0 p /\ forall r e, assoc r p = Some e -> locates ce p0 r e.

  Lemma pointer_get_closed ts : forall v x, closed_refs ce p0 v -> pointer_get ts v = Some x -> closed_refs ce p0 x.
  Proof.
    induction ts as [|t ts IH]; intros v x Hc E; cbn [pointer_get] in E; [injection E as <-; auto|].
    destruct v as [| | | | |l|m|]; try discriminate.
    - destruct (atoi t) as [i|]; [|discriminate]. destruct (i <? 0)%Z; [discriminate|]. destruct (nth_error l _) as [y|] eqn:En; [|discriminate].
      eapply IH; [|exact E]. apply closed_in_arr in Hc. rewrite Forall_forall in Hc. apply Hc. eapply nth_error_In; eauto.
    - destruct (assoc _ m) as [y|] eqn:Ea; [|discriminate]. eapply IH; [|exact E]. apply closed_in_map in Hc. rewrite Forall_forall in Hc.
      apply assoc_In in Ea. apply (Hc _ Ea).
  Qed.
  Lemma locates_good r e : locates ce p0 r e -> doc_ok (sp_doc e) /\ closed_refs ce p0 (sp_doc e).
  Proof.
    intros [H|(_ & b & ts & x & Hb & Hf & Hx & ->)]; [exact (Hdocs _ _ H)|].
    destruct (Hdocs _ _ Hb) as [H1 H2]. apply pointer_get_points in Hx. cbn [sp_doc].
    split; [eapply pointer_get_doc_ok; eauto|eapply pointer_get_closed; eauto].
  Qed.
  Lemma locates_fun r e e' : locates ce p0 r e -> locates ce p0 r e' -> e = e'.
  Proof.
    intros [H|(Hn & b & ts & x & Hb & Hf & Hx & ->)] [H'|(Hn' & b' & ts' & x' & Hb' & Hf' & Hx' & ->)]; try congruence.
    apply (pointer_follows _ _ _ _ Hf) in Hx. apply (pointer_follows _ _ _ _ Hf') in Hx'. congruence.
  Qed.

  Lemma GetDocument_known o r s dsp s' : known_pool (st_pool s) ->
    (exists e, locates ce p0 r e) -> GetDocument ce o r s = COk dsp s' ->
    known_pool (st_pool s') /\ locates ce p0 r dsp.
  Proof.
    intros [L K] [e0 HC] E. unfold GetDocument in E. apply cbind_ok in E. destruct E as (p & s1 & E1 & E). unfold get_pool in E1. injection E1 as <- <-.
    destruct (assoc r (st_pool s)) as [e|] eqn:Er; [injection E as <- <-; split; [split; auto|auto]|].
    assert (Hr : assoc r p0 = None) by (destruct (assoc r p0) as [e|] eqn:E0; auto; apply L in E0; congruence).
    pose proof HC as Lr. destruct HC as [HC|(_ & b & ts & x & Hb & Hf & Hx & He0)]; [congruence|]. rewrite (L _ _ Hb) in E.
    rewrite (pointer_follows _ _ _ _ Hf Hx) in E. apply cbind_ok in E. destruct E as ([] & s2 & E2 & E). injection E2 as <-. injection E as <- <-.
    rewrite <- He0. split; auto. split.
    - intros r' e He. cbn [st_pool]. rewrite assoc_aset. destruct (String.eqb_spec r' r); [congruence|apply L; auto].
    - intros r' e. cbn [st_pool]. rewrite assoc_aset. destruct (String.eqb_spec r' r); [intros [= <-]; subst; auto|apply K].
  Qed.

  Lemma settled_lib : settled_in (locates ce p0) d1.
  Proof.
    destruct Hset as [H|H]; [left|right].
    - intros r e [E|(_ & b & ts & z & Hb & _ & _ & ->)]; [eapply H; eauto|]. cbn [sp_draft]. eapply H; eauto.
    - intros r e x [E|(_ & b & ts & z & Hb & _ & _ & ->)]; [eapply H; eauto|]. cbn [sp_draft]. eapply H; eauto.
  Qed.
  Definition known_policy : policy := lib_policy ce (locates ce p0) known_pool d1.
  Lemma known_get o r s dsp s' : fair o -> known_pool (st_pool s) -> (exists e, locates ce p0 r e) -> GetDocument ce o r s = COk dsp s' ->
    known_pool (st_pool s') /\ locates ce p0 r dsp.
  Proof. intros _. apply GetDocument_known. Qed.
  Lemma known_fetch o m k r s dsp s' : fair o -> good known_policy (VMap m) -> assoc "$ref" m = Some (VStr k) -> u_parse ce k = Some r ->
    py_pool known_policy (st_pool s) -> GetDocument ce o r s = COk dsp s' ->
    py_pool known_policy (st_pool s') /\ good known_policy (sp_doc dsp) /\ (forall x, sp_draft dsp = Some x -> known_policy x).
  Proof. apply (lib_fetch ce (locates ce p0) known_pool d1 locates_good known_get). Qed.
  Lemma leads_to_fun k d x d' x' : leads_to ce p0 d1 k d x -> leads_to ce p0 d1 k d' x' -> d = d' /\ x = x'.
  Proof. exact (leads_in_fun ce (locates ce p0) d1 locates_fun k d x d' x'). Qed.
  Lemma known_targets s k d x : wf ce known_policy s -> (exists m, closed_refs ce p0 (VMap m) /\ assoc "$ref" m = Some (VStr k)) ->
    target ce s k d x -> leads_to ce p0 d1 k d x.
  Proof. apply (lib_targets ce (locates ce p0) known_pool d1 settled_lib known_get). Qed.
  Lemma known_same s i d m t : wf ce known_policy s -> (forall j, j < length (st_heap s) -> cell ce s j) -> kid s i d (VMap m) -> assoc "$ref" m = Some (VStr t) ->
    forall d' x, target ce s t d' x <-> leads_to ce p0 d1 t d' x.
  Proof. apply (lib_same ce (locates ce p0) known_pool d1 settled_lib locates_fun known_get). Qed.
  Lemma known_within s root doc : wf ce known_policy s -> (forall j, j < length (st_heap s) -> cell ce s j) -> kid s root d1 doc ->
    forall d x, within (target ce s) d1 doc d x <-> within (leads_to ce p0 d1) d1 doc d x.
  Proof. apply (lib_within ce (locates ce p0) known_pool d1 settled_lib locates_fun known_get). Qed.
  Lemma known_guarded s root doc : wf ce known_policy s -> (forall j, j < length (st_heap s) -> cell ce s j) -> kid s root d1 doc ->
    guarded (leads_to ce p0 d1) d1 doc -> guarded (target ce s) d1 doc.
  Proof. apply (lib_guarded ce (locates ce p0) known_pool d1 settled_lib locates_fun known_get). Qed.
  Theorem known_acyclic fuel o docref doc id s' :
    known_pool p0 -> doc_ok doc -> closed_refs ce p0 doc -> fair o ->
    parse ce fuel o docref d1 doc (CState [] [] p0 []) = COk id s' ->
    guarded (leads_to ce p0 d1) d1 doc -> forall a, reach (st_heap s') id a -> ~ chain (st_heap s') a a.
  Proof. apply (lib_acyclic ce (locates ce p0) known_pool d1 settled_lib locates_good locates_fun known_get). Qed.
  Theorem known_link fuel o docref doc id s' :
    known_pool p0 -> doc_ok doc -> closed_refs ce p0 doc -> fair o ->
    parse ce fuel o docref d1 doc (CState [] [] p0 []) = COk id s' ->
    forall v V, usual (e_ratlim (c_go ce)) v ->
    (forall d m w, needed (leads_to ce p0 d1) d1 doc v d (VMap m) w -> assoc "$ref" m = None -> fits (e_ratlim (c_go ce)) m w) ->
    meaning_at (pat (c_go ce)) (fmt (c_go ce)) same (leads_to ce p0 d1) d1 doc v V ->
    forall k o' c, fair o' -> validateRecursive (c_go ce) (st_heap s') k o' id v c <> Panic /\
      forall r, validateRecursive (c_go ce) (st_heap s') k o' id v c = Ok r -> (errors r = [] <-> V d1 doc v).
  Proof. apply (lib_link ce (locates ce p0) known_pool d1 settled_lib locates_good locates_fun known_get). Qed.
End Known.
