(** Whatever has to be satisfied and is not is reported. *)
From Coq Require Import Relations Lia.
From Verif Require Import ValidateKeywords UniqueProps.
From Verif Require Export ReasonFetch.
From Verif Require Export SpecReason.
Open Scope string_scope.
Open Scope list_scope.
Open Scope nat_scope.

Lemma each_in {A} (f : A -> list rerror -> Prop) l es x : each f l es -> In x l -> exists es', f x es' /\ incl es' es.
Proof.
  intros (ess & HF & ->) Hx. destruct (Forall2_in_l _ _ _ _ HF Hx) as (es' & He & Hf). exists es'. split; auto.
  intros e I. apply in_concat. eauto.
Qed.
Lemma each_order_in {A} (f : A -> list rerror -> Prop) l es x : each_in_some_order f l es -> In x l -> exists es', f x es' /\ incl es' es.
Proof. intros (l' & HP & H) Hx. eapply each_in; eauto. eapply Permutation_in; eauto. Qed.
Lemma one_if_in v c (P : Prop) t d es : P -> one_if v c P t d es -> In (newError t c v d) es.
Proof. intros H [[_ ->]|[N _]]; [left; auto|contradiction]. Qed.
Lemma indexed_in {A} (l : list A) : forall i x, nth_error l i = Some x -> In (i, x) (indexed l).
Proof.
  unfold indexed. intros i x. change i with (0 + i) at 2. generalize 0. revert i. induction l as [|y l IH]; intros [|i] k E; try discriminate; cbn in *.
  - injection E as ->. left. f_equal. lia.
  - right. replace (k + S i) with (S k + i) by lia. apply IH. auto.
Qed.
(** Of two equal elements, some two have none equal to them in between. *)
Lemma repeats_some ts i j t : i < j -> nth_error ts i = Some t -> nth_error ts j = Some t -> exists p, repeats ts p.
Proof.
  intros Hij Hi Hj. remember (j - i) as k eqn:Ek. revert i j Hij Hi Hj Ek. induction k as [k IH] using lt_wf_ind. intros i j Hij Hi Hj Ek.
  destruct (existsb (fun q => match nth_error ts q with Some x => String.eqb x t | None => false end) (seq (S i) (j - S i))) eqn:E.
  - apply existsb_exists in E. destruct E as (q & Hq & Et). apply in_seq in Hq. destruct (nth_error ts q) as [x|] eqn:Ex; [|discriminate]. apply String.eqb_eq in Et. subst x.
    apply (IH (q - i) ltac:(lia) i q); auto; lia.
  - exists (i, j). split; [cbn; lia|]. exists t. cbn. repeat split; auto. intros q H1 H2 Eq.
    assert (X : existsb (fun q => match nth_error ts q with Some x => String.eqb x t | None => false end) (seq (S i) (j - S i)) = true); [|congruence].
    apply existsb_exists. exists q. split; [apply in_seq; lia|]. rewrite Eq. apply String.eqb_refl.
Qed.
Lemma alike_new e t c v d : r_ctx e = c -> r_type e = t -> r_value e = v -> which t = [] -> alike e (newError t c v d).
Proof. intros <- <- <- W. unfold alike, newError. cbn. rewrite W. repeat split; auto. intros k []. Qed.
Lemma alike_told e t c v d k x : r_ctx e = c -> r_type e = t -> r_value e = v -> which t = [k] -> assoc k (r_details e) = Some x ->
  same_told (Some x) (assoc k (r_details (newError t c v d))) -> alike e (newError t c v d).
Proof. intros <- <- <- W E S. unfold alike. cbn [r_ctx r_type r_value newError]. rewrite W. repeat split; auto. intros k' [<-|[]]. rewrite E. exact S. Qed.
Lemma told_rat p q : (q == p)%Q -> same_told (Some (DRat p)) (Some (DRat q)).
Proof. intros H. right. exists p, q. repeat split; auto. symmetry. auto. Qed.
Lemma opt_is kid d m key r x : opt_ok kid d m key r -> assoc key m = Some x -> exists id, r = Some id /\ kid id d x.
Proof. unfold opt_ok. intros H E. rewrite E in H. auto. Qed.
Lemma gated_is kid b d m key r x : gated b r (opt_ok kid d m key r) -> b = true -> assoc key m = Some x -> exists id, r = Some id /\ kid id d x.
Proof. intros H -> E. cbn in H. eapply opt_is; eauto. Qed.
Lemma schemas_is kid d m key ids l : schemas_ok kid d m key ids -> assoc key m = Some (VArr l) -> Forall2 (fun x id => kid id d x) l ids.
Proof. unfold schemas_ok. intros H E. rewrite E in H. auto. Qed.
Lemma addl_is kid d m key r x : addl_ok kid d m key r -> assoc key m = Some x -> (forall b, x <> VBool b) -> exists id, r = Some (AddlSchema id) /\ kid id d x.
Proof. unfold addl_ok. intros H E N. rewrite E in H. destruct x; auto. destruct (N b eq_refl). Qed.

Section Heap.
  Variable ce : cenv.
  Notation env := (c_go ce).
  Notation lim := (e_ratlim env).
  Variable pd : policy.
  Variable s : cstate.
  Hypothesis W : wf ce pd s.
  Hypothesis C : forall j, j < length (st_heap s) -> cell ce s j.
  Variables (d0 : draft) (x0 v0 : value).
  Notation T := (target ce s).
  Notation need := (needed T d0 x0 v0).
  Hypothesis ORD : usual lim v0.
  Hypothesis REG : forall d m v, need d (VMap m) v -> assoc "$ref" m = None -> fits lim m v.
  Variable V : draft -> value -> value -> Prop.
  Hypothesis EQ : meaning_at (pat env) (fmt env) same T d0 x0 v0 V.
  Notation h := (st_heap s).

  Section At.
    Variables (id : nat) (n : node) (d : draft) (m : list (string * value)) (v : value) (c : ctx) (es : list rerror).
    Hypothesis En : nth_error h id = Some n.
    Hypothesis K : kid s id d (VMap m).
    Hypothesis N : need d (VMap m) v.
    Hypothesis U : usual lim v.
    Hypothesis Nr : assoc "$ref" m = None.
    Hypothesis D : describes lim (e_re_ok env) (kid s) (named s) d m n.
    Hypothesis CE : cell_errors env h n v c es.
    Lemma c_none r : assoc "$ref" m <> Some (VStr r).
    Proof. rewrite Nr. discriminate. Qed.
    Lemma c_doc : doc_ok (VMap m).
    Proof. apply W in K. apply K. Qed.
    Lemma c_regular : regular lim m.
    Proof. apply (REG d m v N Nr). Qed.
    Lemma c_suited : suited lim m v.
    Proof. apply suited_iff. split; auto. apply (REG d m v N Nr). Qed.
    Lemma c_named i k : named s i k <-> name_of h i k.
    Proof. reflexivity. Qed.
    Lemma here_sub i x r : kid s i d x -> part_here d m x -> sub env h v c i r -> (Valid r = true <-> V d x v).
    Proof.
      intros Kx H. apply (sub_link ce pd s W C d0 x0 v0 REG V EQ); auto.
      eapply needed_step; [exact N|]. apply ask_here; auto. apply c_none.
    Qed.
    Lemma c_type : s_type m v -> type_allowed env n v.
    Proof.
      intros H. apply type_allowed_sem.
      destruct D as (D1 & _). apply (type_link env h (kid s) (kid_fun s) V d m n c_doc c_regular v c_suited D1). auto.
    Qed.
    Lemma c_own k : s_type m v -> exists own, reports env h n v c k own /\ incl own es.
    Proof.
      intros Ht. apply c_type in Ht. destruct CE as [[X _]|(_ & ess & HF & ->)]; [contradiction|].
      assert (I : In k SpecKeywords.keywords) by (destruct k; cbn; tauto).
      destruct (Forall2_in_l _ _ _ _ HF I) as (own & Ho & R). exists own. split; auto. intros e He. apply in_concat. eauto.
    Qed.
    Lemma dependency_is ds k x : assoc "dependencies" m = Some (VMap ds) -> In (k, x) ds ->
      (forall ks, x = VArr ks -> exists names, ks = map VStr names /\ assoc k (n_dependencies n) = match names with [] => None | _ => Some (DepKeys names) end) /\
      ((forall ks, x <> VArr ks) -> exists i, assoc k (n_dependencies n) = Some (DepSchema i) /\ kid s i d x).
    Proof.
      intros E Hx. destruct D as (_ & _ & _ & _ & _ & H & _). unfold deps_ok in H. rewrite E in H. destruct H as (l & ls & HP & HF & Ed).
      assert (ND : NoDup (map fst ds)) by (apply (doc_ok_map ds), (doc_ok_member m _ _ c_doc E)).
      assert (NE : NoDup (map fst l)) by (eapply Permutation_NoDup; [apply Permutation_map; exact HP|auto]).
      pose proof (deps_assoc (kid s) d l ls k NE HF) as HD. rewrite <- Ed in HD.
      assert (Ea : assoc k l = Some x) by (apply assoc_In_iff; auto; eapply Permutation_in; eauto). rewrite Ea in HD. split.
      - intros ks ->. exact HD.
      - intros Na. destruct x; auto. destruct (Na l0 eq_refl).
    Qed.
    Lemma additional_is k : additional (pat env) m k -> ~ has_property h n k /\ matching env n k = [].
    Proof.
      intros Ha. destruct D as (_ & DP & _ & DQ & _).
      apply (additional_link env h (kid s) (kid_fun s) V d m n c_doc c_regular v c_suited (named s) c_named k DP DQ) in Ha. destruct Ha as [H1 H2].
      rewrite Forall_forall in H1, H2. split.
      - intros (i & p & Hi & Ep & Ek). apply (H1 i Hi). exists p. auto.
      - destruct (matching env n k) as [|q l] eqn:Em; auto. assert (I : In q (matching env n k)) by (rewrite Em; left; auto). apply filter_In in I. destruct I as [I1 I2].
        specialize (H2 q I1). unfold re_matches in H2. congruence.
    Qed.
    Lemma is_map o k (e : value) : v = VMap o -> In (k, e) o -> assoc k o = Some e.
    Proof. intros Ev Hk. apply assoc_In_iff; auto. destruct U as [U1 _]. rewrite Ev in U1. apply (doc_ok_map o U1). Qed.

    Ltac fin := match goal with H : incl ?a ?b |- incl _ ?b => eapply incl_tran; [|exact H] end.
    Theorem sure_run x w c' : s_type m v -> sure (pat env) V d m c v x w c' ->
      exists i r, kid s i d x /\ sub env h w c' i r /\ incl (errors r) es.
    Proof.
      pose proof D as (D1 & D2 & D3 & D4 & D5 & D6 & D7 & D8 & D9 & D10 & D11 & D12 & D13 & D14 & D15 & D16 & D17 & D18 & D19 & D20 & D21 & D22 & D23 & D24 & D25 & D26 & D27 & D28 & D29 & D30 & D31).
      pose proof c_regular as (R1 & R2 & R3 & R4 & R5 & R6 & R7).
      assert (IN : forall (r : result) a l, Valid r = false -> errors r = l -> incl l (a :: l)) by (intros; apply incl_tl, incl_refl).
      assert (ND : forall o k (e : value), v = VMap o -> In (k, e) o -> assoc k o = Some e) by (exact is_map).
      assert (IT : forall l i e j, v = VArr l -> s_type m v -> n_items n <> [] -> nth_error l i = Some e -> checker (n_items_single n) (n_items n) (n_additionalItems n) i = Some j ->
        exists r, sub env h e (itoa (Z.of_nat i) :: c) j r /\ incl (errors r) es).
      { intros l i e j Ev Ht Ne He Ec. destruct (c_own K_items Ht) as (own & R & I). cbn [reports] in R. rewrite Ev in R. cbn in R.
        destruct R as [[X _]|(_ & es1 & es2 & -> & R & _)]; [contradiction|]. apply indexed_in in He. destruct (each_in _ _ _ _ R He) as (es' & R' & I'). cbn [fst snd] in R'. rewrite Ec in R'. cbn in R'.
        destruct R' as (r & S & ->). exists r. split; auto. eapply incl_tran; [exact I'|]. eapply incl_tran; [|exact I]. apply incl_appl, incl_refl. }
      intros Ht H. remember v as v1 eqn:Ev in H. revert Ev.
      destruct H as [l x v1 E Hx|i x v1 Hd Ei Hi E|i x v1 Hd Ei Hi E|ds o k x E Hx Na Hk|x l i e E Na He|ss x l i e E Hs He|ss x l i e Es E Nb Hl He|ps o k x e E Hx He|ps o p x k e E Hx Hp He|o x k e E Nb Ha He|o x k Hd E Hk]; intros Ev.
      - destruct (Forall2_in_l _ _ _ _ (schemas_is _ _ _ _ _ _ D27 E) Hx) as (i & Hi & Ki). destruct (c_own K_allOf Ht) as (own & (rs & HF & ->) & I).
        destruct (Forall2_in_l _ _ _ _ HF Hi) as (r & Hr & S). exists i, r. rewrite Ev. split; auto. split; auto. fin. apply incl_appl. intros e He. apply in_concat. exists (errors r). split; auto. apply in_map. auto.
      - apply since7_ge in Hd. destruct (gated_is _ _ _ _ _ _ _ D29 Hd Ei) as (a & Ea & Ka). destruct (gated_is _ _ _ _ _ _ _ D30 Hd E) as (b & Eb & Kb).
        destruct (c_own K_if Ht) as (own & R & I). cbn [reports] in R. rewrite Ea in R. destruct R as (r & S & R). subst v1.
        assert (Er : Valid r = true) by (apply (here_sub a i r Ka) in S; [apply S; auto|]; eapply here_if; eauto; [apply since7_ge; auto|simpl; auto]).
        rewrite Er, Eb in R. destruct R as (rt & St & ->). exists b, rt. split; auto. split; auto. fin. destruct (Valid rt) eqn:Et; [|apply incl_tl, incl_refl].
        unfold Valid in Et. destruct (errors rt); [apply incl_refl|discriminate].
      - apply since7_ge in Hd. destruct (gated_is _ _ _ _ _ _ _ D29 Hd Ei) as (a & Ea & Ka). destruct (gated_is _ _ _ _ _ _ _ D31 Hd E) as (b & Eb & Kb).
        destruct (c_own K_if Ht) as (own & R & I). cbn [reports] in R. rewrite Ea in R. destruct R as (r & S & R). subst v1.
        assert (Er : Valid r = false).
        { destruct (Valid r) eqn:Er; auto. exfalso. apply Hi. apply (here_sub a i r Ka) in S; [apply S; auto|]. eapply here_if; eauto; [apply since7_ge; auto|simpl; auto]. }
        rewrite Er, Eb in R. destruct R as (rt & St & ->). exists b, rt. split; auto. split; auto. fin. destruct (Valid rt) eqn:Et; [|apply incl_tl, incl_refl].
        unfold Valid in Et. destruct (errors rt); [apply incl_refl|discriminate].
      - destruct (dependency_is ds k x E Hx) as [_ H]. destruct (H Na) as (i & Ei & Ki). destruct (c_own K_dependencies Ht) as (own & R & I). cbn [reports] in R. rewrite <- Ev in R. cbn in R.
        apply in_map_iff in Hk. destruct Hk as ([k' e] & <- & Hk). destruct (each_order_in _ _ _ _ R Hk) as (es' & R' & I'). unfold dependency_own in R'. cbn [fst] in R', Ei. rewrite Ei in R'. destruct R' as (r & S & ->).
        exists i, r. split; auto. split; [rewrite Ev; auto; rewrite <- Ev; auto|]. fin. auto.
      - assert (E7 : n_items_single n = true /\ exists j, n_items n = [j] /\ kid s j d x) by (unfold items_ok in D7; rewrite E in D7; destruct x; auto; destruct (Na l0 eq_refl)).
        destruct E7 as (E7 & j & Ej & Kj). destruct (IT l i e j (eq_sym Ev) Ht) as (r & S & I); auto; [rewrite Ej; discriminate|rewrite E7, Ej; reflexivity|]. exists j, r. auto.
      - unfold items_ok in D7. rewrite E in D7. destruct D7 as [E7 HF]. destruct (Forall2_nth_l _ _ _ _ _ HF Hs) as (j & Ej & Kj).
        destruct (IT l i e j (eq_sym Ev) Ht) as (r & S & I); auto; [intros X; rewrite X in Ej; destruct i; discriminate|unfold checker; rewrite E7, Ej; reflexivity|]. exists j, r. auto.
      - unfold items_ok in D7. rewrite Es in D7. destruct D7 as [E7 HF]. destruct (addl_is _ _ _ _ _ _ D8 E Nb) as (j & Ej & Kj).
        assert (EL : length ss = length (n_items n)) by (eapply Forall2_length; eauto).
        destruct (IT l i e j (eq_sym Ev) Ht) as (r & S & I); auto.
        + intros X. rewrite X in EL. destruct ss; [|discriminate]. destruct (R5 Es) as [X'|X']; [congruence|]. rewrite E in X'. injection X' as ->. destruct (Nb true eq_refl).
        + unfold checker. rewrite E7, Ej. assert (X : nth_error (n_items n) i = None) by (apply nth_error_None; lia). rewrite X. reflexivity.
        + exists j, r. auto.
      - unfold props_ok in D2. rewrite E in D2. destruct D2 as (l & HP & HF). apply (Permutation_in _ HP) in Hx. destruct (Forall2_in_l _ _ _ _ HF Hx) as (i & Hi & Ki & (p & Ep & Ek)). cbn [fst snd] in *.
        destruct (c_own K_properties Ht) as (own & R & I). cbn [reports] in R. rewrite <- Ev in R. cbn in R. destruct (each_in _ _ _ _ R Hi) as (es' & (p' & Ep' & R') & I'). assert (p' = p) by congruence. subst p' k.
        rewrite (ND o (n_property p) e (eq_sym Ev) He) in R'. destruct R' as (r & S & ->). exists i, r. split; auto. split; auto. fin. auto.
      - unfold pats_ok in D4. rewrite E in D4. destruct D4 as (l & HP & HF). apply (Permutation_in _ HP) in Hx. destruct (Forall2_in_l _ _ _ _ HF Hx) as ([q i] & Hi & Eq & Ho & Ki). cbn [fst snd] in *. subst q.
        destruct (c_own K_other_members Ht) as (own & R & I). cbn [reports] in R. rewrite <- Ev in R. cbn in R. destruct (each_order_in _ _ _ _ R He) as (es' & R' & I').
        assert (M : In (p, i) (matching env n k)) by (apply filter_In; split; auto; cbn; unfold pat in Hp; rewrite Ho, Hp; reflexivity).
        unfold other_member_own in R'. cbn [fst snd] in R'. destruct R' as [[_ R']|[(X & _)|(X & _)]]; [|rewrite X in M; destruct M|rewrite X in M; destruct M].
        destruct (each_order_in _ _ _ _ R' M) as (es2 & (r & S & ->) & I2). exists i, r. split; auto. split; auto. fin. eapply incl_tran; eauto.
      - destruct (additional_is k Ha) as [A1 A2]. destruct (addl_is _ _ _ _ _ _ D3 E Nb) as (i & Ei & Ki).
        destruct (c_own K_other_members Ht) as (own & R & I). cbn [reports] in R. rewrite <- Ev in R. cbn in R. destruct (each_order_in _ _ _ _ R He) as (es' & R' & I').
        unfold other_member_own in R'. cbn [fst snd] in R'. destruct R' as [[X _]|[(_ & X & _)|(_ & _ & R')]]; [contradiction|contradiction|].
        rewrite Ei in R'. destruct R' as (r & S & ->). exists i, r. split; auto. split; auto. fin. auto.
      - apply since6_ge in Hd. destruct (gated_is _ _ _ _ _ _ _ D5 Hd E) as (i & Ei & Ki).
        destruct (c_own K_propertyNames Ht) as (own & R & I). cbn [reports] in R. rewrite Ei in R. cbn [present] in R. rewrite <- Ev in R. cbn in R.
        apply in_map_iff in Hk. destruct Hk as ([k' e] & <- & Hk). destruct (each_order_in _ _ _ _ R Hk) as (es' & R' & I'). destruct R' as (r & S & R'). cbn [fst] in *.
        exists i, r. split; auto. split; auto. fin. eapply incl_tran; [|exact I']. rewrite R'. destruct (Valid r) eqn:Et; [|apply incl_tl, incl_refl].
        unfold Valid in Et. destruct (errors r); [apply incl_refl|discriminate].
    Qed.
    Lemma c_plain : plain_value v.
    Proof. destruct U as [[_ P] _]. destruct v; try exact I; discriminate P. Qed.
    Lemma the_num q : is_num v q -> exists t q', v = VNum t /\ rat_of lim t = Some q' /\ (q' == q)%Q.
    Proof.
      intros (t & Ev & Hq). pose proof c_suited as Hs. rewrite Ev in Hs. destruct (suited_num _ _ _ Hs) as (_ & q' & E & Hq'). exists t, q'. split; auto. split; auto. eapply denotes_unique; eauto.
    Qed.
    Lemma num_unique x a b : is_num x a -> is_num x b -> (a == b)%Q.
    Proof. intros (t & -> & H) (t' & [= <-] & H'). eapply denotes_unique; eauto. Qed.
    Lemma the_nat key r x z : nat_ok lim m key r -> assoc key m = Some x -> is_int x z -> r = Some z.
    Proof.
      intros H E Hz. apply (nat_keyword env m c_doc) in H. destruct r as [z'|]; [|congruence]. destruct H as (x' & E' & Hz'). assert (x' = x) by congruence. subst x'.
      f_equal. eapply is_int_unique; eauto.
    Qed.
    Lemma the_bound key xkey r1 r2 x b : bound_ok lim d m key xkey r1 r2 -> assoc key m = Some x -> is_num x b ->
      exists b', (b' == b)%Q /\ (~ strict d m xkey -> r1 = Some b') /\ (strict d m xkey -> r2 = Some b').
    Proof.
      intros (a & H1 & H2) E Hb. rewrite E in H1. destruct H1 as (q & Hq & ->). destruct (num_keyword env m c_doc _ _ _ E Hq) as (t & Et & Ht).
      exists q. split; [eapply num_unique; eauto; exists t; auto|]. unfold strict. destruct (assoc xkey m) as [y|].
      - destruct y as [|bb|t'| | | | |]; try tauto.
        + destruct H2 as (Hd & q' & [= <-] & H2). destruct bb; destruct H2 as [-> ->]; split; auto; try tauto. intros [_ X]; discriminate.
        + destruct H2 as (_ & -> & ->). split; auto. intros [_ X]. discriminate.
      - destruct H2 as [-> ->]. split; auto. intros [_ X]. discriminate.
    Qed.
    Lemma the_xbound key xkey r1 r2 x b : bound_ok lim d m key xkey r1 r2 -> since6 d -> assoc xkey m = Some x -> is_num x b -> (forall t, x = VNum t -> moderate lim t) ->
      exists b', (b' == b)%Q /\ r2 = Some b'.
    Proof.
      intros (a & _ & H2) Hd E (t & -> & Ht) Hm. rewrite E in H2. destruct H2 as (_ & _ & ->). destruct (rat_of lim t) as [b'|] eqn:Eb.
      - exists b'. split; auto. eapply denotes_unique; [eapply rat_of_denotes; [|exact Eb]|exact Ht]. eapply m_number; [apply c_doc|eauto].
      - exfalso. assert (Hj : json_number t = true) by (eapply m_number; [apply c_doc|eauto]). destruct (proj1 (rat_of_moderate lim t Hj) (Hm t eq_refl)) as [b' Eb']. congruence.
    Qed.
    Ltac yes := match goal with H : incl ?a ?b |- _ => apply H end.
    Theorem breaks_reported e : r_ctx e = c -> (r_type e <> AdditionalPropertyNotAllowedError -> r_value e = v) ->
      (r_type e <> InvalidTypeError -> s_type m v) -> breaks (pat env) (fmt env) same V d m v e -> exists e', In e' es /\ alike e e'.
    Proof.
      pose proof D as (D1 & D2 & D3 & D4 & D5 & D6 & D7 & D8 & D9 & D10 & D11 & D12 & D13 & D14 & D15 & D16 & D17 & D18 & D19 & D20 & D21 & D22 & D23 & D24 & D25 & D26 & D27 & D28 & D29 & D30 & D31).
      pose proof c_regular as (R1 & R2 & R3 & R4 & R5 & R6 & R7).
      intros Ec Ev Hty. unfold breaks. destruct (r_type e) eqn:Et; try tauto;
        try (assert (Ht : s_type m v) by (apply Hty; discriminate)); try (assert (Eval : r_value e = v) by (apply Ev; discriminate)); clear Ev Hty.
      - (* required *) intros (o & ks & k & Ev & E & Hk & Nk & Ed). unfold required_ok in D18. rewrite E in D18. subst ks. apply in_map_iff in Hk. destruct Hk as (k' & [= ->] & Hk).
        destruct (c_own K_required Ht) as (own & R & I). cbn [reports] in R. rewrite Ev in R. cbn in R. destruct (each_in _ _ _ _ R Hk) as (es' & R' & I').
        cbv beta in R'; apply one_if_in in R'; [|destruct (assoc k o) eqn:Ea; auto; exfalso; apply Nk, assoc_present; congruence].
        eexists. split; [apply I, I', R'|]. unfold alike. rewrite Ec, Et, Eval, Ev. repeat split; auto. cbn [which]. intros q [<-|[]]. left. rewrite Ed. reflexivity.
      - (* type *) intros Nt. destruct CE as [[_ X]|(A & _)].
        + unfold type_wrong in X. rewrite X. eexists. split; [left; reflexivity|]. apply alike_new; auto.
        + exfalso. apply Nt. apply (type_link env h (kid s) (kid_fun s) V d m n c_doc c_regular v c_suited D1). apply type_allowed_back; auto. apply c_plain.
      - (* anyOf *) intros (l & E & Hall). pose proof (schemas_is _ _ _ _ _ _ D26 E) as HF. destruct (c_own K_anyOf Ht) as (own & R & I). cbn [reports] in R. unfold anyOf_own in R. destruct R as [(_ & [X|(i & ri & Hi & S & Vi)])|(rs & b & _ & _ & _ & ->)].
        + rewrite X in HF. inversion HF; subst. destruct (R3 E).
        + exfalso. destruct (Forall2_in_r _ _ _ _ HF Hi) as (x & Hx & Kx). apply (Hall x Hx). eapply here_sub; eauto. eapply here_element; eauto. simpl; auto.
        + eexists. split; [apply I; left; reflexivity|]. apply alike_new; auto.
      - (* oneOf *) intros Hs. assert (DEC : exists l, assoc "oneOf" m = Some (VArr l)).
        { unfold schemas_ok in D25. destruct (assoc "oneOf" m) as [y|] eqn:E; [destruct y; try tauto; eauto|]. exfalso. apply Hs. intros x X. congruence. }
        destruct DEC as [l E]. pose proof (schemas_is _ _ _ _ _ _ D25 E) as HF. destruct (c_own K_oneOf Ht) as (own & R & I). cbn [reports] in R. unfold oneOf_own in R.
        destruct R as [[_ X]|(rs & HS & [[Hc _]|[[_ ->]|(_ & b & _ & ->)]])].
        + rewrite X in HF. inversion HF; subst. destruct (R4 E).
        + exfalso. apply Hs. intros x X l' ->. assert (l' = l) by congruence. subst l'. destruct (count_one_back rs Hc) as (i & r & Hi & Vr & Uq).
          destruct (Forall2_nth_r _ _ _ _ _ HS Hi) as (j & Hj & S). destruct (Forall2_nth_r _ _ _ _ _ HF Hj) as (y & Hy & Ky).
          assert (PH : forall x, In x l -> part_here d m x) by (intros; eapply here_element; eauto; simpl; auto).
          exists i, y. split; auto. split; [eapply here_sub; eauto using nth_error_In|]. intros i' y' Hy' Vy'.
          destruct (Forall2_nth_l _ _ _ _ _ HF Hy') as (j' & Hj' & Ky'). destruct (Forall2_nth_l _ _ _ _ _ HS Hj') as (r' & Hr' & S'). apply (Uq i' r' Hr'). eapply here_sub; eauto using nth_error_In.
        + eexists. split; [apply I; left; reflexivity|]. apply alike_new; auto.
        + eexists. split; [apply I; left; reflexivity|]. apply alike_new; auto.
      - (* allOf *) intros (l & x & E & Hx & Nx). pose proof (schemas_is _ _ _ _ _ _ D27 E) as HF. destruct (c_own K_allOf Ht) as (own & (rs & HS & ->) & I).
        destruct (Forall2_in_l _ _ _ _ HF Hx) as (j & Hj & Kj). destruct (Forall2_in_l _ _ _ _ HS Hj) as (r & Hr & S).
        destruct (forallb Valid rs) eqn:Ef.
        + exfalso. rewrite forallb_forall in Ef. apply Nx. eapply here_sub; eauto. eapply here_element; eauto. simpl; auto.
        + eexists. split; [apply I, in_or_app; right; left; reflexivity|]. apply alike_new; auto.
      - (* not *) intros (x & E & Vx). destruct (opt_is _ _ _ _ _ _ D28 E) as (i & Ei & Ki). destruct (c_own K_not Ht) as (own & R & I). cbn [reports] in R. rewrite Ei in R. destruct R as (r & S & R).
        cbv beta in R; apply one_if_in in R; [|eapply here_sub; eauto; apply here_not; auto]. eexists. split; [apply I, R|]. apply alike_new; auto.
      - (* dependencies *) intros (ds & o & k & ks & k' & E & Ev & Hx & Hk & Hk' & Nk & Ed). destruct (dependency_is ds k _ E Hx) as [H _]. destruct (H ks eq_refl) as (names & -> & Ea).
        apply in_map_iff in Hk'. destruct Hk' as (k2 & [= ->] & Hk'). destruct names as [|n0 ns]; [destruct Hk'|].
        destruct (c_own K_dependencies Ht) as (own & R & I). cbn [reports] in R. rewrite Ev in R. cbn in R.
        apply in_map_iff in Hk. destruct Hk as ([k3 z] & <- & Hk). destruct (each_order_in _ _ _ _ R Hk) as (es' & R' & I'). unfold dependency_own in R'. cbn [fst] in R', Ea. rewrite Ea in R'. cbn [present] in R'.
        destruct (each_in _ _ _ _ R' Hk') as (es2 & R2' & I2). cbv beta in R2'; apply one_if_in in R2'; [|destruct (assoc k' o) eqn:Eo; auto; exfalso; apply Nk, assoc_present; congruence].
        eexists. split; [apply I, I', I2, R2'|]. unfold alike. rewrite Ec, Et, Eval, Ev. repeat split; auto. cbn [which]. intros q [<-|[]]. left. rewrite Ed. reflexivity.
      - (* const *) intros Hs. destruct (c_own K_const Ht) as (own & R & I). cbn [reports] in R. pose proof (const_link env h (kid s) (kid_fun s) V d m n c_doc c_regular v c_suited D23) as L.
        destruct (n_const n) as [k|]; [|exfalso; apply Hs, L; exact Logic.I]. destruct R as (t & Em & R). cbv beta in R; apply one_if_in in R; [|intros ->; apply Hs, L; auto].
        eexists. split; [apply I, R|]. apply alike_new; auto.
      - (* enum *) intros Hs. destruct (c_own K_enum Ht) as (own & R & I). cbn [reports] in R. pose proof (enum_link env h (kid s) (kid_fun s) V d m n c_doc c_regular v c_suited D24) as L.
        destruct R as [[X _]|(_ & t & Em & R)]; [exfalso; apply Hs, L; auto|]. cbv beta in R; apply one_if_in in R; [|intros Hin; apply Hs, L; right; apply Exists_exists; eauto].
        eexists. split; [apply I, R|]. apply alike_new; auto.
      - (* additionalItems *) intros (l & ss & Ev & E & Ea & Hl). unfold items_ok in D7. rewrite E in D7. destruct D7 as [E7 HF]. assert (EL : length ss = length (n_items n)) by (eapply Forall2_length; eauto).
        unfold addl_ok in D8. rewrite Ea in D8. destruct (c_own K_items Ht) as (own & R & I). cbn [reports] in R. rewrite Ev in R. cbn in R. destruct R as [[X _]|(_ & es1 & es2 & -> & _ & R)].
        + rewrite X in EL. destruct ss; [|discriminate]. destruct (R5 E) as [X'|X']; congruence.
        + cbv beta in R; apply one_if_in in R; [|repeat split; auto; lia]. eexists. split; [apply I, in_or_app; right; exact R|]. rewrite <- Ev. apply alike_new; auto.
      - intros (l & Ev & x & k & E & Hk & Hlt & Ed). destruct (c_own K_minItems Ht) as (own & R & I). cbn [reports] in R. rewrite (the_nat _ _ _ _ D19 E Hk), Ev in R. cbn in R.
        cbv beta in R; apply one_if_in in R; auto. eexists. split; [apply I, R|]. rewrite <- Ev. eapply alike_told; [auto|auto|auto|reflexivity|exact Ed|]; left; reflexivity.
      - intros (l & Ev & x & k & E & Hk & Hlt & Ed). destruct (c_own K_maxItems Ht) as (own & R & I). cbn [reports] in R. rewrite (the_nat _ _ _ _ D20 E Hk), Ev in R. cbn in R.
        cbv beta in R; apply one_if_in in R; [|lia]. eexists. split; [apply I, R|]. rewrite <- Ev. eapply alike_told; [auto|auto|auto|reflexivity|exact Ed|]; left; reflexivity.
      - (* unique *) intros (l & i & j & x & y & Ev & E & Hij & Hi & Hj & Hs & _). unfold unique_ok in D21. rewrite E in D21.
        destruct (c_own K_uniqueItems Ht) as (own & R & I). cbn [reports] in R. rewrite Ev in R. cbn in R. destruct R as [[X _]|(_ & ts & ps & Em & _ & Hp & ->)]; [congruence|].
        assert (Ho : ordinary lim (VArr l)) by (rewrite <- Ev; destruct c_suited as (Q1 & Q2 & Q3); split; [auto|split; auto]; apply Q2; right; right; exact E).
        destruct (ordinary_arr _ _ _ Ho (nth_error_In _ _ Hi)) as ([S1 _] & Q1 & _). destruct (ordinary_arr _ _ _ Ho (nth_error_In _ _ Hj)) as ([S2 _] & Q2 & _).
        assert (EM : marshalWithoutNumber x = marshalWithoutNumber y) by (apply mwn_equal; auto).
        assert (TS : forall q z, nth_error l q = Some z -> exists t, nth_error ts q = Some t /\ marshalWithoutNumber z = Some t).
        { intros q z Hq. assert (X : nth_error (map marshalWithoutNumber l) q = Some (marshalWithoutNumber z)) by (apply map_nth_error; auto). rewrite Em in X. rewrite nth_error_map in X.
          destruct (nth_error ts q) as [t|]; [|discriminate]. injection X as X. eauto. }
        destruct (TS _ _ Hi) as (t & Hti & Mx). destruct (TS _ _ Hj) as (t' & Htj & My). assert (t' = t) by congruence. subst t'.
        destruct (repeats_some ts i j t Hij Hti Htj) as (p & P). apply Hp in P. exists (unique_error c (VArr l) p). split; [apply I, in_map; auto|]. rewrite <- Ev. apply alike_new; auto.
      - (* contains *) intros (Hd & l & x & Ev & E & Hall). apply since6_ge in Hd. destruct (gated_is _ _ _ _ _ _ _ D22 Hd E) as (i & Ei & Ki). destruct (c_own K_contains Ht) as (own & R & I). cbn [reports] in R. rewrite Ei in R. cbn [present] in R. rewrite Ev in R. cbn in R.
        destruct R as [(_ & q & z & r & Hz & S & Vr)|(rs & _ & _ & [[_ ->]|(b & _ & ->)])].
        + exfalso. apply (Hall z (nth_error_In _ _ Hz)). pose proof N as N'. pose proof U as U'. rewrite Ev in N', U'. eapply (sub_link ce pd s W C d0 x0 v0 REG V EQ); eauto.
          * eapply needed_step; [exact N'|]. apply ask_item; [apply c_none|apply item_contains; auto; apply since6_ge; auto|eapply nth_error_In; eauto].
          * eapply usual_arr; eauto using nth_error_In.
        + eexists. split; [apply I; left; reflexivity|]. rewrite <- Ev. apply alike_new; auto.
        + eexists. split; [apply I; left; reflexivity|]. rewrite <- Ev. apply alike_new; auto.
      - intros (l & Ev & x & k & E & Hk & Hlt & Ed). destruct (c_own K_minProperties Ht) as (own & R & I). cbn [reports] in R. rewrite (the_nat _ _ _ _ D16 E Hk), Ev in R. cbn in R.
        cbv beta in R; apply one_if_in in R; auto. eexists. split; [apply I, R|]. rewrite <- Ev. eapply alike_told; [auto|auto|auto|reflexivity|exact Ed|]; left; reflexivity.
      - intros (l & Ev & x & k & E & Hk & Hlt & Ed). destruct (c_own K_maxProperties Ht) as (own & R & I). cbn [reports] in R. rewrite (the_nat _ _ _ _ D17 E Hk), Ev in R. cbn in R.
        cbv beta in R; apply one_if_in in R; [|lia]. eexists. split; [apply I, R|]. rewrite <- Ev. eapply alike_told; [auto|auto|auto|reflexivity|exact Ed|]; left; reflexivity.
      - (* additionalProperties *) intros (o & k & Ev & E & Hk & Ha & Ed). destruct (additional_is k Ha) as [A1 A2]. unfold addl_ok in D3. rewrite E in D3.
        destruct (c_own K_other_members Ht) as (own & R & I). cbn [reports] in R. rewrite Ev in R. cbn in R. destruct (each_order_in _ _ _ _ R Hk) as (es' & R' & I').
        unfold other_member_own in R'. cbn [fst snd] in R'. destruct R' as [[X _]|[(_ & X & _)|(_ & _ & R')]]; [contradiction|contradiction|].
        rewrite D3 in R'. cbn [present] in R'. rewrite R' in I'. eexists. split; [apply I, I'; left; reflexivity|]. unfold alike. rewrite Ec, Et. repeat split; auto. cbn [which]. intros q [<-|[]]. left. rewrite Ed. reflexivity.
      - (* propertyNames *) intros (Hd & o & x & k & Ev & E & Hk & Nx & Ed). apply since6_ge in Hd. destruct (gated_is _ _ _ _ _ _ _ D5 Hd E) as (i & Ei & Ki).
        destruct (c_own K_propertyNames Ht) as (own & R & I). cbn [reports] in R. rewrite Ei in R. cbn [present] in R. rewrite Ev in R. cbn in R.
        apply in_map_iff in Hk. destruct Hk as ([k' z] & <- & Hk). destruct (each_order_in _ _ _ _ R Hk) as (es' & R' & I'). destruct R' as (r & S & R'). cbn [fst] in *.
        destruct (Valid r) eqn:Vr.
        + exfalso. apply Nx. pose proof N as N'. pose proof U as U'. rewrite Ev in N', U'. eapply (sub_link ce pd s W C d0 x0 v0 REG V EQ); eauto.
          * eapply needed_step; [exact N'|]. apply ask_name; [apply c_none|split; auto; apply since6_ge; auto|]. change k' with (fst (k', z)). apply in_map; auto.
          * eapply usual_map; eauto.
        + rewrite R' in I'. eexists. split; [apply I, I'; left; reflexivity|]. unfold alike. rewrite Ec, Et, Eval, Ev. repeat split; auto. cbn [which]. intros q [<-|[]]. left. rewrite Ed. reflexivity.
      - intros (t & cps & Ev & Htx & x & k & E & Hk & Hlt & Ed). destruct (c_own K_minLength Ht) as (own & R & I). cbn [reports] in R. rewrite (the_nat _ _ _ _ D12 E Hk), Ev in R. cbn in R.
        cbv beta in R; apply one_if_in in R; [|rewrite (rune_count_text _ _ Htx); lia]. eexists. split; [apply I, R|]. rewrite <- Ev. eapply alike_told; [auto|auto|auto|reflexivity|exact Ed|]; left; reflexivity.
      - intros (t & cps & Ev & Htx & x & k & E & Hk & Hlt & Ed). destruct (c_own K_maxLength Ht) as (own & R & I). cbn [reports] in R. rewrite (the_nat _ _ _ _ D13 E Hk), Ev in R. cbn in R.
        cbv beta in R; apply one_if_in in R; [|rewrite (rune_count_text _ _ Htx); lia]. eexists. split; [apply I, R|]. rewrite <- Ev. eapply alike_told; [auto|auto|auto|reflexivity|exact Ed|]; left; reflexivity.
      - (* pattern *) intros (t & p & Ev & E & Np & Ed). unfold pattern_ok in D14. rewrite E in D14. destruct D14 as [_ Ep]. destruct (c_own K_pattern Ht) as (own & R & I). cbn [reports] in R. rewrite Ep, Ev in R. cbn in R.
        cbv beta in R; apply one_if_in in R; [|unfold pat in Np; destruct (e_re_match env p t); congruence]. eexists. split; [apply I, R|]. rewrite <- Ev. eapply alike_told; [auto|auto|auto|reflexivity|exact Ed|]; left; reflexivity.
      - (* format *) intros (f & E & Nf & Ed). unfold format_ok in D15. rewrite E in D15. destruct (c_own K_format Ht) as (own & R & I). cbn [reports] in R. rewrite D15 in R. unfold fmt in Nf.
        cbv beta in R; apply one_if_in in R; [|split; [tauto|destruct (e_is_format env f v); tauto]]. eexists. split; [apply I, R|]. eapply alike_told; [auto|auto|auto|reflexivity|exact Ed|]; left; reflexivity.
      - (* multipleOf *) intros (x & b & q & E & Hb & Hq & Nq & Ed). unfold mult_ok in D9. rewrite E in D9. destruct D9 as (b' & Eb & Mb & Pb). destruct (num_keyword env m c_doc _ _ _ E Mb) as (tb & -> & Htb).
        assert (Ebb : (b' == b)%Q) by (eapply num_unique; [exists tb; eauto|exact Hb]). destruct (the_num q Hq) as (t & q' & Ev & Eq & Eqq).
        destruct (c_own K_multipleOf Ht) as (own & R & I). cbn [reports] in R. rewrite Eb, Ev in R. cbn in R. destruct R as (q2 & Eq2 & _ & R). assert (q2 = q') by congruence. subst q2.
        cbv beta in R; apply one_if_in in R; [|intros [z Hz]; apply Nq; exists z; rewrite <- Eqq, <- Ebb; auto]. eexists. split; [apply I, R|]. rewrite <- Ev. eapply alike_told; [auto|auto|auto|reflexivity|exact Ed|]; apply told_rat; auto.
      - intros (Ns & x & b & q & E & Hb & Hq & Hlt & Ed). destruct (the_bound _ _ _ _ _ _ D10 E Hb) as (b' & Ebb & Eb & _). specialize (Eb Ns). destruct (the_num q Hq) as (t & q' & Ev & Eq & Eqq).
        destruct (c_own K_minimum Ht) as (own & R & I). cbn [reports] in R. rewrite Eb, Ev in R. cbn in R. destruct R as (q2 & Eq2 & R). assert (q2 = q') by congruence. subst q2.
        cbv beta in R; apply one_if_in in R; [|rewrite Eqq, Ebb; auto]. eexists. split; [apply I, R|]. rewrite <- Ev. eapply alike_told; [auto|auto|auto|reflexivity|exact Ed|]; apply told_rat; auto.
      - intros H.
        assert (X : exists b b' q, (b' == b)%Q /\ n_exclusiveMinimum n = Some b' /\ is_num v q /\ (q <= b)%Q /\ assoc "min" (r_details e) = Some (DRat b)).
        { destruct H as [(Hd & x & b & q & E & Hb & Hq & Hlt & Ed)|(Ns & x & b & q & E & Hb & Hq & Hlt & Ed)].
          - destruct (the_xbound _ _ _ _ _ _ D10 Hd E Hb) as (b' & Ebb & Eb); [intros t ->; auto|]. exists b, b', q. unfold told in Ed. auto 6.
          - destruct (the_bound _ _ _ _ _ _ D10 E Hb) as (b' & Ebb & _ & Eb). exists b, b', q. unfold told in Ed. auto 6. }
        clear H. destruct X as (b & b' & q & Ebb & Eb & Hq & Hlt & Ed). destruct (the_num q Hq) as (t & q' & Ev & Eq & Eqq).
        destruct (c_own K_exclusiveMinimum Ht) as (own & R & I). cbn [reports] in R. rewrite Eb, Ev in R. cbn in R. destruct R as (q2 & Eq2 & R). assert (q2 = q') by congruence. subst q2.
        cbv beta in R; apply one_if_in in R; [|rewrite Eqq, Ebb; auto]. eexists. split; [apply I, R|]. rewrite <- Ev. eapply alike_told; [auto|auto|auto|reflexivity|exact Ed|]; apply told_rat; auto.
      - intros (Ns & x & b & q & E & Hb & Hq & Hlt & Ed). destruct (the_bound _ _ _ _ _ _ D11 E Hb) as (b' & Ebb & Eb & _). specialize (Eb Ns). destruct (the_num q Hq) as (t & q' & Ev & Eq & Eqq).
        destruct (c_own K_maximum Ht) as (own & R & I). cbn [reports] in R. rewrite Eb, Ev in R. cbn in R. destruct R as (q2 & Eq2 & R). assert (q2 = q') by congruence. subst q2.
        cbv beta in R; apply one_if_in in R; [|rewrite Eqq, Ebb; auto]. eexists. split; [apply I, R|]. rewrite <- Ev. eapply alike_told; [auto|auto|auto|reflexivity|exact Ed|]; apply told_rat; auto.
      - intros H.
        assert (X : exists b b' q, (b' == b)%Q /\ n_exclusiveMaximum n = Some b' /\ is_num v q /\ (b <= q)%Q /\ assoc "max" (r_details e) = Some (DRat b)).
        { destruct H as [(Hd & x & b & q & E & Hb & Hq & Hlt & Ed)|(Ns & x & b & q & E & Hb & Hq & Hlt & Ed)].
          - destruct (the_xbound _ _ _ _ _ _ D11 Hd E Hb) as (b' & Ebb & Eb); [intros t ->; auto|]. exists b, b', q. unfold told in Ed. auto 6.
          - destruct (the_bound _ _ _ _ _ _ D11 E Hb) as (b' & Ebb & _ & Eb). exists b, b', q. unfold told in Ed. auto 6. }
        clear H. destruct X as (b & b' & q & Ebb & Eb & Hq & Hlt & Ed). destruct (the_num q Hq) as (t & q' & Ev & Eq & Eqq).
        destruct (c_own K_exclusiveMaximum Ht) as (own & R & I). cbn [reports] in R. rewrite Eb, Ev in R. cbn in R. destruct R as (q2 & Eq2 & R). assert (q2 = q') by congruence. subst q2.
        cbv beta in R; apply one_if_in in R; [|rewrite Eqq, Ebb; auto]. eexists. split; [apply I, R|]. rewrite <- Ev. eapply alike_told; [auto|auto|auto|reflexivity|exact Ed|]; apply told_rat; auto.
      - (* then *) intros (Hd & i & x & Ei & Vi & E & Nx). apply since7_ge in Hd. destruct (gated_is _ _ _ _ _ _ _ D29 Hd Ei) as (a & Ea & Ka). destruct (gated_is _ _ _ _ _ _ _ D30 Hd E) as (b & Eb & Kb). apply since7_ge in Hd.
        destruct (c_own K_if Ht) as (own & R & I). cbn [reports] in R. rewrite Ea in R. destruct R as (r & S & R).
        assert (Er : Valid r = true) by (apply (here_sub a i r Ka); [eapply here_if; eauto; simpl; auto|auto|auto]). rewrite Er, Eb in R. destruct R as (rt & St & R).
        destruct (Valid rt) eqn:Vt; [exfalso; apply Nx; apply (here_sub b x rt Kb); [eapply here_if; eauto; simpl; auto|auto|auto]|]. rewrite R in I. eexists. split; [apply I; left; reflexivity|]. apply alike_new; auto.
      - (* else *) intros (Hd & i & x & Ei & Vi & E & Nx). apply since7_ge in Hd. destruct (gated_is _ _ _ _ _ _ _ D29 Hd Ei) as (a & Ea & Ka). destruct (gated_is _ _ _ _ _ _ _ D31 Hd E) as (b & Eb & Kb). apply since7_ge in Hd.
        destruct (c_own K_if Ht) as (own & R & I). cbn [reports] in R. rewrite Ea in R. destruct R as (r & S & R).
        assert (Er : Valid r = false) by (destruct (Valid r) eqn:Er; auto; exfalso; apply Vi; apply (here_sub a i r Ka); [eapply here_if; eauto; simpl; auto|auto|auto]). rewrite Er, Eb in R. destruct R as (rt & St & R).
        destruct (Valid rt) eqn:Vt; [exfalso; apply Nx; apply (here_sub b x rt Kb); [eapply here_if; eauto; simpl; auto|auto|auto]|]. rewrite R in I. eexists. split; [apply I; left; reflexivity|]. apply alike_new; auto.
    Qed.
  End At.

  Lemma usual_plain lm v : usual lm v -> plain_value v.
  Proof. intros [[_ P] _]. destruct v; try exact I; discriminate P. Qed.
  Notation musting := (must (pat env) V T d0 x0 v0).
  Lemma must_usual d x v c : musting d x v c -> usual lim v.
  Proof. intros H. induction H as [|d m v c r d' x H IH Er HT|d m v c x w c' H IH Nr [_ HP]]; auto. eapply sure_usual; eauto. Qed.
  Section Run.
    Variables (id : nat) (r0 : result).
    Hypothesis K0 : kid s id d0 x0.
    Hypothesis S0 : sub env h v0 ["(root)"] id r0.
    Lemma must_run d x v c : musting d x v c -> exists i r, kid s i d x /\ sub env h v c i r /\ incl (errors r) (errors r0).
    Proof.
      intros H. induction H as [|d m v c k d' x H IH Er HT|d m v c x w c' H IH Nr HP].
      - exists id, r0. split; auto. split; auto. apply incl_refl.
      - destruct IH as (i & r & Ki & (f & o & F & E) & I). destruct (kid_cell ce pd s W C i d (VMap m) Ki) as (n & En & _ & Ep & Hn). rewrite Er in Hn. destruct Hn as (u & rid & Eu & Ea & Hr).
        destruct HT as (u' & rid' & Eu' & Ea' & K'). assert (u' = u) by congruence. subst u'. assert (rid' = rid) by congruence. subst rid'.
        exists rid, r. split; auto. split; auto. eapply reference_errors; eauto.
      - destruct IH as (i & r & Ki & (f & o & F & E) & I). destruct (kid_cell ce pd s W C i d (VMap m) Ki) as (n & En & _ & Ep & Hn).
        destruct (assoc "$ref" m) as [y|] eqn:Er; [destruct y; try tauto; destruct (Nr s0 eq_refl)|]. destruct Hn as [Hr Hn].
        pose proof (must_usual d (VMap m) v c H) as U. pose proof (must_needed _ _ _ _ _ _ _ _ _ _ H) as N.
        pose proof (errors_by_keyword env h i n v c f o r En Ep Hr F (usual_plain lim v U) E) as CE. destruct HP as [Ht HP].
        destruct (sure_run i n d m v c (errors r) Ki N U Er Hn CE x w c' Ht HP) as (j & r' & Kj & S & I'). exists j, r'. split; auto. split; auto. eapply incl_tran; eauto.
    Qed.
    Theorem due_reported e : due (pat env) (fmt env) same V T d0 x0 v0 e -> exists e', In e' (errors r0) /\ alike e e'.
    Proof.
      intros (d & x & v & c & M & (Ec & Ev & R) & Ht). destruct (must_run d x v c M) as (i & r & Ki & (f & o & F & E) & I).
      pose proof (must_usual d x v c M) as U. pose proof (must_needed _ _ _ _ _ _ _ _ _ _ M) as N.
      destruct (kid_cell ce pd s W C i d x Ki) as (n & En & _ & Hn). destruct R as [[-> Et]|(m & -> & Er & B)].
      - destruct Hn as [_ Hn]. pose proof (boolean_errors env h i n false v c f o r En Hn E) as Eb. exists (newError FalseError c v []). split; [apply I; rewrite Eb; left; auto|].
        apply alike_new; auto. apply Ev. rewrite Et. discriminate.
      - destruct Hn as [Ep Hn]. rewrite Er in Hn. destruct Hn as [Hr Hn]. pose proof (errors_by_keyword env h i n v c f o r En Ep Hr F (usual_plain lim v U) E) as CE.
        destruct (breaks_reported i n d m v c (errors r) Ki N U Er Hn CE e Ec Ev (Ht m eq_refl) B) as (e' & He & A). exists e'. split; auto.
    Qed.
  End Run.
End Heap.
