(** The reasons of errors, from the compiled graph (SpecWhy.v) back to the
    schema document (SpecReason.v). *)
From Coq Require Import Relations Lia.
From Verif Require Export CompileSem SpecWhy.
From Verif Require Import WhyProps.
From Verif Require Export SpecReason.
Open Scope string_scope.
Open Scope list_scope.
Open Scope nat_scope.

Lemma opt_some kid d m key id : opt_ok kid d m key (Some id) -> exists x, assoc key m = Some x /\ kid id d x.
Proof. unfold opt_ok. destruct (assoc key m); [|discriminate]. intros (i & [= <-] & K). eauto. Qed.
Lemma gated_some kid b d m key id : gated b (Some id) (opt_ok kid d m key (Some id)) -> b = true /\ exists x, assoc key m = Some x /\ kid id d x.
Proof. unfold gated. destruct b; [|discriminate]. intros H. split; auto. apply opt_some. auto. Qed.
Lemma schemas_in kid d m key ids id : schemas_ok kid d m key ids -> In id ids -> exists l x, assoc key m = Some (VArr l) /\ In x l /\ kid id d x.
Proof.
  unfold schemas_ok. destruct (assoc key m) as [x|]; [|intros -> []]. destruct x; try tauto. intros H Hi.
  destruct (Forall2_in_r _ _ _ _ H Hi) as (x & Hx & K). eauto.
Qed.
Lemma addl_some kid d m key id : addl_ok kid d m key (Some (AddlSchema id)) -> exists x, assoc key m = Some x /\ (forall b, x <> VBool b) /\ kid id d x.
Proof.
  unfold addl_ok. destruct (assoc key m) as [x|]; [|discriminate]. intros H. exists x. split; auto.
  destruct x; try discriminate; destruct H as (i & [= <-] & K); (split; [discriminate|auto]).
Qed.
Lemma addl_bool kid d m key b : addl_ok kid d m key (Some (AddlBool b)) -> assoc key m = Some (VBool b).
Proof.
  unfold addl_ok. destruct (assoc key m) as [x|]; [|discriminate]. destruct x; try (intros (i & [=] & _); fail). intros [= <-]. auto.
Qed.

Lemma type_allowed_sem env n v : types_sem env n v -> type_allowed env n v.
Proof.
  intros [E|E]; [left; auto|]. apply Exists_exists in E. destruct E as (t & Ht & H). right. exists t. split; auto. unfold type_of_value in H. unfold value_types.
  destruct v as [|b|s|f|s|l|o|o]; try (destruct H; fail); try (subst; simpl; auto; fail).
  destruct (checkJSONInteger (e_ratlim env) s) eqn:Ec; destruct H as [->|[-> Hc]]; simpl; auto. discriminate.
Qed.
Lemma type_allowed_back env n v : plain_value v -> type_allowed env n v -> types_sem env n v.
Proof.
  intros P [E|(t & Ht & H)]; [left; auto|]. right. apply Exists_exists. exists t. split; auto. unfold type_of_value. unfold value_types in Ht.
  destruct v as [|b|s|f|s|l|o|o]; try (destruct P; fail); try (destruct Ht as [<-|[]]; auto; fail).
  destruct (checkJSONInteger (e_ratlim env) s) eqn:Ec; [destruct Ht as [<-|[<-|[]]]|destruct Ht as [<-|[]]]; auto.
Qed.
Lemma count_one rs : forall i r, nth_error rs i = Some r -> Valid r = true -> (forall j r', nth_error rs j = Some r' -> Valid r' = true -> j = i) -> valid_count rs = 1.
Proof.
  induction rs as [|r0 rs IH]; intros [|i] r E Er U; try discriminate.
  - injection E as ->. cbn [valid_count]. rewrite Er.
    assert (Z : valid_count rs = 0); [|lia]. assert (A : forall j r', nth_error rs j = Some r' -> Valid r' = false).
    { intros j r' Ej. destruct (Valid r') eqn:E; auto. discriminate (U (S j) r' Ej E). }
    clear - A. induction rs as [|r1 rs IH]; [reflexivity|]. cbn [valid_count]. rewrite (A 0 r1 eq_refl). apply IH. intros j r' Ej. apply (A (S j) r' Ej).
  - cbn [valid_count]. destruct (Valid r0) eqn:E0; [discriminate (U 0 r0 eq_refl E0)|]. cbn. apply (IH i r E Er). intros j r' Ej Er'. specialize (U (S j) r' Ej Er'). lia.
Qed.
Lemma count_one_back rs : valid_count rs = 1 -> exists i r, nth_error rs i = Some r /\ Valid r = true /\ (forall j r', nth_error rs j = Some r' -> Valid r' = true -> j = i).
Proof.
  induction rs as [|r0 rs IH]; [discriminate|]. cbn [valid_count]. destruct (Valid r0) eqn:E0; intros H.
  - exists 0, r0. split; auto. split; auto. assert (Z : valid_count rs = 0) by lia. clear - Z. intros [|j] r' Ej Er; auto. exfalso. cbn in Ej. revert j Ej. induction rs as [|r1 rs IH]; intros [|j] Ej; try discriminate; cbn [valid_count] in Z.
    + injection Ej as ->. rewrite Er in Z. discriminate.
    + destruct (Valid r1); [discriminate|]. apply (IH Z j Ej).
  - destruct (IH H) as (i & r & Ei & Er & U). exists (S i), r. split; auto. split; auto. intros [|j] r' Ej Er'; [cbn in Ej; congruence|]. f_equal. eapply U; eauto.
Qed.

Section Link.
  Variable env : goenv.
  Notation lim := (e_ratlim env).
  Variable h : heap.
  Variable kid : nat -> draft -> value -> Prop.
  Hypothesis kid_fun : forall id d x d' x', kid id d x -> kid id d' x' -> d = d' /\ x = x'.
  Variable named : nat -> string -> Prop.
  Hypothesis named_fun : forall id k, named id k <-> name_of h id k.
  Variable V : draft -> value -> value -> Prop.
  Variables (d : draft) (m : list (string * value)) (n : node) (v : value) (c : ctx).
  Hypothesis Hm : doc_ok (VMap m).
  Hypothesis Hreg : regular lim m.
  Hypothesis Hv : suited lim m v.
  Hypothesis D : describes lim (e_re_ok env) kid named d m n.
  (** What the runs of the parts say is what the schemas mean. *)
  Hypothesis Hacc : forall id x, kid id d x -> part_here d m x -> accepts env h id v c -> V d x v.
  Hypothesis Hrej : forall id x, kid id d x -> part_here d m x -> rejects env h id v c -> ~ V d x v.
  Hypothesis Hrej_item : forall l i e id x, v = VArr l -> nth_error l i = Some e -> kid id d x -> part_item d m x ->
    rejects env h id e (itoa (Z.of_nat i) :: c) -> ~ V d x e.
  Hypothesis Hrej_name : forall o k id x, v = VMap o -> In k (map fst o) -> kid id d x -> part_name d m x -> rejects env h id (VStr k) c -> ~ V d x (VStr k).

  Lemma G6 : draft_ge6 d = true -> since6 d.
  Proof. apply since6_ge. Qed.
  Lemma G7 : draft_ge7 d = true -> since7 d.
  Proof. apply since7_ge. Qed.

  Lemma property_members id p : In id (n_props n) -> nth_error h id = Some p ->
    exists ps x, assoc "properties" m = Some (VMap ps) /\ In (n_property p, x) ps /\ kid id d x.
  Proof.
    destruct D as (_ & H & _). unfold props_ok in H. intros Hi Hp. destruct (assoc "properties" m) as [y|]; [|rewrite H in Hi; destruct Hi].
    destruct y as [| | | | | |ps|]; try tauto. destruct H as (es & HP & HF). destruct (Forall2_in_r _ _ _ _ HF Hi) as ([k x] & Hx & K & Nm).
    exists ps, x. split; auto. split; auto. apply named_fun in Nm. destruct Nm as (p' & E' & E). cbn in E. rewrite Hp in E'. injection E' as <-.
    unfold fst in E. rewrite E. eapply Permutation_in; [symmetry; exact HP|exact Hx].
  Qed.
  Lemma pattern_members p id : In (p, id) (n_patternProperties n) ->
    exists ps x, assoc "patternProperties" m = Some (VMap ps) /\ In (p, x) ps /\ kid id d x.
  Proof.
    destruct D as (_ & _ & _ & H & _). unfold pats_ok in H. intros Hi. destruct (assoc "patternProperties" m) as [y|]; [|rewrite H in Hi; destruct Hi].
    destruct y as [| | | | | |ps|]; try tauto. destruct H as (es & HP & HF). destruct (Forall2_in_r _ _ _ _ HF Hi) as ([k x] & Hx & E & _ & K).
    exists ps, x. cbn in *. subst k. split; auto. split; auto. eapply Permutation_in; [symmetry; exact HP|exact Hx].
  Qed.
  Lemma dependency_members k dp : assoc k (n_dependencies n) = Some dp ->
    exists ds x, assoc "dependencies" m = Some (VMap ds) /\ In (k, x) ds /\
      match dp with DepSchema id => kid id d x /\ (forall ks, x <> VArr ks) | DepKeys ks => x = VArr (map VStr ks) end.
  Proof.
    destruct D as (_ & _ & _ & _ & _ & H & _). unfold deps_ok in H. intros Hi. destruct (assoc "dependencies" m) as [y|] eqn:Ex; [|rewrite H in Hi; discriminate].
    destruct y as [| | | | | |ds|]; try tauto. destruct H as (es & ls & HP & HF & En).
    assert (ND : NoDup (map fst ds)) by (apply (doc_ok_map ds), (doc_ok_member m _ _ Hm Ex)).
    assert (NE : NoDup (map fst es)) by (eapply Permutation_NoDup; [apply Permutation_map; exact HP|auto]).
    pose proof (deps_assoc kid d es ls k NE HF) as HD. rewrite <- En in HD. destruct (assoc k es) as [x|] eqn:Ea; [|congruence].
    exists ds, x. split; auto. split; [eapply Permutation_in; [symmetry; exact HP|apply assoc_In; auto]|].
    destruct x; try (destruct HD as (id & E & K); rewrite Hi in E; injection E as ->; split; [auto|discriminate]; fail).
    destruct HD as (names & -> & E). rewrite Hi in E. destruct names; [discriminate|]. injection E as ->. auto.
  Qed.
  Lemma additional_members k : ~ has_property h n k -> matching env n k = [] -> additional (pat env) m k.
  Proof.
    intros H1 H2. destruct D as (_ & DP & _ & DQ & _).
    apply (additional_link env h kid kid_fun V d m n Hm Hreg v Hv named named_fun k DP DQ). split; apply Forall_forall.
    - intros id Hi (p & E & Ep). apply H1. exists id, p. auto.
    - intros q Hq. unfold re_matches. destruct (e_re_ok env (fst q) && e_re_match env (fst q) k)%bool eqn:E; [|destruct (e_re_ok env (fst q)); auto].
      assert (I : In q (matching env n k)) by (apply filter_In; auto). rewrite H2 in I. destruct I.
  Qed.

  Theorem hands_puts id x c' : hands env h n v c id x c' -> exists y, kid id d y /\ puts (pat env) V d m c v y x c'.
  Proof.
    pose proof D as (D1 & D2 & D3 & D4 & D5 & D6 & D7 & D8 & D9 & D10 & D11 & D12 & D13 & D14 & D15 & D16 & D17 & D18 & D19 & D20 & D21 & D22 & D23 & D24 & D25 & D26 & D27 & D28 & D29 & D30 & D31).
    intros H. destruct H as [id Hi|id Hi|id Hi|i id E1 E2 Ha|i id E1 E2 Ha|o k id Ev Hk Ea|l i x id Ev Ne Ex Ec|l i x id Ev Ex Ec|o id p x Ev Hi Hp Ex|o k x p id Ev Hx Hi Ho Hmt|o k x id Ev Hx Hn Hq Ea|o k x id Ev Hx Ea].
    - destruct (schemas_in _ _ _ _ _ _ D26 Hi) as (l & x & E & Hx & K). exists x. split; auto. eapply p_branch; eauto. simpl; auto.
    - destruct (schemas_in _ _ _ _ _ _ D25 Hi) as (l & x & E & Hx & K). exists x. split; auto. eapply p_branch; eauto. simpl; auto.
    - destruct (schemas_in _ _ _ _ _ _ D27 Hi) as (l & x & E & Hx & K). exists x. split; auto. apply p_sure. eapply p_allOf; eauto.
    - rewrite E1 in D29. rewrite E2 in D30. apply gated_some in D29. apply gated_some in D30. destruct D29 as (Hg & y & Ey & Ky). destruct D30 as (_ & z & Ez & Kz). apply G7 in Hg.
      exists z. split; auto. apply p_sure; eapply p_then; eauto. eapply Hacc; eauto. eapply here_if; eauto. simpl; auto.
    - rewrite E1 in D29. rewrite E2 in D31. apply gated_some in D29. apply gated_some in D31. destruct D29 as (Hg & y & Ey & Ky). destruct D31 as (_ & z & Ez & Kz). apply G7 in Hg.
      exists z. split; auto. apply p_sure; eapply p_else; eauto. eapply Hrej; eauto. eapply here_if; eauto. simpl; auto.
    - destruct (dependency_members _ _ Ea) as (ds & x & Ed & Hx & K & Na). exists x. split; auto. subst v. apply p_sure; eapply p_dependency; eauto.
    - subst v. unfold items_ok in D7. unfold checker in Ec. destruct (assoc "items" m) as [y|] eqn:Ey.
      + assert (DEC : (exists ss, y = VArr ss) \/ (forall ss, y <> VArr ss)) by (destruct y; try (right; discriminate); eauto).
        destruct DEC as [[ss ->]|Na].
        * destruct D7 as [E7 HF]. rewrite E7 in Ec. destruct (nth_error (n_items n) i) as [j|] eqn:Ej.
          -- injection Ec as ->. destruct (Forall2_nth_r _ _ _ _ _ HF Ej) as (y & Hy & K). exists y. split; auto. apply p_sure; eapply p_item; eauto.
          -- destruct (n_additionalItems n) as [[b|j]|] eqn:Eadd; try discriminate. injection Ec as ->. destruct (addl_some _ _ _ _ _ D8) as (y & E & Nb & K).
             exists y. split; auto. apply p_sure; eapply p_additional_item; eauto. apply nth_error_None in Ej. assert (EL : length ss = length (n_items n)) by (eapply Forall2_length; eauto). lia.
        * assert (E7 : n_items_single n = true /\ exists j, n_items n = [j] /\ kid j d y) by (destruct y; auto; destruct (Na l0 eq_refl)).
          destruct E7 as (E7 & j & Ej & K). rewrite E7, Ej in Ec. injection Ec as <-. exists y. split; auto. apply p_sure; eapply p_items; eauto.
      + destruct D7 as [E7 _]. contradiction.
    - rewrite Ec in D22. apply gated_some in D22. destruct D22 as (Hg & y & Ey & K). exists y. split; auto. subst v. eapply p_contains; eauto using G6.
    - destruct (property_members _ _ Hi Hp) as (ps & y & E & Hy & K). exists y. split; auto. subst v. apply p_sure; eapply p_property; eauto. apply assoc_In; auto.
    - destruct (pattern_members _ _ Hi) as (ps & y & E & Hy & K). exists y. split; auto. subst v. apply p_sure; eapply p_pattern; eauto.
    - rewrite Ea in D3. destruct (addl_some _ _ _ _ _ D3) as (y & E & Nb & K). exists y. split; auto. pose proof (additional_members k Hn Hq) as Ha. subst v. apply p_sure; eapply p_additional; eauto.
    - rewrite Ea in D5. apply gated_some in D5. destruct D5 as (Hg & y & Ey & K). exists y. split; auto. subst v. apply p_sure; eapply p_name; eauto using G6. change k with (fst (k, x)). apply in_map; auto.
  Qed.

  Lemma accepts_rejects id r : sub env h v c id r -> if Valid r then accepts env h id v c else rejects env h id v c.
  Proof. intros H. destruct (Valid r) eqn:E; exists r; auto. Qed.
  Lemma the_number (P : Q -> Prop) : SpecWhy.number env v P -> exists q, is_num v q /\ P q.
  Proof. intros (s & q & Ev & E & HP). exists q. split; auto. exists s. split; auto. pose proof Hv as H. rewrite Ev in H. destruct (suited_num _ _ _ H) as (_ & q0 & E0 & H0). congruence. Qed.
  Lemma bound_some key xkey incl excl b : bound_ok lim d m key xkey incl excl ->
    (incl = Some b -> ~ strict d m xkey /\ exists x, assoc key m = Some x /\ is_num x b) /\
    (excl = Some b -> since6 d /\ (exists x, assoc xkey m = Some x /\ is_num x b) \/ strict d m xkey /\ exists x, assoc key m = Some x /\ is_num x b).
  Proof.
    intros (a & H1 & H2).
    assert (A : a = Some b -> exists x, assoc key m = Some x /\ is_num x b).
    { intros ->. destruct (assoc key m) as [x|] eqn:E; [|discriminate]. destruct H1 as (q & Hq & [= <-]). exists x. split; auto.
      destruct (num_keyword env m Hm _ _ _ E Hq) as (s & -> & Hs). exists s. auto. }
    destruct (assoc xkey m) as [x|] eqn:Ex.
    - destruct x as [|bb|s| | | | |]; try tauto.
      + destruct H2 as (Hd & q & -> & H2). destruct bb; destruct H2 as [-> ->].
        * split; [discriminate|]. intros [= <-]. right. split; [split; auto|auto].
        * split; [intros [= <-]; split; [intros [_ X]; congruence|auto]|discriminate].
      + destruct H2 as (Hd & -> & ->). split; [intros E; split; [intros [_ X]; congruence|auto]|]. intros E. left. split; [exact Hd|]. exists (VNum s). split; auto. exists s. split; auto.
        eapply rat_of_denotes; eauto. eapply m_number; eauto.
    - destruct H2 as [-> ->]. split; [intros E; split; [intros [_ X]; congruence|auto]|discriminate].
  Qed.
  Lemma nat_some key z : nat_ok lim m key (Some z) -> exists x, assoc key m = Some x /\ is_int x z.
  Proof. apply nat_keyword. auto. Qed.

  Theorem broken_breaks e : broken env h n v c (r_details e) (r_type e) -> breaks (pat env) (fmt env) same V d m v e.
  Proof.
    pose proof D as (D1 & D2 & D3 & D4 & D5 & D6 & D7 & D8 & D9 & D10 & D11 & D12 & D13 & D14 & D15 & D16 & D17 & D18 & D19 & D20 & D21 & D22 & D23 & D24 & D25 & D26 & D27 & D28 & D29 & D30 & D31).
    assert (TX : forall s, v = VStr s -> exists cps, text cps s /\ rune_count s = Z.of_nat (length cps)).
    { intros s ->. destruct Hv as ([S _] & _). inversion S as [| | | |? [cps Hu]| |]; subst. exists cps. split; auto. apply rune_count_text. auto. }
    assert (AP : forall (o : list (string * value)) k, assoc k o = None -> ~ In k (map fst o)) by (intros o k E I; apply assoc_present in I; auto).
    unfold broken, breaks. unfold detail. fold (told e). destruct (r_type e); try tauto.
    - (* required *) intros (o & k & -> & Hk & Ea & Ed). unfold required_ok in D18. destruct (assoc "required" m) as [x|]; [|rewrite D18 in Hk; destruct Hk].
      destruct x; try tauto. exists o, l, k. repeat split; auto. rewrite D18. apply in_map. auto.
    - (* type *) intros (Nt & _) Ht. apply Nt, type_allowed_sem. apply (type_link env h kid kid_fun V d m n Hm Hreg v Hv D1). auto.
    - (* anyOf *) intros (Ne & Hr). pose proof D26 as D26'. unfold schemas_ok in D26'. destruct (assoc "anyOf" m) as [x|] eqn:E; [|contradiction]. destruct x; try tauto.
      exists l. split; auto. intros x Hx. destruct (Forall2_in_l _ _ _ _ D26' Hx) as (id & Hid & K). eapply Hrej; eauto. eapply here_element; eauto. simpl; auto.
    - (* oneOf *) intros (Ne & rs & HF & Nc) Hs. unfold schemas_ok in D25. destruct (assoc "oneOf" m) as [x|] eqn:E; [|contradiction]. destruct x; try tauto.
      destruct (Hs _ E _ eq_refl) as (i & s & Hi & HV & U). apply Nc.
      assert (P : forall j x, nth_error l j = Some x -> exists id r, nth_error rs j = Some r /\ sub env h v c id r /\ kid id d x).
      { intros j x Hj. destruct (Forall2_nth_l _ _ _ _ _ D25 Hj) as (id & Hid & K). destruct (Forall2_nth_l _ _ _ _ _ HF Hid) as (r & Hr & S). eauto. }
      assert (PH : forall x, In x l -> part_here d m x) by (intros x Hx; eapply here_element; eauto; simpl; auto).
      destruct (P _ _ Hi) as (id & r & Hr & S & K). apply accepts_rejects in S. destruct (Valid r) eqn:Er; [|exfalso; eapply Hrej; eauto using nth_error_In].
      apply (count_one rs i r Hr Er). intros j r' Hj Er'.
      assert (Lj : j < length l). { rewrite (Forall2_length _ _ _ D25), (Forall2_length _ _ _ HF). apply nth_error_Some. congruence. }
      destruct (nth_error l j) as [x|] eqn:Ex; [|apply nth_error_None in Ex; lia]. apply (U j x Ex).
      destruct (P _ _ Ex) as (id' & r'' & Hr'' & S'' & K''). rewrite Hj in Hr''. injection Hr'' as <-. apply accepts_rejects in S''. rewrite Er' in S''. eapply Hacc; eauto using nth_error_In.
    - (* allOf *) intros (id & Hid & R). destruct (schemas_in _ _ _ _ _ _ D27 Hid) as (l & x & E & Hx & K). exists l, x. split; auto. split; auto. eapply Hrej; eauto. eapply here_element; eauto. simpl; auto.
    - (* not *) intros (id & E & A). rewrite E in D28. apply opt_some in D28. destruct D28 as (x & Ex & K). exists x. split; auto. eapply Hacc; eauto. apply here_not; auto.
    - (* dependencies *) intros (o & k & ks & k' & Ev & Hk & Ea & Hk' & En & Ed). destruct (dependency_members _ _ Ea) as (ds & x & E & Hx & ->).
      exists ds, o, k, (map VStr ks), k'. repeat split; auto. apply in_map. auto.
    - (* const *) intros (k & t & En & Et & Nt & _) Hs. apply Nt. apply (const_link env h kid kid_fun V d m n Hm Hreg v Hv D23) in Hs. rewrite En in Hs. congruence.
    - (* enum *) intros (t & Ne & Et & Nt & _) Hs. apply (enum_link env h kid kid_fun V d m n Hm Hreg v Hv D24) in Hs. destruct Hs as [Hs|Hs]; [contradiction|].
      apply Exists_exists in Hs. destruct Hs as (k & Hk & Ek). apply Nt. congruence.
    - (* additionalItems *) intros (l & Ev & Ne & Es & Ea & Hl). rewrite Ea in D8. apply addl_bool in D8. unfold items_ok in D7.
      destruct (assoc "items" m) as [x|] eqn:E; [|destruct D7; contradiction]. destruct x; try (destruct D7; congruence). destruct D7 as [_ HF].
      exists l, l0. repeat split; auto. rewrite (Forall2_length _ _ _ HF). auto.
    - intros (l & k & Ev & E & Hlt & Ed). rewrite E in D19. destruct (nat_some _ _ D19) as (x & Ex & Ix). exists l. split; auto. exists x, k. auto.
    - intros (l & k & Ev & E & Hlt & Ed). rewrite E in D20. destruct (nat_some _ _ D20) as (x & Ex & Ix). exists l. split; auto. exists x, k. auto.
    - (* unique *) intros (l & i & j & x & y & t & Ev & Eu & Hij & Hi & Hj & Mx & My & _ & E1 & E2). unfold unique_ok in D21.
      destruct (assoc "uniqueItems" m) as [z|] eqn:E; [|congruence]. destruct z; try tauto. rewrite D21 in Eu. rewrite Eu in E. clear D21.
      exists l, i, j, x, y. repeat split; auto; [congruence|].
      assert (Ho : ordinary lim (VArr l)) by (rewrite <- Ev; destruct Hv as (Q1 & Q2 & Q3); split; [auto|split; auto]; apply Q2; right; right; exact E).
      destruct (ordinary_arr _ _ _ Ho (nth_error_In _ _ Hi)) as ([S1 _] & R1 & _). destruct (ordinary_arr _ _ _ Ho (nth_error_In _ _ Hj)) as ([S2 _] & R2 & _).
      assert (EQ : marshalWithoutNumber x = marshalWithoutNumber y) by congruence. apply mwn_equal in EQ; auto.
    - (* contains *) intros (l & id & Ev & E & Hr). rewrite E in D22. apply gated_some in D22. destruct D22 as (Hg & x & Ex & K). apply G6 in Hg. split; auto. exists l, x. split; auto. split; auto.
      intros y Hy. destruct (In_nth_error _ _ Hy) as (i & Hi). eapply Hrej_item; eauto. apply item_contains; auto.
    - intros (o & k & Ev & E & Hlt & Ed). rewrite E in D16. destruct (nat_some _ _ D16) as (x & Ex & Ix). exists o. split; auto. exists x, k. auto.
    - intros (o & k & Ev & E & Hlt & Ed). rewrite E in D17. destruct (nat_some _ _ D17) as (x & Ex & Ix). exists o. split; auto. exists x, k. auto.
    - (* propertyNames *) intros (o & k & id & Ev & Hk & E & R & Ed). rewrite E in D5. apply gated_some in D5. destruct D5 as (Hg & x & Ex & K). apply G6 in Hg. split; auto.
      exists o, x, k. repeat split; auto. eapply Hrej_name; eauto. split; auto.
    - intros (s & k & Ev & E & Hlt & Ed). rewrite E in D12. destruct (nat_some _ _ D12) as (x & Ex & Ix). destruct (TX _ Ev) as (cps & Ht & Er). exists s, cps. split; auto. split; auto. exists x, k. repeat split; auto. lia.
    - intros (s & k & Ev & E & Hlt & Ed). rewrite E in D13. destruct (nat_some _ _ D13) as (x & Ex & Ix). destruct (TX _ Ev) as (cps & Ht & Er). exists s, cps. split; auto. split; auto. exists x, k. repeat split; auto. lia.
    - (* pattern *) intros (s & p & Ev & E & Hf & Ed). unfold pattern_ok in D14. destruct (assoc "pattern" m) as [x|] eqn:Ex; [|congruence]. destruct x; try tauto. destruct D14 as [_ Ep].
      exists s, p. repeat split; auto; [congruence|]. unfold pat. congruence.
    - (* format *) intros (Nf & Hf & Ed). unfold format_ok in D15. destruct (assoc "format" m) as [x|] eqn:Ex; [|contradiction]. destruct x; try tauto. rewrite D15 in *.
      exists s. split; auto. split; auto. unfold fmt. intros [X|X]; congruence.
    - (* multipleOf *) intros (b & E & Ed & Hn). apply the_number in Hn. destruct Hn as (q & Hq & _ & Hn). unfold mult_ok in D9. destruct (assoc "multipleOf" m) as [x|] eqn:Ex; [|congruence].
      destruct D9 as (b' & Eb & Hb & _). assert (b' = b) by congruence. subst b'. destruct (num_keyword env m Hm _ _ _ Ex Hb) as (t & -> & Ht).
      exists (VNum t), b, q. repeat split; auto. exists t; auto.
    - intros (b & E & Ed & Hn). apply the_number in Hn. destruct Hn as (q & Hq & Hn). destruct (bound_some _ _ _ _ b D10) as [A _]. destruct (A E) as (Ns & x & Ex & Ix). split; [exact Ns|]. exists x, b, q. auto.
    - intros (b & E & Ed & Hn). apply the_number in Hn. destruct Hn as (q & Hq & Hn). destruct (bound_some _ _ _ _ b D10) as [_ A].
      destruct (A E) as [(Hs & x & Ex & Ix)|(Hs & x & Ex & Ix)]; [left|right]; (split; [exact Hs|]); exists x, b, q; auto.
    - intros (b & E & Ed & Hn). apply the_number in Hn. destruct Hn as (q & Hq & Hn). destruct (bound_some _ _ _ _ b D11) as [A _]. destruct (A E) as (Ns & x & Ex & Ix). split; [exact Ns|]. exists x, b, q. auto.
    - intros (b & E & Ed & Hn). apply the_number in Hn. destruct Hn as (q & Hq & Hn). destruct (bound_some _ _ _ _ b D11) as [_ A].
      destruct (A E) as [(Hs & x & Ex & Ix)|(Hs & x & Ex & Ix)]; [left|right]; (split; [exact Hs|]); exists x, b, q; auto.
    - (* then *) intros (i & id & E1 & E2 & A & R). rewrite E1 in D29. rewrite E2 in D30. apply gated_some in D29. apply gated_some in D30. destruct D29 as (Hg & y & Ey & Ky). destruct D30 as (_ & z & Ez & Kz). apply G7 in Hg.
      split; auto. exists y, z. repeat split; auto; [eapply Hacc|eapply Hrej]; eauto; eapply here_if; eauto; simpl; auto.
    - (* else *) intros (i & id & E1 & E2 & A & R). rewrite E1 in D29. rewrite E2 in D31. apply gated_some in D29. apply gated_some in D31. destruct D29 as (Hg & y & Ey & Ky). destruct D31 as (_ & z & Ez & Kz). apply G7 in Hg.
      split; auto. exists y, z. repeat split; auto; eapply Hrej; eauto; eapply here_if; eauto; simpl; auto.
  Qed.
End Link.

Lemma sure_asks T pat V d m c v x w c' : sure pat V d m c v x w c' -> (forall r, assoc "$ref" m <> Some (VStr r)) -> asks T d (VMap m) v d x w.
Proof.
  intros H Nr. destruct H as [l x v E Hx|i x v Hd Ei Hi E|i x v Hd Ei Hi E|ds o k x E Hx Na Hk|x l i e E Na He|ss x l i e E Hs He|ss x l i e Es E Nb Hl He|ps o k x e E Hx He|ps o p x k e E Hx Hp He|o x k e E Nb Ha He|o x k Hd E Hk].
  - apply ask_here; auto. eapply here_element; eauto. simpl; auto.
  - apply ask_here; auto. eapply here_if; eauto. simpl; auto.
  - apply ask_here; auto. eapply here_if; eauto. simpl; auto.
  - apply ask_here; auto. eapply here_dependency; eauto.
  - apply ask_item; eauto using nth_error_In. eapply item_value; eauto. simpl; auto.
  - apply ask_item; eauto using nth_error_In. eapply item_element; eauto using nth_error_In.
  - apply ask_item; eauto using nth_error_In. eapply item_value; eauto. simpl; auto.
  - eapply ask_prop; eauto. eapply prop_member; eauto. simpl; auto.
  - eapply ask_prop; eauto. eapply prop_member; eauto. simpl; auto.
  - eapply ask_prop; eauto. eapply prop_value; eauto.
  - apply ask_name; auto. split; auto.
Qed.
Lemma puts_asks T pat V d m c v x w c' : puts pat V d m c v x w c' -> (forall r, assoc "$ref" m <> Some (VStr r)) -> asks T d (VMap m) v d x w.
Proof.
  intros H Nr. destruct H as [v x w c' H|k l x v Hk E Hx|x l i e Hd E He].
  - eapply sure_asks; eauto.
  - apply ask_here; auto. eapply here_element; eauto. simpl in *. tauto.
  - apply ask_item; eauto using nth_error_In. eapply item_contains; eauto.
Qed.
Lemma sure_usual lim pat V d m c v x w c' : sure pat V d m c v x w c' -> usual lim v -> usual lim w.
Proof.
  intros H Hv. destruct H; auto; try (eapply usual_arr; eauto using nth_error_In; fail); try (eapply usual_map; eauto; fail).
  apply in_map_iff in H1. destruct H1 as ([k' e] & <- & Hk). eapply usual_map; eauto.
Qed.
Lemma puts_usual lim pat V d m c v x w c' : puts pat V d m c v x w c' -> usual lim v -> usual lim w.
Proof. intros H Hv. destruct H; auto; [eapply sure_usual; eauto|eapply usual_arr; eauto using nth_error_In]. Qed.

Section Paths.
  Variable step : draft -> list (string * value) -> ctx -> value -> value -> value -> ctx -> Prop.
  Hypothesis Hask : forall T d m c v x w c', step d m c v x w c' -> (forall r, assoc "$ref" m <> Some (VStr r)) -> asks T d (VMap m) v d x w.
  Lemma path_needed T d0 x0 v0 d x v c : path T step d0 x0 v0 d x v c -> needed T d0 x0 v0 d x v.
  Proof.
    induction 1 as [|d m v c r d' x H IH Er HT|d m v c x w c' H IH Nr HP]; [constructor| |].
    - eapply needed_step; [exact IH|]. eapply ask_ref; eauto.
    - eapply needed_step; [exact IH|]. eapply Hask; eauto.
  Qed.
  Lemma path_refs (T T' : string -> draft -> value -> Prop) d0 x0 v0 :
    (forall d m w t, needed T d0 x0 v0 d (VMap m) w -> assoc "$ref" m = Some (VStr t) -> forall d' x, T t d' x -> T' t d' x) ->
    forall d x v c, path T step d0 x0 v0 d x v c -> path T' step d0 x0 v0 d x v c.
  Proof.
    intros HT. induction 1 as [|d m v c r d' x H IH Er Hr|d m v c x w c' H IH Nr HP]; [constructor| |].
    - eapply path_ref; eauto. eapply HT; eauto. eapply path_needed; eauto.
    - eapply path_part; eauto.
  Qed.
End Paths.
Lemma put_needed pat V T d0 x0 v0 d x v c : put pat V T d0 x0 v0 d x v c -> needed T d0 x0 v0 d x v.
Proof. apply path_needed. intros. eapply puts_asks; eauto. Qed.
Lemma must_needed pat V T d0 x0 v0 d x v c : must pat V T d0 x0 v0 d x v c -> needed T d0 x0 v0 d x v.
Proof. apply path_needed. intros T' d' m c' w y z c2 [_ H]. eapply sure_asks; eauto. Qed.

(** ** From a compiled heap to its documents *)
Section Heap.
  Variable ce : cenv.
  Notation env := (c_go ce).
  Notation lim := (e_ratlim env).
  Variable pd : policy.
  Variable s : cstate.
  Hypothesis W : wf ce pd s.
  Hypothesis C : forall j, j < length (st_heap s) -> cell ce s j.
  Variables (d0 : draft) (x0 v0 : value).
  Notation T := (target ce s).
  Notation need := (needed T d0 x0 v0).
  Hypothesis ORD : usual lim v0.
  Hypothesis REG : forall d m v, need d (VMap m) v -> assoc "$ref" m = None -> fits lim m v.
  Variable V : draft -> value -> value -> Prop.
  Hypothesis EQ : meaning_at (pat env) (fmt env) same T d0 x0 v0 V.
  Notation putting := (put (pat env) V T d0 x0 v0).

  Lemma sub_link id d x v c r : kid s id d x -> need d x v -> usual lim v -> sub env (st_heap s) v c id r -> (Valid r = true <-> V d x v).
  Proof.
    intros K R Hv (k & o & F & E). assert (VE : Valid r = true <-> errors r = []) by (unfold Valid; destruct (errors r); split; congruence).
    rewrite VE, <- (cell_sem_iff (kid s) (kid_fun s) V id d x v K).
    eapply (validateRecursive_sem_on env (st_heap s) (cell_sem (kid s) V)
              (fun id v => (exists d x, kid s id d x /\ need d x v) /\ usual lim v)); eauto.
    - intros i n w En ((d' & x' & Kx & R') & Hw). split; [eapply usual_shape; eauto|]. eapply (cell_link ce pd s W C); eauto.
    - intros i n w i' w' En ((d' & x' & Kx & R') & Hw) St. eapply (steps_link ce pd s W C); eauto.
  Qed.
  Lemma accepts_link id d x v c : kid s id d x -> need d x v -> usual lim v -> accepts env (st_heap s) id v c -> V d x v.
  Proof. intros K R Hv (r & S & E). eapply sub_link; eauto. Qed.
  Lemma rejects_link id d x v c : kid s id d x -> need d x v -> usual lim v -> rejects env (st_heap s) id v c -> ~ V d x v.
  Proof. intros K R Hv (r & S & E) H. eapply sub_link in H; eauto. congruence. Qed.

  (** A check of a cell is a check against the schema it was made from. *)
  Definition stands (q : check) : Prop :=
    exists d x, kid s (fst (fst q)) d x /\ putting d x (snd (fst q)) (snd q) /\ usual lim (snd (fst q)).

  Section At.
    Variables (id : nat) (n : node) (d : draft) (m : list (string * value)) (v : value) (c : ctx).
    Hypothesis En : nth_error (st_heap s) id = Some n.
    Hypothesis K : kid s id d (VMap m).
    Hypothesis P : putting d (VMap m) v c.
    Hypothesis U : usual lim v.
    Hypothesis Nr : assoc "$ref" m = None.
    Hypothesis D : describes lim (e_re_ok env) (kid s) (named s) d m n.
    Lemma at_need : need d (VMap m) v.
    Proof. eapply put_needed; eauto. Qed.
    Lemma at_none r : assoc "$ref" m <> Some (VStr r).
    Proof. rewrite Nr. discriminate. Qed.
    Lemma at_doc : doc_ok (VMap m).
    Proof. apply W in K. apply K. Qed.
    Lemma at_regular : regular lim m.
    Proof. apply (REG d m v at_need Nr). Qed.
    Lemma at_suited : suited lim m v.
    Proof. apply suited_iff. split; auto. apply (REG d m v at_need Nr). Qed.
    Lemma at_named i k : named s i k <-> name_of (st_heap s) i k.
    Proof. reflexivity. Qed.
    Lemma at_here x : part_here d m x -> need d x v.
    Proof. intros H. eapply needed_step; [exact at_need|]. apply ask_here; auto. apply at_none. Qed.
    Lemma at_acc i x : kid s i d x -> part_here d m x -> accepts env (st_heap s) i v c -> V d x v.
    Proof. intros Kx H. eapply accepts_link; eauto. apply at_here; auto. Qed.
    Lemma at_rej i x : kid s i d x -> part_here d m x -> rejects env (st_heap s) i v c -> ~ V d x v.
    Proof. intros Kx H. eapply rejects_link; eauto. apply at_here; auto. Qed.
    Lemma at_item l i e j x : v = VArr l -> nth_error l i = Some e -> kid s j d x -> part_item d m x ->
      rejects env (st_heap s) j e (itoa (Z.of_nat i) :: c) -> ~ V d x e.
    Proof.
      intros Ev Ei Kx H. pose proof at_need as N. pose proof U as U'. rewrite Ev in N, U'. eapply rejects_link; eauto.
      - eapply needed_step; [exact N|]. apply ask_item; eauto using nth_error_In. apply at_none.
      - eapply usual_arr; eauto using nth_error_In.
    Qed.
    Lemma at_name o k j x : v = VMap o -> In k (map fst o) -> kid s j d x -> part_name d m x -> rejects env (st_heap s) j (VStr k) c -> ~ V d x (VStr k).
    Proof.
      intros Ev Ei Kx H. pose proof at_need as N. pose proof U as U'. rewrite Ev in N, U'. eapply rejects_link; eauto.
      - eapply needed_step; [exact N|]. apply ask_name; auto. apply at_none.
      - apply in_map_iff in Ei. destruct Ei as ([k' e] & <- & Hk). eapply usual_map; eauto.
    Qed.
    Lemma at_hands i w c' : hands env (st_heap s) n v c i w c' -> stands (i, w, c').
    Proof.
      intros H. apply (hands_puts env (st_heap s) (kid s) (kid_fun s) (named s) at_named V d m n v c at_doc at_regular at_suited D at_acc at_rej at_item at_name) in H.
      destruct H as (y & Ky & Hp). exists d, y. split; auto. split; [eapply path_part; eauto; apply at_none|eapply puts_usual; eauto].
    Qed.
    Lemma at_broken e : broken env (st_heap s) n v c (r_details e) (r_type e) -> breaks (pat env) (fmt env) same V d m v e.
    Proof. apply (broken_breaks env (st_heap s) (kid s) (kid_fun s) (named s) at_named V d m n v c at_doc at_regular at_suited D at_acc at_rej at_item at_name). Qed.
    Lemma at_additional k : ~ has_property (st_heap s) n k -> matching env n k = [] -> additional (pat env) m k.
    Proof. apply (additional_members env (st_heap s) (kid s) (kid_fun s) (named s) at_named V d m n v at_doc at_regular at_suited D). Qed.
  End At.

  Lemma leads_stands q q' : leads env (st_heap s) q q' -> stands q -> stands q'.
  Proof.
    intros H (d & x & K & P & U). destruct H as [id n v c t En Ep Er|id n v c id' w c' En Ep Er H|id n m c w En Ep Er H]; cbn [fst snd] in *.
    - destruct (kid_cell ce pd s W C id d x K) as (n' & En' & F). assert (n' = n) by congruence. subst n'. destruct F as [_ F].
      destruct x as [|b| | | | |m|]; try tauto; [destruct F; congruence|]. destruct F as [_ F]. destruct (assoc "$ref" m) as [y|] eqn:Em.
      + destruct y as [| | | |k| | |]; try tauto. destruct F as (r & rid & Hu & Ha & E). assert (rid = t) by congruence. subst rid.
        destruct W as (_ & _ & _ & WR). destruct (WR _ _ Ha) as (d' & x' & K' & _). exists d', x'. cbn. split; auto. split; auto. eapply path_ref; eauto. exists r, t. auto.
      + destruct F; congruence.
    - destruct (kid_cell ce pd s W C id d x K) as (n' & En' & F). assert (n' = n) by congruence. subst n'. destruct F as [_ F].
      destruct x as [|b| | | | |m|]; try tauto; [destruct F; congruence|]. destruct F as [_ F]. destruct (assoc "$ref" m) as [y|] eqn:Em.
      + destruct y as [| | | |k| | |]; try tauto. destruct F as (r & rid & _ & _ & E). congruence.
      + destruct F as [_ F]. eapply (at_hands id n d m v c); eauto.
    - destruct U as [[_ U] _]. discriminate U.
  Qed.

  (** The reason of an error, read in the documents. *)
  Theorem why_justified id e : kid s id d0 x0 -> why env (st_heap s) (id, v0, ["(root)"]) e ->
    justified (pat env) (fmt env) same V T d0 x0 v0 e.
  Proof.
    intros K (i & v & c & A & O).
    assert (S : stands (i, v, c)).
    { assert (S0 : stands (id, v0, ["(root)"])) by (exists d0, x0; split; auto; split; [constructor|auto]).
      apply clos_rt_rt1n in A. revert S0. induction A; auto. intros S0. apply IHA; auto. eapply leads_stands; eauto. }
    destruct S as (d & x & Kx & P & U). cbn [fst snd] in *. exists d, x, v, c. split; auto.
    destruct O as (n & En & Ec & O). split; auto.
    destruct (kid_cell ce pd s W C i d x Kx) as (n' & En' & F). assert (n' = n) by congruence. subst n'. destruct F as [_ F].
    destruct O as [(Ep & Et & Ev)|[(Ep & Er & Ev & B)|(Ep & Er & Et & o & k & Ev & Hk & Ea & H1 & H2 & Hd)]].
    - split; auto. left. split; auto. destruct x as [|b| | | | |m|]; try tauto; [destruct F; congruence|]. destruct F; congruence.
    - split; auto. right. destruct x as [|b| | | | |m|]; try tauto; [destruct F; congruence|]. destruct F as [_ F]. destruct (assoc "$ref" m) as [y|] eqn:Em.
      + destruct y as [| | | |k| | |]; try tauto. destruct F as (r & rid & _ & _ & E). congruence.
      + destruct F as [_ F]. exists m. split; auto. split; auto. eapply at_broken; eauto.
    - split; [congruence|]. right. destruct x as [|b| | | | |m|]; try tauto; [destruct F; congruence|]. destruct F as [_ F]. destruct (assoc "$ref" m) as [y|] eqn:Em.
      + destruct y as [| | | |t| | |]; try tauto. destruct F as (r & rid & _ & _ & E). congruence.
      + destruct F as [_ F]. exists m. split; auto. split; auto. unfold breaks. rewrite Et. exists o, k. split; auto.
        pose proof F as (_ & _ & D3 & _). rewrite Ea in D3. apply addl_bool in D3. split; auto. split; auto. split; auto. eapply at_additional; eauto.
  Qed.
End Heap.
