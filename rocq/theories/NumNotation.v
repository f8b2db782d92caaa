(** The meaning of a schema does not depend on how numbers are written. *)
From Verif Require Export Meaning CompileSem.
From Coq Require Import Lia.
Open Scope nat_scope.

Section Invariance.
  (** When two number literals are exchangeable. *)
  Variable eqn : value -> value -> Prop.
  Hypothesis eqn_sym : forall x y, eqn x y -> eqn y x.
  Hypothesis eqn_value : forall x y, eqn x y -> same_value x y.
  Notation R := (equal eqn).

  Lemma same_value_num x y : same_value x y -> exists s t, x = VNum s /\ y = VNum t.
  Proof. intros (s & t & _ & _ & -> & -> & _). eauto. Qed.
  Lemma same_value_is_num x y q : same_value x y -> is_num y q -> is_num x q.
  Proof.
    intros (s & t & p & r & -> & -> & Hp & Hr & E) (u & [= <-] & Hq). exists s. split; auto.
    eapply denotes_ext; [exact Hp|]. rewrite E. eapply denotes_unique; eauto.
  Qed.

  Lemma R_nil v : R v VNil -> v = VNil.
  Proof. intros H. inversion H; subst; auto. apply eqn_value, same_value_num in H0. destruct H0 as (? & ? & _ & ?). discriminate. Qed.
  Lemma R_bool v b : R v (VBool b) -> v = VBool b.
  Proof. intros H. inversion H; subst; auto. apply eqn_value, same_value_num in H0. destruct H0 as (? & ? & _ & ?). discriminate. Qed.
  Lemma R_str v s : R v (VStr s) -> v = VStr s.
  Proof. intros H. inversion H; subst; auto. apply eqn_value, same_value_num in H0. destruct H0 as (? & ? & _ & ?). discriminate. Qed.
  Lemma R_num v t : R v (VNum t) -> eqn v (VNum t).
  Proof. intros H. inversion H; subst; auto. Qed.
  Lemma R_is_num v v' q : R v v' -> is_num v' q -> is_num v q.
  Proof. intros H Q. pose proof Q as (t & -> & _). apply R_num in H. eapply same_value_is_num; eauto. Qed.
  Lemma R_arr v l' : R v (VArr l') -> exists l, v = VArr l /\ Forall2 R l l'.
  Proof. intros H. inversion H; subst; eauto. apply eqn_value, same_value_num in H0. destruct H0 as (? & ? & _ & ?). discriminate. Qed.
  Lemma R_map v o' : R v (VMap o') -> exists o, v = VMap o /\ (forall k, assoc k o = None <-> assoc k o' = None) /\
    (forall k x y, assoc k o = Some x -> assoc k o' = Some y -> R x y).
  Proof. intros H. inversion H; subst; eauto. apply eqn_value, same_value_num in H0. destruct H0 as (? & ? & _ & ?). discriminate. Qed.

  Lemma R_keys (o o' : list (string * value)) k : (forall k, assoc k o = None <-> assoc k o' = None) -> In k (map fst o') -> In k (map fst o).
  Proof. intros H Hk. apply assoc_present in Hk. apply assoc_present. specialize (H k). tauto. Qed.
  Lemma R_member o o' k e' : NoDup (map fst o) -> NoDup (map fst o') -> (forall k, assoc k o = None <-> assoc k o' = None) ->
    (forall k x y, assoc k o = Some x -> assoc k o' = Some y -> R x y) -> In (k, e') o' -> exists e, In (k, e) o /\ R e e'.
  Proof.
    intros N N' HK HV Hi. apply (assoc_NoDup _ _ _ N') in Hi. destruct (assoc k o) as [e|] eqn:E.
    - exists e. split; [apply assoc_In; auto|eauto].
    - apply HK in E. congruence.
  Qed.
  Lemma R_length (o o' : list (string * value)) : NoDup (map fst o) -> NoDup (map fst o') -> (forall k, assoc k o = None <-> assoc k o' = None) -> length o = length o'.
  Proof.
    intros N N' HK. rewrite <- (map_length fst o), <- (map_length fst o'). apply Permutation_length, NoDup_Permutation; auto.
    intros k. rewrite <- !assoc_present. specialize (HK k). tauto.
  Qed.

  Lemma R_sym v : forall v', R v v' -> R v' v.
  Proof.
    intros v'. revert v. induction v' as [v' IH] using (well_founded_induction (Wf_nat.well_founded_ltof _ weight)). unfold Wf_nat.ltof in IH.
    intros v H. inversion H as [|b|s|x y E|l l' F|m m' HK HV]; subst; try (constructor; auto; fail).
    - apply equal_arr. clear H. assert (G : forall x, In x l' -> weight x < weight (VArr l')) by (intros x; apply weight_arr).
      assert (IH' : forall y, In y l' -> forall x, R x y -> R y x) by (intros y Hy; apply IH; auto). clear IH G.
      induction F; constructor; [apply IH'; simpl; auto|apply IHF; intros; apply IH'; simpl; auto].
    - apply equal_obj; [intros k; symmetry; auto|]. intros k x y Ex Ey. apply IH; [|eauto]. apply assoc_In in Ex. apply weight_map in Ex. lia.
  Qed.

  Variable pat : string -> string -> Prop.
  Variable fmt : string -> value -> Prop.
  Variable same : value -> value -> Prop.
  Variable T : string -> draft -> value -> Prop.
  Hypothesis fmt_notation : forall f v v', R v v' -> doc_ok v -> doc_ok v' -> fmt f v -> fmt f v'.

  Definition comparable (v v' : value) : Prop :=
    (forall x, same v x -> same v' x) /\
    forall l l', v = VArr l -> v' = VArr l' -> forall i j a b a' b',
      nth_error l i = Some a -> nth_error l j = Some b -> nth_error l' i = Some a' -> nth_error l' j = Some b' -> same a' b' -> same a b.

  Lemma has_type_notation t v v' : R v v' -> has_type t v -> has_type t v'.
  Proof.
    intros H. apply R_sym in H. unfold has_type, is_int.
    intros [[-> ->]|[[-> [b ->]]|[[-> [q Q]]|[[-> [n Q]]|[[-> [s ->]]|[[-> [l ->]]|[-> [m ->]]]]]]]].
    - left. split; auto. apply R_nil; auto.
    - right; left. split; auto. exists b. apply R_bool; auto.
    - do 2 right; left. split; auto. exists q. eapply R_is_num; eauto.
    - do 3 right; left. split; auto. exists n. eapply R_is_num; eauto.
    - do 4 right; left. split; auto. exists s. apply R_str; auto.
    - do 5 right; left. split; auto. apply R_arr in H. destruct H as (l' & -> & _). eauto.
    - do 6 right. split; auto. apply R_map in H. destruct H as (l' & -> & _). eauto.
  Qed.

  Lemma keywords_notation V d m v v' : R v v' -> doc_ok v -> doc_ok v' ->
    (forall r, assoc "$ref" m <> Some (VStr r)) ->
    (compares m -> comparable v v') ->
    (forall d' s' u u', asks T d (VMap m) v d' s' u -> asks T d (VMap m) v' d' s' u' -> R u u' -> (V d' s' u <-> V d' s' u')) ->
    keywords pat fmt same V d m v -> keywords pat fmt same V d m v'.
  Proof.
    intros Rv Dv Dv' Nr HC HA.
    assert (HH : forall x, part_here d m x -> (V d x v <-> V d x v')) by (intros x P; apply HA; auto; apply ask_here; auto).
    assert (HI : forall l l' x e e', v = VArr l -> v' = VArr l' -> part_item d m x -> In e l -> In e' l' -> R e e' -> (V d x e <-> V d x e')).
    { intros l l' x e e' -> -> P He He' Re. apply HA; auto; apply ask_item; auto. }
    assert (HP : forall o o' x k k' e e', v = VMap o -> v' = VMap o' -> part_prop m x -> In (k, e) o -> In (k', e') o' -> R e e' -> (V d x e <-> V d x e')).
    { intros o o' x k k' e e' -> -> P He He' Re. apply HA; auto; eapply ask_prop; eauto. }
    assert (HO : forall o', v' = VMap o' -> exists o, v = VMap o /\ NoDup (map fst o) /\ NoDup (map fst o') /\
                  (forall k, assoc k o = None <-> assoc k o' = None) /\ (forall k x y, assoc k o = Some x -> assoc k o' = Some y -> R x y)).
    { intros o' ->. destruct (R_map _ _ Rv) as (o & -> & HK & HV). exists o. apply doc_ok_map in Dv. apply doc_ok_map in Dv'. tauto. }
    assert (HL : forall l', v' = VArr l' -> exists l, v = VArr l /\ Forall2 R l l').
    { intros l' ->. apply R_arr. auto. }
    assert (HQ : forall q, is_num v' q -> is_num v q) by (intros; eapply R_is_num; eauto).
    assert (HS : forall s, v' = VStr s -> v = VStr s) by (intros s ->; apply R_str; auto).
    unfold keywords. intros (K1 & K2 & K3 & K4 & K5 & K6 & K7 & K8 & K9 & K10 & K11 & K12 & K13 & K14 & K15 & K16 & K17 & K18 & K19 & K20 & K21 & K22 & K23 & K24 & K25 & K26 & K27 & K28 & K29 & K30 & K31).
    repeat match goal with |- _ /\ _ => apply conj end.
    - intros x E. destruct (K1 x E) as [A B]. split; [intros t Et; eapply has_type_notation; eauto|]. intros ts Et. destruct (B ts Et) as (t & Ht & Hv). exists t. split; auto. eapply has_type_notation; eauto.
    - intros S x E. assert (Q : compares m) by (left; congruence). apply (HC Q). apply K2; auto.
    - intros x E l El. destruct (K3 x E l El) as (e & He & Hs). exists e. split; auto. assert (Q : compares m) by (right; left; congruence). apply (HC Q). auto.
    - intros x E f Ef. eapply fmt_notation; eauto.
    - intros x E l -> s Hs. apply HH; [eapply here_element; [|exact E|exact Hs]; simpl; auto|]. eapply K5; eauto.
    - intros x E l ->. destruct (K6 _ E _ eq_refl) as (s & Hs & Hv). exists s. split; auto. apply HH; auto. eapply here_element; [|exact E|exact Hs]; simpl; auto.
    - intros x E l ->. destruct (K7 _ E _ eq_refl) as (i & s & Hi & Hv & Hu).
      assert (G : forall s, In s l -> (V d s v <-> V d s v')) by (intros s0 H0; apply HH; eapply here_element; [|exact E|exact H0]; simpl; auto).
      exists i, s. split; auto. split; [apply G; eauto using nth_error_In|]. intros j s' Hj Hv'. apply (Hu j s' Hj). apply G; eauto using nth_error_In.
    - intros x E Hx. apply (K8 x E). apply HH; auto. apply here_not; auto.
    - intros S7 x E. destruct (K9 S7 x E) as [A B].
      assert (G : forall k y, In k ["if"; "then"; "else"] -> assoc k m = Some y -> (V d y v <-> V d y v')) by (intros; apply HH; eapply here_if; eauto).
      assert (Gx : V d x v <-> V d x v') by (eapply G; [|exact E]; simpl; auto).
      split; intros Hx y Ey; (eapply G; [|exact Ey|]); simpl; auto; [apply A; tauto|apply B; tauto].
    - intros x E q b Hq Hb. apply (K10 x E q b); auto.
    - intros x E q b Hq Hb. apply (K11 x E q b); auto.
    - intros x E q b Hq Hb. apply (K12 x E q b); auto.
    - intros S x E q b Hq Hb. apply (K13 S x E q b); auto.
    - intros S x E q b Hq Hb. apply (K14 S x E q b); auto.
    - intros x E n s cps Hn Es Ht. eapply (K15 x E n s cps); auto.
    - intros x E n s cps Hn Es Ht. eapply (K16 x E n s cps); auto.
    - intros x E p s Hp Es. eapply (K17 x E p s); auto.
    - intros x E l' El'. destruct (HL _ El') as (l & El & HF). destruct (K18 x E l El) as [A B]. split.
      + intros ss -> i s e' Hi He'. destruct (Forall2_nth_r _ _ _ _ _ HF He') as (e & He & Re).
        eapply (HI l l' s e e'); eauto using nth_error_In. eapply item_element; eauto using nth_error_In.
      + intros Hx e' He'. destruct (Forall2_in_r _ _ _ _ HF He') as (e & He & Re). eapply (HI l l' x e e'); eauto. eapply item_value; [|exact E]. simpl; auto.
    - intros x E l' ss El' Es e' He'. destruct (HL _ El') as (l & El & HF).
      assert (HF' : Forall2 R (skipn (length ss) l) (skipn (length ss) l')).
      { clear - HF. revert l l' HF. induction (length ss) as [|n IH]; intros; auto. destruct HF; simpl; auto. }
      destruct (Forall2_in_r _ _ _ _ HF' He') as (e & He & Re). destruct (K19 x E l ss El Es e He) as [A B]. split; auto. intros Hb.
      assert (SK : forall (l : list value) n e, In e (skipn n l) -> In e l) by (intros l0 n0 e0 H0; rewrite <- (firstn_skipn n0 l0); apply in_or_app; auto).
      eapply (HI l l' x e e'); eauto. eapply item_value; [|exact E]. simpl; auto.
    - intros x E n l' Hn El'. destruct (HL _ El') as (l & El & HF). rewrite <- (Forall2_length _ _ _ HF). eapply K20; eauto.
    - intros x E n l' Hn El'. destruct (HL _ El') as (l & El & HF). rewrite <- (Forall2_length _ _ _ HF). eapply K21; eauto.
    - intros x E l' -> El' i j a' b' Hij Ha' Hb' Hs. destruct (HL _ El') as (l & El & HF).
      destruct (Forall2_nth_r _ _ _ _ _ HF Ha') as (a & Ha & _). destruct (Forall2_nth_r _ _ _ _ _ HF Hb') as (b & Hb & _).
      apply (K22 _ E l eq_refl El i j a b Hij Ha Hb). destruct (HC (or_intror (or_intror E))) as [_ Q]. eapply (Q l l' El El' i j); eauto.
    - intros S x E l' El'. destruct (HL _ El') as (l & El & HF). destruct (K23 S x E l El) as (e & He & Hv).
      destruct (Forall2_in_l _ _ _ _ HF He) as (e' & He' & Re). exists e'. split; auto. eapply (HI l l' x e e'); eauto. eapply item_contains; eauto.
    - intros x E n o' Hn Eo'. destruct (HO _ Eo') as (o & Eo & N & N' & HK & HV). rewrite <- (R_length o o' N N' HK). eapply K24; eauto.
    - intros x E n o' Hn Eo'. destruct (HO _ Eo') as (o & Eo & N & N' & HK & HV). rewrite <- (R_length o o' N N' HK). eapply K25; eauto.
    - intros x E ks o' Ek Eo' k Hk. destruct (HO _ Eo') as (o & Eo & N & N' & HK & HV). apply (R_keys o' o); [intros; symmetry; auto|]. eapply K26; eauto.
    - intros x E ps o' -> Eo' k s e' Hs He'. destruct (HO _ Eo') as (o & Eo & N & N' & HK & HV). destruct (R_member o o' k e' N N' HK HV He') as (e & He & Re).
      eapply (HP o o' s k k e e'); eauto. eapply prop_member; [|exact E|exact Hs]; simpl; auto.
    - intros x E ps o' -> Eo' p s k e' Hs He' Hp. destruct (HO _ Eo') as (o & Eo & N & N' & HK & HV). destruct (R_member o o' k e' N N' HK HV He') as (e & He & Re).
      eapply (HP o o' s k k e e'); eauto. eapply prop_member; [|exact E|exact Hs]; simpl; auto.
    - intros x E o' Eo' k e' He' Ha. destruct (HO _ Eo') as (o & Eo & N & N' & HK & HV). destruct (R_member o o' k e' N N' HK HV He') as (e & He & Re).
      destruct (K29 x E o Eo k e He Ha) as [A B]. split; auto. intros Hb. eapply (HP o o' x k k e e'); eauto. eapply prop_value; eauto.
    - intros S x E o' Eo' k Hk. destruct (HO _ Eo') as (o & Eo & N & N' & HK & HV). eapply K30; eauto. eapply R_keys; eauto.
    - intros x E ds o' -> Eo' k a Ha Hk. destruct (HO _ Eo') as (o & Eo & N & N' & HK & HV).
      destruct (K31 _ E ds o eq_refl Eo k a Ha (R_keys o o' k HK Hk)) as [A B]. split.
      + intros ks -> k' Hk'. apply (R_keys o' o); [intros; symmetry; auto|]. eapply A; eauto.
      + intros Hb. apply HH; auto. eapply here_dependency; eauto.
  Qed.

  (** Two questions about exchangeable instances have the same answer. *)
  Theorem meaning_notation : forall d s v v', well_founded_at T d s v -> well_founded_at T d s v' -> R v v' -> doc_ok v -> doc_ok v' ->
    (forall d' m u u', needed T d s v d' (VMap m) u -> needed T d s v' d' (VMap m) u' -> R u u' -> (forall r, assoc "$ref" m <> Some (VStr r)) -> compares m -> comparable u u' /\ comparable u' u) ->
    (meaning pat fmt same T d s v <-> meaning pat fmt same T d s v').
  Proof.
    intros d0 s0 v0 v0' W W' R0 D0 D0' HC.
    assert (G : forall q, Acc (subquestion T) q -> forall v', needed T d0 s0 v0 (fst (fst q)) (snd (fst q)) (snd q) ->
      needed T d0 s0 v0' (fst (fst q)) (snd (fst q)) v' -> R (snd q) v' -> doc_ok (snd q) -> doc_ok v' ->
      (meaning pat fmt same T (fst (fst q)) (snd (fst q)) (snd q) <-> meaning pat fmt same T (fst (fst q)) (snd (fst q)) v')).
    { intros q Hq. induction Hq as [[[d s] v] _ IH]. cbn [fst snd]. intros v' N N' Rv Dv Dv'.
      rewrite !meaning_rules by (eapply wf_needed; [|eassumption]; auto).
      assert (ASK : forall d' s' u u', asks T d s v d' s' u -> asks T d s v' d' s' u' -> R u u' ->
        (meaning pat fmt same T d' s' u <-> meaning pat fmt same T d' s' u')).
      { assert (DA : forall x y d' s', doc_ok x -> asks T d s x d' s' y -> doc_ok y).
        { intros x y d' s' Dx A. destruct A; auto.
          - apply doc_ok_arr in Dx. rewrite Forall_forall in Dx. auto.
          - apply doc_ok_map in Dx. destruct Dx as [_ F]. rewrite Forall_forall in F. apply (F _ H1).
          - destruct Dx as [S _]. inversion S as [| | | | | |? ? F]; subst. rewrite Forall_forall in F. apply in_map_iff in H1. destruct H1 as ([k' x'] & <- & H1).
            split; [constructor; apply (F _ H1)|reflexivity]. }
        intros d' s' u u' A A' Ru. apply (IH (d', s', u) A u'); cbn [fst snd]; eauto.
        - eapply needed_step; eauto.
        - eapply needed_step; eauto. }
      unfold schema_sem. destruct s as [|b|t|f|t|l|m|m]; try tauto.
      assert (KW : (forall r, assoc "$ref" m <> Some (VStr r)) ->
        (keywords pat fmt same (meaning pat fmt same T) d m v <-> keywords pat fmt same (meaning pat fmt same T) d m v')).
      { intros Nr. assert (Q : compares m -> comparable v v' /\ comparable v' v) by (apply (HC d m v v'); auto).
        split; apply keywords_notation; auto using R_sym; try (intros; apply Q; auto).
        intros d' s' u u' A A' Ru. symmetry. apply ASK; auto using R_sym. }
      destruct (assoc "$ref" m) as [y|] eqn:E; [|apply KW; discriminate]. destruct y as [| | | |r| | |]; try (apply KW; discriminate).
      split; intros (d' & s' & HT & HV); exists d', s'; (split; [auto|]); (apply (ASK d' s' v v'); [eapply ask_ref; eauto|eapply ask_ref; eauto|auto|exact HV]). }
    apply (G (d0, s0, v0)); cbn [fst snd]; auto; constructor.
  Qed.
End Invariance.

(** ** Equality of values at float64 precision *)
Lemma float_of_unique x f g : float_of x f -> float_of x g -> f = g.
Proof.
  intros [(s & -> & H)|[-> H]] [(t & E & H')|[E H']]; try discriminate E.
  - injection E as <-. assert (J : json_number s = true) by (apply number_iff; destruct H as (q & H & _); exists q; exact H).
    assert (A : float_of (VNum s) f) by (left; eauto). assert (B : float_of (VNum s) g) by (left; eauto).
    apply float_of_num in A; auto. apply float_of_num in B; auto. congruence.
  - congruence.
Qed.
Lemma same_float_trans x y z : same_float x y -> same_float y z -> same_float x z.
Proof. intros (f & A & B) (g & C & D). pose proof (float_of_unique _ _ _ B C). subst. exists g. auto. Qed.
Lemma same_float_sym x y : same_float x y -> same_float y x.
Proof. intros (f & A & B). exists f. auto. Qed.
Lemma same_float_numlike x y : same_float x y -> numlike x = true /\ numlike y = true.
Proof. intros (f & [(s & -> & _)|[-> _]] & [(t & -> & _)|[-> _]]); auto. Qed.

Lemma same_arr l y : same (VArr l) y -> exists l', y = VArr l' /\ Forall2 same l l'.
Proof. intros H. inversion H as [|b|s|x0 y0 E|l0 l' F|m m' HK HV]; subst; eauto. apply same_float_numlike in E. destruct E; discriminate. Qed.
Lemma same_map m y : same (VMap m) y -> exists m', y = VMap m' /\ (forall k, assoc k m = None <-> assoc k m' = None) /\ (forall k a b, assoc k m = Some a -> assoc k m' = Some b -> same a b).
Proof. intros H. inversion H as [|b|s|x0 y0 E|l0 l' F|m0 m' HK HV]; subst; eauto. apply same_float_numlike in E. destruct E; discriminate. Qed.
Lemma same_num x y : same x y -> numlike x = true -> same_float x y.
Proof. intros H N. inversion H; subst; auto; discriminate. Qed.

Lemma same_sym x : forall y, same x y -> same y x.
Proof.
  intros y. revert x. induction y as [y IH] using (well_founded_induction (Wf_nat.well_founded_ltof _ weight)). unfold Wf_nat.ltof in IH.
  intros x H. inversion H as [|b|s|x0 y0 E|l l' F|m m' HK HV]; subst; try (constructor; auto; fail).
  - apply equal_num. apply same_float_sym. auto.
  - apply equal_arr. clear H. assert (IH' : forall y, In y l' -> forall x, same x y -> same y x) by (intros y Hy; apply IH; apply weight_arr; auto). clear IH.
    induction F; constructor; [apply IH'; simpl; auto|apply IHF; intros; apply IH'; simpl; auto].
  - apply equal_obj; [intros k; symmetry; auto|]. intros k x y Ex Ey. apply IH; [|eapply HV; eauto]. apply assoc_In in Ex. apply weight_map in Ex. lia.
Qed.
Lemma same_trans x y : forall z, same x y -> same y z -> same x z.
Proof.
  revert x. induction y as [y IH] using (well_founded_induction (Wf_nat.well_founded_ltof _ weight)). unfold Wf_nat.ltof in IH.
  intros x z H H'. inversion H as [|b|s|x0 y0 E|l l' F|m m' HK HV]; subst; auto.
  - apply equal_num. eapply same_float_trans; eauto. apply same_num; auto. apply same_float_numlike in E. tauto.
  - apply same_arr in H'. destruct H' as (l2 & -> & F'). apply equal_arr. clear H.
    assert (IH' : forall y, In y l' -> forall x z, same x y -> same y z -> same x z) by (intros y Hy; apply IH; apply weight_arr; auto). clear IH.
    revert l2 F'. induction F as [|a b l l' Hab F IHF]; intros l2 F'; inversion F' as [|b' c ? l3 Hbc F2]; subst; constructor; [eapply IH'; simpl; eauto|].
    apply IHF; auto. intros y Hy. apply IH'. simpl; auto.
  - apply same_map in H'. destruct H' as (m2 & -> & HK' & HV'). apply equal_obj; [intros k; rewrite HK; auto|]. intros k a c Ea Ec.
    destruct (assoc k m') as [b|] eqn:Eb; [|apply HK' in Eb; congruence]. apply (IH b) with (z := c); eauto; [|eapply HV; eauto].
    apply assoc_In in Eb. apply weight_map in Eb. lia.
Qed.

(** ** Numbers written differently *)
Definition signed (s : string) : bool := match s with String "-" _ => true | _ => false end.
(** The same value, and the same sign written (which matters for zero only). *)
Definition respelled (x y : value) : Prop :=
  exists s t p q, x = VNum s /\ y = VNum t /\ denotes s p /\ denotes t q /\ (p == q)%Q /\ signed s = signed t.
Lemma respelled_sym x y : respelled x y -> respelled y x.
Proof. intros (s & t & p & q & -> & -> & H1 & H2 & H3 & H4). exists t, s, q, p. repeat split; auto. symmetry. auto. Qed.
Lemma respelled_value x y : respelled x y -> same_value x y.
Proof. intros (s & t & p & q & -> & -> & H1 & H2 & H3 & H4). exists s, t, p, q. auto. Qed.
Lemma same_value_sym x y : same_value x y -> same_value y x.
Proof. intros (s & t & p & q & -> & -> & H1 & H2 & H3). exists t, s, q, p. repeat split; auto. symmetry. auto. Qed.
Lemma respelled_float x y : respelled x y -> in_float_range x -> same_float x y.
Proof.
  intros (s & t & p & q & -> & -> & H1 & H2 & H3 & H4) HR.
  assert (J : json_number s = true) by (apply number_iff; exists p; exact H1).
  assert (ST : std (VNum s)) by (constructor; auto).
  apply (proj2 (canon_some _ ST)) in HR. destruct HR as [c Hc]. simpl in Hc. destruct (parse_float s) as [f|] eqn:Ef; [|discriminate].
  apply (float_of_num s f J) in Ef. exists f. split; auto. destruct Ef as [(u & [= <-] & (q0 & D0 & O0 & N0 & S0))|[? _]]; [|discriminate].
  left. exists t. split; auto. exists q0. split; [|split; [auto|split; [auto|unfold signed in H4; congruence]]].
  eapply denotes_ext; [exact H2|]. rewrite <- H3. eapply denotes_unique; eauto.
Qed.
Lemma respelled_same v : forall v', equal respelled v v' -> in_float_range v -> same v v'.
Proof.
  induction v as [v IH] using (well_founded_induction (Wf_nat.well_founded_ltof _ weight)). unfold Wf_nat.ltof in IH.
  intros v' H HR. inversion H as [|b|s|x0 y0 E|l l' F|m m' HK HV]; subst; try (constructor; auto; fail).
  - apply equal_num. apply respelled_float; auto.
  - apply equal_arr. inversion HR as [| | | | |? G|]; subst. rewrite Forall_forall in G.
    assert (IH' : forall x, In x l -> forall y, equal respelled x y -> same x y) by (intros x Hx y Hy; apply IH; [apply weight_arr; auto|auto|apply G; auto]). clear - F IH'.
    induction F; constructor; [apply IH'; simpl; auto|apply IHF; intros; apply IH'; simpl; auto].
  - apply equal_obj; auto. inversion HR as [| | | | | |? G]; subst. rewrite Forall_forall in G. intros k x y Ex Ey. apply IH; eauto.
    + apply assoc_In in Ex. apply weight_map in Ex. lia.
    + apply assoc_In in Ex. apply (G _ Ex).
Qed.
Lemma respelled_comparable v v' : equal respelled v v' -> in_float_range v -> comparable same v v'.
Proof.
  intros H HR. split.
  - intros x S. eapply same_trans; [|exact S]. apply same_sym. apply respelled_same; auto.
  - intros l l' -> -> i j a b a' b' Ha Hb Ha' Hb' S.
    assert (F : Forall2 (equal respelled) l l').
    { inversion H as [| | |x0 y0 E| |]; subst; auto. destruct E as (? & ? & ? & ? & ? & _). discriminate. }
    inversion HR as [| | | | |? G|]; subst. rewrite Forall_forall in G.
    destruct (Forall2_nth_l _ _ _ _ _ F Ha) as (a2 & Ha2 & Ra). destruct (Forall2_nth_l _ _ _ _ _ F Hb) as (b2 & Hb2 & Rb).
    assert (a2 = a') by congruence. assert (b2 = b') by congruence. subst a2 b2.
    eapply same_trans; [apply (respelled_same _ _ Ra); apply G; eauto using nth_error_In|]. eapply same_trans; [exact S|].
    apply same_sym, (respelled_same _ _ Rb). apply G. eauto using nth_error_In.
Qed.
