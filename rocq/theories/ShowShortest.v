(** roundShortest (ModelShow.v): the decimal it picks lies between the bounds,
    and no decimal of 18 digits there is missed. *)
From Coq Require Import Lia.
From Verif Require Import ModelShow ShowDigits.
Open Scope Z_scope.

Lemma multiples_close a b t : 0 < t -> a * t - b * t < t -> b * t - a * t < t -> a = b.
Proof. intros H H1 H2. assert (a - b < 1) by nia. assert (b - a < 1) by nia. lia. Qed.

Section Loop.
  Variable N : Z.
  Variables dl d du : decimal.
  Variables L X U : Z.
  Hypothesis RL : rep N dl L.
  Hypothesis RX : rep N d X.
  Hypothesis RU : rep N du U.
  Hypothesis LX : L < X.
  Hypothesis XU : X < U.
  Hypothesis near : 100 * (U - L) <= X.
  Variable incl : bool.
  Notation E := (de d + N).
  Notation PX := (pre N d X).
  Notation PL i := (L / 10 ^ (E - Z.of_nat i)).
  Notation PU i := (U / 10 ^ (E - Z.of_nat i)).
  Notation unit i := (10 ^ (E - Z.of_nat i)).
  Notation okdown i := (negb (dec_at dl i =? dec_at d i) || (incl && (S i =? length (dm dl))%nat))%bool.
  Notation okup i := (negb (dec_at d i =? dec_at du i) && (incl || (dec_at d i + 1 <? dec_at du i) || (S i <? length (dm du))%nat))%bool.

  Lemma E_ge : Z.of_nat (length (dm d)) <= E.
  Proof. apply RX. Qed.
  Lemma unit_pos i : Z.of_nat i <= E -> 0 < unit i.
  Proof. intros H. apply p10. lia. Qed.
  Lemma div_bounds Y i : Z.of_nat i <= E -> Y / unit i * unit i <= Y < (Y / unit i + 1) * unit i.
  Proof.
    intros H. pose proof (unit_pos i H) as P. pose proof (Z.div_mod Y (unit i) ltac:(lia)). pose proof (Z.mod_pos_bound Y _ P). nia.
  Qed.
  Lemma same_pre dd Y i : rep N dd Y -> de dd + N = E -> pre N dd Y i = Y / unit i.
  Proof. intros _ H. unfold pre. rewrite H. reflexivity. Qed.

  (** Powers of ten around L, X and U. *)
  Lemma L_exp : de dl + N = E \/ de dl + N = E - 1 /\ dec_at dl 0 = 9 /\ dec_at d 0 = 1 /\ dec_at du 0 = 1 /\ PX 1 = 1.
  Proof.
    pose proof (rep_bounds _ _ _ RL) as [BL L1]. pose proof (rep_bounds _ _ _ RX) as [BX L2]. pose proof (rep_bounds _ _ _ RU) as [BU L3].
    pose proof E_ge as EG. assert (GL : len (dm dl) <= de dl + N) by apply RL. assert (GU : len (dm du) <= de du + N) by apply RU.
    destruct (Z.lt_trichotomy (de dl + N) E) as [H|[H|H]]; [right|auto|].
    - assert (A : 10 ^ (de dl + N) <= 10 ^ (E - 1)) by (apply Z.pow_le_mono_r; lia).
      assert (Q : 10 ^ E = 10 * 10 ^ (E - 1)) by (rewrite <- p10_S by lia; f_equal; lia).
      assert (Q2 : 10 ^ (E - 1) = 10 * 10 ^ (E - 2)) by (rewrite <- p10_S by lia; f_equal; lia).
      pose proof (p10 (E - 2) ltac:(lia)) as P.
      assert (EL : de dl + N = E - 1).
      { destruct (Z.le_gt_cases (de dl + N) (E - 2)) as [C|C]; [|lia]. assert (10 ^ (de dl + N) <= 10 ^ (E - 2)) by (apply Z.pow_le_mono_r; lia). lia. }
      assert (EU : de du + N = E).
      { destruct (Z.lt_trichotomy (de du + N) E) as [C|[C|C]]; auto.
        - assert (10 ^ (de du + N) <= 10 ^ (E - 1)) by (apply Z.pow_le_mono_r; lia). lia.
        - assert (10 ^ E <= 10 ^ (de du + N - 1)) by (apply Z.pow_le_mono_r; lia). lia. }
      split; auto.
      assert (P1 : PX 1 = 1). { unfold pre. replace (E - Z.of_nat 1) with (E - 1) by lia. symmetry. apply (Z.div_unique _ _ _ (X - 10 ^ (E - 1))); lia. }
      pose proof (pre_S N d X RX 0 ltac:(lia)) as S1. pose proof (pre_0 N d X RX) as S0.
      pose proof (pre_S N dl L RL 0 ltac:(lia)) as S2. pose proof (pre_0 N dl L RL) as S3.
      pose proof (pre_S N du U RU 0 ltac:(lia)) as S4. pose proof (pre_0 N du U RU) as S5.
      assert (P2 : pre N dl L 1 = 9). { unfold pre. replace (de dl + N - Z.of_nat 1) with (E - 2) by lia. symmetry. apply (Z.div_unique _ _ _ (L - 9 * 10 ^ (E - 2))); lia. }
      assert (P3 : pre N du U 1 = 1). { unfold pre. replace (de du + N - Z.of_nat 1) with (E - 1) by lia. symmetry. apply (Z.div_unique _ _ _ (U - 10 ^ (E - 1))); lia. }
      repeat split; lia.
    - assert (10 ^ E <= 10 ^ (de dl + N - 1)) by (apply Z.pow_le_mono_r; lia). lia.
  Qed.
  Lemma U_exp : de dl + N = E -> de du + N = E \/ de du + N = E + 1 /\ dec_at d 0 = 9 /\ dec_at du 0 = 1.
  Proof.
    intros HL. pose proof (rep_bounds _ _ _ RL) as [BL L1]. pose proof (rep_bounds _ _ _ RX) as [BX L2]. pose proof (rep_bounds _ _ _ RU) as [BU L3].
    pose proof E_ge as EG. assert (GL : len (dm dl) <= de dl + N) by apply RL. assert (GU : len (dm du) <= de du + N) by apply RU.
    destruct (Z.lt_trichotomy (de du + N) E) as [H|[H|H]]; [|auto|right].
    - assert (10 ^ (de du + N) <= 10 ^ (E - 1)) by (apply Z.pow_le_mono_r; lia). lia.
    - assert (A : 10 ^ E <= 10 ^ (de du + N - 1)) by (apply Z.pow_le_mono_r; lia).
      assert (Q : 10 ^ E = 10 * 10 ^ (E - 1)) by (rewrite <- p10_S by lia; f_equal; lia). pose proof (p10 (E - 1) ltac:(lia)) as P.
      assert (Q2 : 10 ^ (E + 1) = 10 * 10 ^ E) by (apply p10_S; lia).
      assert (EU : de du + N = E + 1).
      { destruct (Z.le_gt_cases (E + 2) (de du + N)) as [C|C]; [|lia]. assert (10 ^ (E + 1) <= 10 ^ (de du + N - 1)) by (apply Z.pow_le_mono_r; lia). lia. }
      split; auto.
      pose proof (pre_S N d X RX 0 ltac:(lia)) as S1. pose proof (pre_0 N d X RX) as S0.
      pose proof (pre_S N du U RU 0 ltac:(lia)) as S4. pose proof (pre_0 N du U RU) as S5.
      assert (P1 : PX 1 = 9). { unfold pre. replace (E - Z.of_nat 1) with (E - 1) by lia. symmetry. apply (Z.div_unique _ _ _ (X - 9 * 10 ^ (E - 1))); lia. }
      assert (P3 : pre N du U 1 = 1). { unfold pre. replace (de du + N - Z.of_nat 1) with E by lia. symmetry. apply (Z.div_unique _ _ _ (U - 10 ^ E)); lia. }
      split; lia.
  Qed.

  (** What holds at place i if nothing stopped before. *)
  Definition down_inv (i : nat) : Prop := PL i = PX i /\ (incl = true -> (i < length (dm dl))%nat).
  Definition up_inv (i : nat) : Prop :=
    i = O /\ de du + N = E + 1 /\ dec_at d 0 = 9 /\ dec_at du 0 = 1 \/
    de du + N = E /\ PU i = PX i \/
    incl = false /\ (length (dm du) <= i)%nat /\ exists j, (j <= i)%nat /\ U = (PX j + 1) * unit j.

  Section Same.
    Hypothesis EL : de dl + N = E.
    Lemma down_step i : (i < length (dm d))%nat -> down_inv i -> if okdown i then L <= PX (S i) * unit (S i) else down_inv (S i).
    Proof.
      intros Hi [H1 H2]. pose proof E_ge as EG. pose proof (pre_S N d X RX i ltac:(lia)) as SX. pose proof (pre_S N dl L RL i ltac:(lia)) as SL.
      rewrite !(same_pre dl L _ RL EL) in SL. pose proof (div_bounds L (S i) ltac:(lia)) as BL. pose proof (unit_pos (S i) ltac:(lia)) as P.
      pose proof (pre_le N d X (S i) ltac:(lia)) as BX.
      assert (M : PL (S i) <= PX (S i)) by (unfold pre; apply Z.div_le_mono; lia).
      destruct (Z.eqb_spec (dec_at dl i) (dec_at d i)) as [D|D]; cbn [negb orb].
      - assert (Q : PL (S i) = PX (S i)) by lia. destruct (incl && (S i =? length (dm dl))%nat)%bool eqn:B.
        + apply andb_prop in B. destruct B as [B1 B2]. apply Nat.eqb_eq in B2. pose proof (pre_over N dl L RL (S i) ltac:(lia) ltac:(lia)) as O. rewrite (same_pre dl L _ RL EL), EL in O. rewrite <- Q. lia.
        + split; auto. intros I. specialize (H2 I). rewrite I in B. cbn [andb] in B. apply Nat.eqb_neq in B. lia.
      - assert (PL (S i) < PX (S i)) by lia. nia.
    Qed.
    Lemma up_step i : (i < length (dm d))%nat -> up_inv i -> if okup i then (PX (S i) + 1) * unit (S i) <= U else up_inv (S i).
    Proof.
      intros Hi H. pose proof E_ge as EG. pose proof (pre_S N d X RX i ltac:(lia)) as SX. pose proof (at_range N d X RX i) as A.
      pose proof (unit_pos (S i) ltac:(lia)) as P. destruct H as [(-> & EU & A1 & A2)|[[EU PE]|(I & LU & j & J1 & J2)]].
      - rewrite A1, A2. cbn [Z.eqb negb andb Pos.eqb]. change (9 + 1 <? 1) with false. rewrite (pre_0 N d X RX) in SX. pose proof (rep_bounds _ _ _ RU) as [BU _]. pose proof (div_bounds U 0 ltac:(lia)) as DU.
        assert (U1 : PX 1 = 9) by lia. rewrite U1. assert (Q : 10 ^ E = 10 * unit 1) by (rewrite <- p10_S by lia; f_equal; lia). replace (de du + N - 1) with E in BU by lia.
        destruct (incl || false || (1 <? length (dm du))%nat)%bool eqn:B; [lia|]. apply orb_false_elim in B. destruct B as [B1 B2]. rewrite orb_false_r in B1. apply Nat.ltb_ge in B2.
        right. right. split; auto. split; [lia|]. exists O. split; [lia|]. rewrite (pre_0 N d X RX). replace (E - Z.of_nat 0) with E by lia.
        pose proof (pre_over N du U RU 1 ltac:(lia) ltac:(lia)) as O. pose proof (pre_S N du U RU 0 ltac:(lia)) as SU. rewrite (pre_0 N du U RU), A2 in SU. rewrite SU in O. replace (de du + N - Z.of_nat 1) with E in O by lia. lia.
      - pose proof (pre_S N du U RU i ltac:(lia)) as SU. rewrite !(same_pre du U _ RU EU) in SU. pose proof (div_bounds U (S i) ltac:(lia)) as BU.
        assert (M : PX (S i) <= PU (S i)) by (unfold pre; apply Z.div_le_mono; lia).
        destruct (Z.eqb_spec (dec_at d i) (dec_at du i)) as [D|D]; cbn [negb andb].
        + right. left. split; auto. lia.
        + assert (PX (S i) + 1 <= PU (S i)) by lia. destruct (incl || (dec_at d i + 1 <? dec_at du i) || (S i <? length (dm du))%nat)%bool eqn:B; [nia|].
          apply orb_false_elim in B. destruct B as [B B3]. apply orb_false_elim in B. destruct B as [B1 B2]. apply Z.ltb_ge in B2. apply Nat.ltb_ge in B3.
          right. right. split; auto. split; auto. exists (S i). split; auto. pose proof (pre_over N du U RU (S i) B3 ltac:(lia)) as O. rewrite (same_pre du U _ RU EU), EU in O. rewrite O. f_equal. lia.
      - assert (Z0 : dec_at du i = 0) by (unfold dec_at; apply nth_overflow; auto). rewrite Z0, I. assert (B1 : (dec_at d i + 1 <? 0) = false) by (apply Z.ltb_ge; lia).
        assert (B2 : (S i <? length (dm du))%nat = false) by (apply Nat.ltb_ge; lia). rewrite B1, B2. cbn [orb]. rewrite andb_false_r.
        right. right. split; auto. split; [lia|]. exists j. split; [lia|exact J2].
    Qed.

    (** The loop; n: a place by which it has stopped. *)
    Definition stops (n : nat) : Prop := forall i, S i = n -> (i < length (dm d))%nat -> down_inv i -> up_inv i -> (okdown i || okup i)%bool = true.
    Lemma loop_ok n : stops n -> forall rest i, rest = skipn i (dm d) -> (i < n)%nat -> down_inv i -> up_inv i ->
      exists Y k, rep N (shortest_from incl dl d du rest i) Y /\ L <= Y <= U /\ (k <= n)%nat /\ (1 <= k <= length (dm d))%nat /\ (exists z, Y = z * unit k) /\ ((k < length (dm d))%nat \/ Y = X).
    Proof.
      intros Hstop. pose proof E_ge as EG. pose proof (rep_bounds _ _ _ RX) as [_ LX1].
      assert (WX : forall m, (m <= length (dm d))%nat -> m = length (dm d) -> exists z, X = z * unit m).
      { intros m _ ->. exists (PX (length (dm d))). apply pre_over; auto. }
      induction rest as [|m rest IH]; intros i Er Hi Hd Hu.
      - assert (Li : (length (dm d) <= i)%nat) by (apply (f_equal (@length Z)) in Er; rewrite skipn_length in Er; cbn in Er; lia).
        exists X, (length (dm d)). cbn [shortest_from]. split; auto. split; [lia|]. split; [lia|]. split; [lia|]. split; [apply WX; auto|auto].
      - assert (Li : (i < length (dm d))%nat) by (apply (f_equal (@length Z)) in Er; rewrite skipn_length in Er; cbn in Er; lia).
        assert (Em : m = dec_at d i /\ rest = skipn (S i) (dm d)).
        { unfold dec_at. clear - Er. revert i Er. induction (dm d) as [|x l IH]; intros i Er; [destruct i; discriminate|]. destruct i as [|i]; [cbn in Er; injection Er as -> ->; auto|]. cbn [skipn] in Er. apply IH in Er. exact Er. }
        destruct Em as [-> ->]. cbn [shortest_from]. cbv zeta. pose proof (down_step i Li Hd) as SD. pose proof (up_step i Li Hu) as SU.
        assert (DOWN : okdown i = true -> exists Y k, rep N (round_down d (S i)) Y /\ L <= Y <= U /\ (k <= n)%nat /\ (1 <= k <= length (dm d))%nat /\ (exists z, Y = z * unit k) /\ ((k < length (dm d))%nat \/ Y = X)).
        { intros T. rewrite T in SD. pose proof (pre_le N d X (S i) ltac:(lia)) as B. exists (PX (S i) * unit (S i)), (S i). split; [apply down_rep; auto; lia|]. split; [lia|]. split; [lia|]. split; [lia|]. split; [eauto|].
          destruct (Nat.eq_dec (S i) (length (dm d))) as [Q|Q]; [right|left; lia]. symmetry. apply pre_over; auto; lia. }
        assert (UP : okup i = true -> exists Y k, rep N (round_up d (S i)) Y /\ L <= Y <= U /\ (k <= n)%nat /\ (1 <= k <= length (dm d))%nat /\ (exists z, Y = z * unit k) /\ ((k < length (dm d))%nat \/ Y = X)).
        { intros T. rewrite T in SU. destruct (Nat.eq_dec (S i) (length (dm d))) as [Q|Q].
          - exists X, (S i). rewrite up_over by lia. split; auto. split; [lia|]. split; [lia|]. split; [lia|]. split; [apply WX; auto; lia|auto].
          - pose proof (pre_le N d X (S i) ltac:(lia)) as B. exists ((PX (S i) + 1) * unit (S i)), (S i). split; [apply up_rep; auto; lia|]. split; [lia|]. split; [lia|]. split; [lia|]. split; [eauto|left; lia]. }
        destruct (okdown i) eqn:OD; destruct (okup i) eqn:OU; cbn [andb].
        + destruct (round_cases d (S i)) as [-> | ->]; auto.
        + auto.
        + auto.
        + apply IH; auto. destruct (Nat.eq_dec (S i) n) as [Q|Q]; [|lia]. specialize (Hstop i Q Li Hd Hu). rewrite OD, OU in Hstop. discriminate.
    Qed.
    Lemma inv_0 : down_inv 0 /\ up_inv 0.
    Proof.
      pose proof (pre_0 N d X RX) as S0. pose proof (pre_0 N dl L RL) as S1. pose proof (pre_0 N du U RU) as S2. pose proof (rep_bounds _ _ _ RL) as [_ B]. split.
      - split; [rewrite S0, <- S1; unfold pre; rewrite EL; reflexivity|]. intros _. lia.
      - destruct (U_exp EL) as [H|(H1 & H2 & H3)]; [right; left; split; auto; rewrite S0, <- S2; unfold pre; rewrite H; reflexivity|left; auto].
    Qed.

    (** A decimal q of n digits between the bounds makes the loop stop. *)
    Lemma stops_by n z : (1 <= n)%nat -> Z.of_nat n <= E -> U - L < unit n -> L <= z * unit n <= U -> (incl = false -> L < z * unit n < U) -> stops n.
    Proof.
      intros Hn HnE Hsmall Hq Hstrict i Ei Hi [HD1 HD2] HU. subst n. pose proof (down_step i Hi (conj HD1 HD2)) as SD. pose proof (up_step i Hi HU) as SU.
      destruct (okdown i) eqn:OD; [reflexivity|]. destruct (okup i) eqn:OU; [reflexivity|]. exfalso. pose proof (unit_pos (S i) HnE) as P.
      pose proof (pre_le N d X (S i) HnE) as BX. destruct SD as [SD1 SD2]. pose proof (div_bounds L (S i) HnE) as BL. rewrite SD1 in BL.
      destruct (Z.le_gt_cases z (PX (S i))) as [C|C].
      - assert (Q : z * unit (S i) <= PX (S i) * unit (S i)) by nia. assert (LQ : L = PX (S i) * unit (S i)) by lia.
        destruct incl; [|destruct (Hstrict eq_refl); lia]. specialize (SD2 eq_refl).
        pose proof (rep_length N dl L RL (S i) (PX (S i)) ltac:(lia)) as K. rewrite EL in K. specialize (K LQ). lia.
      - assert (Q : (PX (S i) + 1) * unit (S i) <= z * unit (S i)) by nia.
        destruct SU as [(SU & _)|[[EU PE]|(I & LU & j & J1 & J2)]]; [discriminate| |].
        + pose proof (div_bounds U (S i) HnE) as BU. rewrite PE in BU. lia.
        + specialize (Hstrict I). assert (W : exists y, U = y * unit (S i)).
          { exists ((PX j + 1) * 10 ^ (Z.of_nat (S i) - Z.of_nat j)). rewrite J2, <- Z.mul_assoc, <- Z.pow_add_r by lia. do 2 f_equal. lia. }
          destruct W as [y ->]. assert (PX (S i) + 2 <= y) by nia. nia.
    Qed.
  End Same.

  (** Between the bounds. *)
  Theorem shortest_between : exists Y k, rep N (shortest_from incl dl d du (dm d) 0) Y /\ L <= Y <= U /\ (1 <= k <= length (dm d))%nat /\ (exists z, Y = z * unit k) /\ ((k < length (dm d))%nat \/ Y = X).
  Proof.
    pose proof E_ge as EG. destruct L_exp as [EL|(EL & A1 & A2 & A3 & A4)].
    - destruct (inv_0 EL) as [I1 I2]. destruct (loop_ok EL (S (length (dm d)))) with (rest := dm d) (i := O) as (Y & k & H1 & H2 & _ & H3 & H4 & H5); auto; [|lia|eauto 10].
      intros i Ei Hi. lia.
    - pose proof (rep_bounds _ _ _ RX) as [BX B1]. pose proof (rep_bounds _ _ _ RL) as [BL _]. destruct (dm d) as [|m rest] eqn:Ed; [cbn in B1; lia|]. cbn [shortest_from]. cbv zeta.
      assert (Em : m = 1) by (unfold dec_at in A2; rewrite Ed in A2; exact A2). subst m. rewrite A1, A3. cbn [Z.eqb negb orb andb Pos.eqb].
      exists (PX 1 * unit 1), 1%nat. rewrite <- Ed in *. split; [apply down_rep; auto; lia|]. pose proof (pre_le N d X 1 ltac:(lia)) as B. rewrite A4 in *. replace (E - Z.of_nat 1) with (E - 1) in * by lia. rewrite EL in BL.
      split; [lia|]. split; [lia|]. split; [eauto|]. destruct (Nat.eq_dec 1 (length (dm d))) as [Q|Q]; [right|left; lia].
      pose proof (pre_over N d X RX 1 ltac:(lia) ltac:(lia)) as O. rewrite A4 in O. replace (E - Z.of_nat 1) with (E - 1) in O by lia. auto.
  Qed.
  (** An integer is shown as it is. *)
  Theorem shortest_exact : (exists z, X = z * 10 ^ N) -> 0 <= N -> U - X < 10 ^ N -> X - L < 10 ^ N -> rep N (shortest_from incl dl d du (dm d) 0) X.
  Proof.
    intros [z Hz] HN H1 H2. pose proof E_ge as EG. destruct shortest_between as (Y & k & R & B & K & (y & Hy) & [C|C]); [|rewrite <- C; exact R].
    assert (HE : N <= E - len (dm d)).
    { destruct (Z.le_gt_cases N (E - len (dm d))) as [G|G]; auto. exfalso. destruct (Z.le_gt_cases N E) as [G2|G2].
      - pose proof (rep_length N d X RX (Z.to_nat (E - N)) z ltac:(lia)) as W. rewrite Z2Nat.id in W by lia. replace (E - (E - N)) with N in W by lia. specialize (W Hz). lia.
      - pose proof (rep_bounds _ _ _ RX) as [BX _]. assert (10 ^ E <= 10 ^ N) by (apply Z.pow_le_mono_r; lia). pose proof (rep_pos _ _ _ RX). pose proof (p10 N HN). assert (1 <= z) by nia. nia. }
    assert (W : exists y', Y = y' * 10 ^ N).
    { exists (y * 10 ^ (E - Z.of_nat k - N)). rewrite Hy, <- Z.mul_assoc, <- Z.pow_add_r by lia. do 2 f_equal. lia. }
    destruct W as [y' W]. pose proof (p10 N HN). assert (y' = z) by (apply (multiples_close _ _ (10 ^ N)); lia). subst y'. rewrite Hz, <- W. exact R.
  Qed.
  (** A decimal of at most 18 digits is shown as it is. *)
  Lemma between_E : 10 ^ 20 <= L -> 20 < E.
  Proof.
    intros H. pose proof (rep_bounds _ _ _ RX) as [BX _]. pose proof E_ge. destruct (Z.le_gt_cases E 20) as [C|C]; [|lia]. assert (10 ^ E <= 10 ^ 20) by (apply Z.pow_le_mono_r; lia). lia.
  Qed.
  Lemma last_place c k e : 0 < c < 10 ^ 18 -> 0 <= k -> 18 <= e + 1 -> 10 ^ e <= c * 10 ^ k -> exists z, c * 10 ^ k = z * 10 ^ (e - 17).
  Proof.
    intros Hc Hk He H. assert (G : e - 17 <= k).
    { destruct (Z.le_gt_cases (e - 17) k) as [C|C]; auto. exfalso. assert (A : 10 ^ (k + 18) <= 10 ^ e) by (apply Z.pow_le_mono_r; lia). rewrite Z.pow_add_r in A by lia. pose proof (p10 k Hk). nia. }
    exists (c * 10 ^ (k - (e - 17))). rewrite <- Z.mul_assoc, <- Z.pow_add_r by lia. do 2 f_equal. lia.
  Qed.
  Theorem shortest_short c k : 0 < c < 10 ^ 18 -> 0 <= k -> 2 ^ 63 * (U - L) <= X -> 10 ^ 20 <= L ->
    L <= c * 10 ^ k <= U -> (incl = false -> L < c * 10 ^ k < U) -> rep N (shortest_from incl dl d du (dm d) 0) (c * 10 ^ k).
  Proof.
    intros Hc Hk Hs HL Hq Hstrict. pose proof (between_E HL) as HE. pose proof (rep_bounds _ _ _ RX) as [BX B1]. pose proof (rep_bounds _ _ _ RL) as [BL _].
    assert (Q : 10 ^ E = 10 ^ 18 * unit 18) by (rewrite <- Z.pow_add_r by lia; f_equal; lia). pose proof (unit_pos 18 ltac:(lia)) as P.
    destruct L_exp as [EL|(EL & A1 & A2 & A3 & A4)].
    - destruct (last_place c k (E - 1) Hc Hk ltac:(lia)) as [z Hz]; [rewrite EL in BL; lia|]. replace (E - 1 - 17) with (E - Z.of_nat 18) in Hz by lia. rewrite Hz in *.
      assert (Hsm : U - L < unit 18) by lia.
      destruct (inv_0 EL) as [I1 I2]. destruct (loop_ok EL 18 (stops_by EL 18 z ltac:(lia) ltac:(lia) Hsm Hq Hstrict)) with (rest := dm d) (i := O) as (Y & j & H1 & H2 & H3 & _ & (y & Hy) & _); auto; [lia|].
      assert (W : exists y', Y = y' * unit 18). { exists (y * 10 ^ (18 - Z.of_nat j)). rewrite Hy, <- Z.mul_assoc, <- Z.pow_add_r by lia. do 2 f_equal. lia. }
      destruct W as [y' W]. assert (y' = z) by (apply (multiples_close _ _ (unit 18)); lia). subst y'. rewrite <- W. exact H1.
    - rewrite EL in BL. destruct (last_place c k (E - 2) Hc Hk ltac:(lia)) as [z Hz]; [replace (E - 2) with (E - 1 - 1) by lia; lia|]. replace (E - 2 - 17) with (E - 19) in Hz by lia.
      destruct (dm d) as [|m rest] eqn:Ed; [cbn in B1; lia|]. cbn [shortest_from]. cbv zeta.
      assert (Em : m = 1) by (unfold dec_at in A2; rewrite Ed in A2; exact A2). subst m. rewrite A1, A3. cbn [Z.eqb negb orb andb Pos.eqb].
      pose proof (down_rep N d X RX 1 ltac:(lia) ltac:(lia)) as D. rewrite A4 in D. replace (1 * unit 1) with (c * 10 ^ k) in D; [exact D|].
      assert (Q1 : unit 1 = 10 ^ 18 * 10 ^ (E - 19)) by (rewrite <- Z.pow_add_r by lia; f_equal; lia). pose proof (p10 (E - 19) ltac:(lia)) as P1. replace (E - Z.of_nat 1) with (E - 1) in * by lia. rewrite Hz, Q1, Z.mul_1_l. f_equal. apply (multiples_close _ _ (10 ^ (E - 19))); [exact P1|lia|lia].
  Qed.
End Loop.
