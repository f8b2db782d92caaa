(** Rounding to float64: the result is a float64, and a rational that is a
    float64 is returned unchanged. *)
From Verif Require Export Float64.
Open Scope Z_scope.

Lemma p2_pos k : 0 <= k -> 0 < 2 ^ k.
Proof. intros. apply Z.pow_pos_nonneg; lia. Qed.
Lemma p10_pos k : 0 <= k -> 0 < 10 ^ k.
Proof. intros. apply Z.pow_pos_nonneg; lia. Qed.

Section Scale.
  Variables n d : Z.
  Hypothesis Hn : 0 < n.
  Hypothesis Hd : 0 < d.

  Lemma scale_num_pos e : 0 < scale_num n e.
  Proof. unfold scale_num. destruct (Z.leb_spec 0 e); auto. apply Z.mul_pos_pos; auto. apply p2_pos. lia. Qed.
  Lemma scale_den_pos e : 0 < scale_den d e.
  Proof. unfold scale_den. destruct (Z.leb_spec 0 e); auto. apply Z.mul_pos_pos; auto. apply p2_pos. lia. Qed.

  Lemma scale_rel e K : 0 <= K -> 0 <= K + e ->
    scale_num n e * (d * 2 ^ (K + e)) = scale_den d e * (n * 2 ^ K).
  Proof.
    intros HK HKe. unfold scale_num, scale_den. destruct (Z.leb_spec 0 e) as [He|He].
    - rewrite Z.pow_add_r by lia. ring.
    - replace (2 ^ K) with (2 ^ (- e) * 2 ^ (K + e)); [ring|]. rewrite <- Z.pow_add_r by lia. f_equal. lia.
  Qed.

  Lemma scale_step e e' : e <= e' ->
    scale_num n e' * (scale_den d e * 2 ^ (e' - e)) = scale_num n e * scale_den d e'.
  Proof.
    intros He. set (K := Z.max 0 (- e)).
    assert (H1 := scale_rel e K ltac:(lia) ltac:(lia)).
    assert (H2 := scale_rel e' K ltac:(lia) ltac:(lia)).
    replace (2 ^ (K + e')) with (2 ^ (K + e) * 2 ^ (e' - e)) in H2
      by (rewrite <- Z.pow_add_r by lia; f_equal; lia).
    assert (HP : 0 < 2 ^ (K + e)) by (apply p2_pos; lia).
    assert (HQ : 0 < 2 ^ K) by (apply p2_pos; lia).
    set (A := scale_num n e) in *. set (B := scale_den d e) in *.
    set (A' := scale_num n e') in *. set (B' := scale_den d e') in *.
    set (P := 2 ^ (K + e)) in *. set (Q := 2 ^ K) in *. set (T := 2 ^ (e' - e)) in *.
    apply (Z.mul_reg_l _ _ (d * P * (n * Q))); [nia|].
    transitivity (B * (n * Q) * (A' * (d * (P * T)))); [ring|]. rewrite H2, <- H1. ring.
  Qed.

  (** The exponent chosen puts the mantissa in range. *)
  Lemma f64_exponent_range :
    let e := f64_exponent n d in
    -1074 <= e /\ scale_num n e < 2 ^ 53 * scale_den d e /\
    (e = -1074 \/ 2 ^ 52 * scale_den d e <= scale_num n e).
  Proof.
    unfold f64_exponent. set (a := Z.log2 n). set (b := Z.log2 d). set (e0 := a - b - 53).
    destruct (Z.log2_spec n Hn) as [Ha1 Ha2]. destruct (Z.log2_spec d Hd) as [Hb1 Hb2].
    fold a in Ha1, Ha2. fold b in Hb1, Hb2.
    assert (Ha0 : 0 <= a) by apply Z.log2_nonneg. assert (Hb0 : 0 <= b) by apply Z.log2_nonneg.
    assert (HA0 := scale_num_pos e0). assert (HB0 := scale_den_pos e0).
    set (K := Z.max 53 (- e0) + 53).
    assert (HR := scale_rel e0 K ltac:(lia) ltac:(lia)).
    assert (Hlo : 2 ^ 52 * scale_den d e0 < scale_num n e0).
    { assert (E1 : 2 ^ (K + a) <= n * 2 ^ K).
      { rewrite Z.add_comm, Z.pow_add_r by lia. apply Z.mul_le_mono_nonneg_r; [|auto]. apply Z.lt_le_incl, p2_pos. lia. }
      assert (E2 : d * 2 ^ (K + e0) < 2 ^ (K + a - 52)).
      { replace (K + a - 52) with (Z.succ b + (K + e0)) by (unfold e0; lia). rewrite (Z.pow_add_r _ (Z.succ b)) by lia.
        apply Z.mul_lt_mono_pos_r; auto. apply p2_pos. lia. }
      replace (K + a) with (52 + (K + a - 52)) in E1 by lia. rewrite Z.pow_add_r in E1 by lia.
      assert (HP : 0 < 2 ^ (K + a - 52)) by (apply p2_pos; lia).
      set (P := 2 ^ (K + a - 52)) in *. set (A := scale_num n e0) in *. set (B := scale_den d e0) in *.
      assert (G : (2 ^ 52 * B) * P < A * P); [|nia].
      apply Z.le_lt_trans with (B * (n * 2 ^ K)); [nia|]. rewrite <- HR. nia. }
    assert (Hhi : scale_num n e0 < 2 ^ 54 * scale_den d e0).
    { assert (E1 : n * 2 ^ K < 2 ^ (K + a + 1)).
      { replace (K + a + 1) with (Z.succ a + K) by lia. rewrite Z.pow_add_r by lia.
        apply Z.mul_lt_mono_pos_r; auto. apply p2_pos. lia. }
      assert (E2 : 2 ^ (K + a - 53) <= d * 2 ^ (K + e0)).
      { replace (K + a - 53) with (b + (K + e0)) by (unfold e0; lia). rewrite Z.pow_add_r by lia.
        apply Z.mul_le_mono_nonneg_r; auto. apply Z.lt_le_incl, p2_pos. lia. }
      replace (K + a + 1) with (54 + (K + a - 53)) in E1 by lia. rewrite Z.pow_add_r in E1 by lia.
      assert (HP : 0 < 2 ^ (K + a - 53)) by (apply p2_pos; lia).
      set (P := 2 ^ (K + a - 53)) in *. set (A := scale_num n e0) in *. set (B := scale_den d e0) in *.
      assert (G : A * P < (2 ^ 54 * B) * P); [|nia].
      apply Z.le_lt_trans with (A * (d * 2 ^ (K + e0))); [nia|]. rewrite HR. nia. }
    set (e1 := if scale_num n e0 / scale_den d e0 <? 2 ^ 53 then e0 else e0 + 1).
    assert (H1 : 2 ^ 52 * scale_den d e1 <= scale_num n e1 < 2 ^ 53 * scale_den d e1).
    { unfold e1. destruct (Z.ltb_spec (scale_num n e0 / scale_den d e0) (2 ^ 53)) as [H|H].
      - split; [lia|].
        assert (Hdm := Z.div_mod (scale_num n e0) (scale_den d e0) ltac:(lia)).
        assert (Hmb := Z.mod_pos_bound (scale_num n e0) (scale_den d e0) HB0). nia.
      - assert (Hge : 2 ^ 53 * scale_den d e0 <= scale_num n e0).
        { assert (Hdm := Z.div_mod (scale_num n e0) (scale_den d e0) ltac:(lia)).
          assert (Hmb := Z.mod_pos_bound (scale_num n e0) (scale_den d e0) HB0). nia. }
        assert (HS := scale_step e0 (e0 + 1) ltac:(lia)). replace (e0 + 1 - e0) with 1 in HS by lia.
        assert (HB1 := scale_den_pos (e0 + 1)).
        change (2 ^ 1) with 2 in HS. change (2 ^ 53) with (2 * 2 ^ 52) in *. change (2 ^ 54) with (2 * (2 * 2 ^ 52)) in Hhi.
        set (X := 2 ^ 52) in *. split; nia. }
    assert (Hmax : -1074 <= Z.max e1 (-1074)) by lia. split; auto.
    destruct (Z.le_gt_cases (-1074) e1) as [Hc|Hc].
    - rewrite Z.max_l by lia. split; [tauto|right; tauto].
    - rewrite Z.max_r by lia. split; [|auto].
      assert (HS := scale_step e1 (-1074) ltac:(lia)).
      assert (HB1 := scale_den_pos e1). assert (HB2 := scale_den_pos (-1074)).
      assert (HA2 := scale_num_pos (-1074)).
      assert (HT : 1 <= 2 ^ (-1074 - e1)) by (assert (0 < 2 ^ (-1074 - e1)) by (apply p2_pos; lia); lia).
      set (T := 2 ^ (-1074 - e1)) in *. set (X := 2 ^ 53) in *.
      assert (G : scale_num n (-1074) * scale_den d e1 <= scale_num n e1 * scale_den d (-1074)) by nia.
      nia.
  Qed.
End Scale.

Lemma div_half_even_le A B L : 0 < B -> L * B <= A -> L <= div_half_even A B.
Proof.
  intros HB H. unfold div_half_even.
  assert (L <= A / B) by (apply Z.div_le_lower_bound; lia).
  destruct (2 * (A mod B) ?= B); [destruct (Z.even (A / B))|auto|]; lia.
Qed.
Lemma div_half_even_ge A B U : 0 < B -> A < U * B -> div_half_even A B <= U.
Proof.
  intros HB H. unfold div_half_even.
  assert (A / B < U) by (apply Z.div_lt_upper_bound; lia).
  destruct (2 * (A mod B) ?= B); [destruct (Z.even (A / B))|auto|]; lia.
Qed.
Lemma div_half_even_exact A B m : 0 < B -> A = m * B -> div_half_even A B = m.
Proof.
  intros HB ->. unfold div_half_even. rewrite Z.div_mul, Z.mod_mul by lia.
  destruct (Z.compare_spec (2 * 0) B); lia || reflexivity.
Qed.

(** The magnitude part of f64_ok. *)
Definition mag_ok (m e : Z) : Prop :=
  (m = 0 /\ e = 0) \/ (0 < m < 2 ^ 53 /\ -1074 <= e <= 971 /\ (2 ^ 52 <= m \/ e = -1074)).
Lemma f64_ok_mag f : f64_ok f = true <-> mag_ok (f_man f) (f_exp f).
Proof.
  destruct f as [s m e]. unfold f64_ok, mag_ok. cbn [f_man f_exp].
  rewrite !orb_true_iff, !andb_true_iff, !orb_true_iff, !Z.eqb_eq, !Z.ltb_lt, !Z.leb_le. tauto.
Qed.

Lemma round_mag_ok n d m e : 0 <= n -> 0 < d -> round_mag n d = Some (m, e) -> mag_ok m e.
Proof.
  intros Hn Hd. unfold round_mag. destruct (Z.eqb_spec n 0); [intros [= <- <-]; left; auto|].
  assert (Hn' : 0 < n) by lia.
  pose proof (f64_exponent_range n d Hn' Hd) as (H1 & H2 & H3). cbv zeta in *.
  set (x := f64_exponent n d) in *.
  assert (HB := scale_den_pos d Hd x). assert (HA := scale_num_pos n Hn' x).
  assert (Hu : div_half_even (scale_num n x) (scale_den d x) <= 2 ^ 53) by (apply div_half_even_ge; lia).
  assert (Hl : 0 <= div_half_even (scale_num n x) (scale_den d x)) by (apply div_half_even_le; lia).
  assert (Hl' : x = -1074 \/ 2 ^ 52 <= div_half_even (scale_num n x) (scale_den d x)).
  { destruct H3; auto. right. apply div_half_even_le; lia. }
  set (y := div_half_even (scale_num n x) (scale_den d x)) in *. clearbody y x.
  destruct (Z.eqb_spec y (2 ^ 53)).
  - destruct (Z.eqb_spec (2 ^ 52) 0); [discriminate|].
    destruct (Z.ltb_spec 971 (x + 1)); [discriminate|]. intros [= <- <-]. right. lia.
  - destruct (Z.eqb_spec y 0); [intros [= <- <-]; left; auto|].
    destruct (Z.ltb_spec 971 x); [discriminate|]. intros [= <- <-]. right. lia.
Qed.

(** n/d = m * 2^e, written without division. *)
Definition exact (n d m e : Z) : Prop :=
  if 0 <=? e then n = m * 2 ^ e * d else n * 2 ^ (- e) = m * d.

Lemma exact_scaled n d m e K : exact n d m e -> 0 <= K -> 0 <= K + e ->
  n * 2 ^ K = m * d * 2 ^ (K + e).
Proof.
  unfold exact. intros H HK HKe. destruct (Z.leb_spec 0 e) as [He|He].
  - rewrite H, Z.pow_add_r by lia. ring.
  - replace (2 ^ K) with (2 ^ (- e) * 2 ^ (K + e)); [rewrite Z.mul_assoc, H; ring|].
    rewrite <- Z.pow_add_r by lia. f_equal. lia.
Qed.

Lemma round_mag_exact n d m e : 0 <= n -> 0 < d -> mag_ok m e -> exact n d m e ->
  round_mag n d = Some (m, e).
Proof.
  intros Hn Hd Hok Hex. unfold round_mag. destruct Hok as [[-> ->]|(Hm & He & Hm')].
  { unfold exact in Hex. simpl in Hex. subst n. reflexivity. }
  assert (Hn' : 0 < n).
  { pose proof (exact_scaled n d m e (Z.max 0 (- e)) Hex ltac:(lia) ltac:(lia)) as H.
    assert (0 < 2 ^ Z.max 0 (- e)) by (apply p2_pos; lia).
    assert (0 < 2 ^ (Z.max 0 (- e) + e)) by (apply p2_pos; lia). nia. }
  destruct (Z.eqb_spec n 0); [lia|].
  pose proof (f64_exponent_range n d Hn' Hd) as (H1 & H2 & H3). cbv zeta in *.
  set (x := f64_exponent n d) in *.
  assert (HB := scale_den_pos d Hd x). assert (HA := scale_num_pos n Hn' x).
  set (K := Z.max 0 (Z.max (- e) (- x))).
  assert (HR := scale_rel n d x K ltac:(lia) ltac:(lia)).
  assert (HE := exact_scaled n d m e K Hex ltac:(lia) ltac:(lia)).
  assert (HAB : scale_num n x * 2 ^ (K + x) = scale_den d x * m * 2 ^ (K + e)).
  { apply (Z.mul_reg_l _ _ d); [lia|]. transitivity (scale_num n x * (d * 2 ^ (K + x))); [ring|].
    rewrite HR, HE. ring. }
  set (A := scale_num n x) in *. set (B := scale_den d x) in *.
  assert (Hxe : x = e).
  { destruct (Z.lt_trichotomy x e) as [Hlt|[Heq|Hgt]]; auto; exfalso.
    - replace (2 ^ (K + e)) with (2 ^ (K + x) * 2 ^ (e - x)) in HAB by (rewrite <- Z.pow_add_r by lia; f_equal; lia).
      assert (HP : 0 < 2 ^ (K + x)) by (apply p2_pos; lia).
      assert (HT : 2 <= 2 ^ (e - x)).
      { replace (e - x) with (Z.succ (e - x - 1)) by lia. rewrite Z.pow_succ_r by lia.
        assert (0 < 2 ^ (e - x - 1)) by (apply p2_pos; lia). lia. }
      set (T := 2 ^ (e - x)) in *. set (P := 2 ^ (K + x)) in *.
      assert (A = B * m * T) by (apply (Z.mul_reg_r _ _ P); [lia|]; rewrite HAB; ring). destruct Hm' as [Hm' | ->]; [|lia].
      change (2 ^ 53) with (2 * 2 ^ 52) in *. assert (HX : 0 < 2 ^ 52) by reflexivity. set (X := 2 ^ 52) in *.
      assert (HmT : X * 2 <= m * T) by (apply Z.mul_le_mono_nonneg; lia).
      assert (B * (X * 2) <= B * (m * T)) by (apply Z.mul_le_mono_nonneg_l; lia). lia.
    - destruct H3 as [H3|H3]; [lia|].
      replace (2 ^ (K + x)) with (2 ^ (K + e) * 2 ^ (x - e)) in HAB by (rewrite <- Z.pow_add_r by lia; f_equal; lia).
      assert (HP : 0 < 2 ^ (K + e)) by (apply p2_pos; lia).
      assert (HT : 2 <= 2 ^ (x - e)).
      { replace (x - e) with (Z.succ (x - e - 1)) by lia. rewrite Z.pow_succ_r by lia.
        assert (0 < 2 ^ (x - e - 1)) by (apply p2_pos; lia). lia. }
      set (T := 2 ^ (x - e)) in *. set (P := 2 ^ (K + e)) in *.
      assert (A * T = B * m) by nia.
      change (2 ^ 53) with (2 * 2 ^ 52) in *. set (X := 2 ^ 52) in *. nia. }
  rewrite Hxe in *. 
  assert (HAm : A = m * B).
  { assert (HP : 0 < 2 ^ (K + e)) by (apply p2_pos; lia). apply (Z.mul_reg_r _ _ (2 ^ (K + e))); [lia|]. rewrite HAB. ring. }
  rewrite (div_half_even_exact A B m HB HAm).
  destruct (Z.eqb_spec m (2 ^ 53)); [lia|]. destruct (Z.eqb_spec m 0); [lia|].
  destruct (Z.ltb_spec 971 e); [lia|]. reflexivity.
Qed.

(** ** round64 *)

Lemma round64_ext s p q : (p == q)%Q -> round64 s p = round64 s q.
Proof. intros H. unfold round64. rewrite (Qred_complete p q H). reflexivity. Qed.

Lemma Qred_nonneg q : (0 <= q)%Q -> 0 <= Qnum (Qred q).
Proof.
  intros H. assert (H' : (0 <= Qred q)%Q) by (rewrite Qred_correct; exact H).
  unfold Qle in H'. simpl in H'. lia.
Qed.

Lemma round64_ok s q f : (0 <= q)%Q -> round64 s q = Some f -> f64_ok f = true /\ f_neg f = s.
Proof.
  intros Hq. unfold round64. destruct (round_mag _ _) as [[m e]|] eqn:E; [|discriminate].
  intros [= <-]. split; auto. apply f64_ok_mag. simpl.
  eapply round_mag_ok; [| |exact E]; [apply Qred_nonneg; auto|lia].
Qed.

Lemma exact_f64_mag s m e q : (q == f64_mag (F64 s m e))%Q -> exact (Qnum q) (Zpos (Qden q)) m e.
Proof.
  unfold exact, f64_mag. cbn [f_man f_exp]. destruct (Z.leb_spec 0 e) as [He|He]; unfold Qeq; simpl.
  - intros H. rewrite Z.mul_1_r in H. exact H.
  - intros H. rewrite Z2Pos.id in H by (apply p2_pos; lia). exact H.
Qed.

Lemma f64_mag_nonneg f : f64_ok f = true -> (0 <= f64_mag f)%Q.
Proof.
  intros H. apply f64_ok_mag in H. assert (0 <= f_man f) by (destruct H as [[-> _]|H]; lia).
  unfold f64_mag. destruct (0 <=? f_exp f) eqn:E; unfold Qle; simpl; [|lia].
  apply Z.leb_le in E. assert (0 < 2 ^ f_exp f) by (apply p2_pos; lia). nia.
Qed.

Lemma round64_exact s f q : f64_ok f = true -> (q == f64_mag f)%Q ->
  round64 s q = Some (F64 s (f_man f) (f_exp f)).
Proof.
  intros Hok Hq. destruct f as [s0 m e]. unfold round64.
  assert (Hq0 : (0 <= q)%Q) by (rewrite Hq; apply f64_mag_nonneg; auto).
  rewrite (round_mag_exact (Qnum (Qred q)) _ m e); auto.
  - apply Qred_nonneg; auto.
  - lia.
  - apply (proj1 (f64_ok_mag (F64 s0 m e))). exact Hok.
  - apply exact_f64_mag with (s := s0). rewrite Qred_correct. exact Hq.
Qed.
