(** round64 is rounding to nearest, ties to even. *)
From Coq Require Import Qpower Lqa.
From Verif Require Export SpecFloat FloatText NumSpec.
Open Scope Z_scope.

Lemma div_half_even_near A B m : 0 < B -> div_half_even A B = m ->
  2 * Z.abs (A - m * B) <= B /\ (2 * Z.abs (A - m * B) = B -> Z.even m = true).
Proof.
  intros HB. unfold div_half_even. pose proof (Z.div_mod A B ltac:(lia)) as E. pose proof (Z.mod_pos_bound A B HB) as Hr.
  set (q := A / B) in *. set (r := A mod B) in *. clearbody q r.
  assert (Eq0 : A - q * B = r) by lia. assert (Eq1 : A - (q + 1) * B = r - B) by lia.
  destruct (Z.compare_spec (2 * r) B) as [H|H|H].
  - destruct (Z.even q) eqn:Ev; intros <-; [rewrite Eq0|rewrite Eq1]; split; try lia; auto.
    intros _. rewrite Z.even_add, Ev. reflexivity.
  - intros <-. rewrite Eq0. lia.
  - intros <-. rewrite Eq1. lia.
Qed.

Lemma near_best A B m k : 0 < B -> 2 * Z.abs (A - m * B) <= B -> Z.abs (A - m * B) <= Z.abs (A - k * B).
Proof.
  intros HB H. destruct (Z.eq_dec k m) as [-> |Hk]; [lia|].
  assert (H1 : B <= Z.abs (k * B - m * B)).
  { replace (k * B - m * B) with ((k - m) * B) by ring. rewrite Z.abs_mul, (Z.abs_eq B) by lia.
    assert (1 <= Z.abs (k - m)) by lia. nia. }
  lia.
Qed.
Lemma near_tie A B m k : 0 < B -> 2 * Z.abs (A - m * B) <= B -> Z.abs (A - m * B) = Z.abs (A - k * B) ->
  k = m \/ 2 * Z.abs (A - m * B) = B /\ (k = m + 1 \/ k = m - 1).
Proof.
  intros HB H E. destruct (Z.eq_dec k m) as [-> |Hk]; [auto|right].
  assert (H1 : Z.abs (k * B - m * B) = Z.abs (k - m) * B).
  { replace (k * B - m * B) with ((k - m) * B) by ring. rewrite Z.abs_mul, (Z.abs_eq B) by lia. reflexivity. }
  assert (H2 : B <= Z.abs (k - m) * B) by (assert (1 <= Z.abs (k - m)) by lia; nia).
  assert (H3 : Z.abs (k - m) * B <= B) by lia.
  assert (H4 : Z.abs (k - m) = 1) by nia. lia.
Qed.

Open Scope Q_scope.

Definition p2 (e : Z) : Q := Qpower (2 # 1) e.
Lemma p2_gt e : 0 < p2 e.
Proof. apply Qpower_0_lt. reflexivity. Qed.
Lemma p2_add a b : p2 (a + b) == p2 a * p2 b.
Proof. apply Qpower_plus. discriminate. Qed.
Lemma p2_Z e : (0 <= e)%Z -> p2 e == inject_Z (2 ^ e).
Proof. intros H. unfold p2. change (2 # 1) with (inject_Z 2). rewrite <- Zpower_Qpower by auto. reflexivity. Qed.
Lemma p2_neg e : p2 (- e) * p2 e == 1.
Proof. rewrite <- p2_add. replace (- e + e)%Z with 0%Z by lia. reflexivity. Qed.

Lemma inject_pos z : (0 < z)%Z -> 0 < inject_Z z.
Proof. intros H. change 0 with (inject_Z 0). rewrite <- Zlt_Qlt. exact H. Qed.

(** n/d in units of 2^e. *)
Lemma scaled n d e : (0 < d)%Z ->
  inject_Z n * inject_Z (scale_den d e) == inject_Z d * inject_Z (scale_num n e) * p2 e.
Proof.
  intros Hd. unfold scale_num, scale_den. destruct (Z.leb_spec 0 e).
  - rewrite p2_Z by auto. rewrite inject_Z_mult. ring.
  - rewrite inject_Z_mult, <- (p2_Z (- e)) by lia.
    transitivity (inject_Z d * inject_Z n * (p2 (- e) * p2 e)); [rewrite p2_neg; ring|ring].
Qed.

Definition signed (neg : bool) (q : Q) : Q := if neg then - q else q.

Lemma f64_value_mag f : f64_value f == signed (f_neg f) (inject_Z (f_man f) * p2 (f_exp f)).
Proof. unfold f64_value, signed, p2. destruct (f_neg f); ring. Qed.

Section Round.
  Variables (n d : Z).
  Hypothesis Hn : (0 < n)%Z.
  Hypothesis Hd : (0 < d)%Z.
  Let e := f64_exponent n d.
  Let A := scale_num n e.
  Let B := scale_den d e.
  Let m := div_half_even A B.
  Let u := p2 e.
  Variable q : Q.
  Hypothesis Hq : q * inject_Z d == inject_Z n.

  Let HA : (0 < A)%Z := scale_num_pos n Hn e.
  Let HB : (0 < B)%Z := scale_den_pos d Hd e.
  Let c := u / inject_Z B.

  Lemma c_pos : 0 < c.
  Proof. unfold c. apply Qlt_shift_div_l; [apply inject_pos; auto|]. rewrite Qmult_0_l. apply p2_gt. Qed.
  Lemma c_u : inject_Z B * c == u.
  Proof. unfold c. field. intros E. pose proof (inject_pos B HB). rewrite E in H. discriminate. Qed.
  Lemma q_c : q == inject_Z A * c.
  Proof.
    pose proof (scaled n d e Hd) as H. fold A B u in H.
    pose proof (inject_pos B HB) as HB'. pose proof (inject_pos d Hd) as Hd'.
    assert (Hz : ~ inject_Z d == 0) by (intros E; rewrite E in Hd'; discriminate).
    assert (Hz2 : ~ inject_Z B == 0) by (intros E; rewrite E in HB'; discriminate).
    rewrite <- Hq in H. apply (Qmult_inj_l _ _ (inject_Z d) Hz). apply (Qmult_inj_l _ _ (inject_Z B) Hz2).
    transitivity (q * inject_Z d * inject_Z B); [ring|]. rewrite H. unfold c. field. exact Hz2.
  Qed.
  (** Distance to the k-th multiple of the unit. *)
  Lemma dist k : Qabs (q - inject_Z k * u) == inject_Z (Z.abs (A - k * B)) * c.
  Proof.
    rewrite q_c, <- c_u.
    setoid_replace (inject_Z A * c - inject_Z k * (inject_Z B * c)) with (inject_Z (A - k * B) * c).
    - rewrite Qabs_Qmult, (Qabs_pos c) by (apply Qlt_le_weak, c_pos). reflexivity.
    - unfold Zminus. rewrite inject_Z_plus, inject_Z_opp, inject_Z_mult. ring.
  Qed.
  Lemma dist_le k k' : Qabs (q - inject_Z k * u) <= Qabs (q - inject_Z k' * u) <-> (Z.abs (A - k * B) <= Z.abs (A - k' * B))%Z.
  Proof.
    rewrite !dist. rewrite (Qmult_le_r _ _ c c_pos). rewrite <- Zle_Qle. tauto.
  Qed.

  Lemma m_near : (2 * Z.abs (A - m * B) <= B)%Z /\ (2 * Z.abs (A - m * B) = B -> Z.even m = true)%Z.
  Proof. apply div_half_even_near; auto. Qed.

  (** Any float64 magnitude is a multiple of the unit, or too small. *)
  Lemma mag_cases mg eg : mag_ok mg eg -> mg <> 0%Z ->
    (exists k, inject_Z mg * p2 eg == inject_Z k * u /\ (Z.odd k = true -> eg = e /\ mg = k)) \/
    (0 <= inject_Z mg * p2 eg < inject_Z (2 ^ 52) * u /\ (2 ^ 52 * B <= A)%Z).
  Proof.
    intros Hok Hmg. destruct Hok as [[E _]|(H1 & H2 & H3)]; [congruence|].
    pose proof (f64_exponent_range n d Hn Hd) as (R1 & R2 & R3). cbv zeta in *. fold e A B in R1, R2, R3.
    destruct (Z.le_gt_cases e eg) as [He|He].
    - left. exists (mg * 2 ^ (eg - e))%Z. split.
      + rewrite inject_Z_mult, <- p2_Z by lia. unfold u. rewrite <- Qmult_assoc, <- p2_add.
        replace (eg - e + e)%Z with eg by lia. reflexivity.
      + intros Ho. rewrite Z.odd_mul, andb_true_iff in Ho. destruct Ho as [_ Ho].
        destruct (Z.eq_dec eg e) as [-> |]; [rewrite Z.sub_diag, Z.mul_1_r; auto|].
        rewrite Z.odd_pow in Ho by lia. discriminate.
    - right. destruct R3 as [R3|R3]; [lia|]. split; auto. split.
      + apply Qmult_le_0_compat; [change 0 with (inject_Z 0); rewrite <- Zle_Qle; lia|apply Qlt_le_weak, p2_gt].
      + unfold u. replace e with ((e - eg - 1) + 1 + eg)%Z by lia. rewrite !p2_add.
        rewrite Qmult_assoc. apply Qmult_lt_r; [apply p2_gt|].
        rewrite (p2_Z (e - eg - 1)), (p2_Z 1) by lia. rewrite <- !inject_Z_mult. rewrite <- Zlt_Qlt.
        assert (Hp : (1 <= 2 ^ (e - eg - 1))%Z) by (pose proof (p2_pos (e - eg - 1) ltac:(lia)); lia).
        set (t := (2 ^ (e - eg - 1))%Z) in *. clearbody t.
        change (2 ^ 1)%Z with 2%Z. change (2 ^ 52)%Z with 4503599627370496%Z. change (2 ^ 53)%Z with 9007199254740992%Z in *. lia.
  Qed.

  (** The rounded multiple is the best of all magnitudes. *)
  Lemma best mg eg : mag_ok mg eg ->
    Qabs (q - inject_Z m * u) <= Qabs (q - inject_Z mg * p2 eg) /\
    (Qabs (q - inject_Z m * u) == Qabs (q - inject_Z mg * p2 eg) ->
     inject_Z m * u == inject_Z mg * p2 eg \/ Z.even m = true /\ Z.odd mg = true).
  Proof.
    intros Hok. destruct m_near as [M1 M2].
    assert (HK : forall k, inject_Z mg * p2 eg == inject_Z k * u -> (Z.odd k = true -> eg = e /\ mg = k) ->
      Qabs (q - inject_Z m * u) <= Qabs (q - inject_Z mg * p2 eg) /\
      (Qabs (q - inject_Z m * u) == Qabs (q - inject_Z mg * p2 eg) ->
       inject_Z m * u == inject_Z mg * p2 eg \/ Z.even m = true /\ Z.odd mg = true)).
    { intros k Ek Ho. rewrite Ek. split; [apply dist_le; apply near_best; auto|]. intros E.
      assert (E' : Z.abs (A - m * B) = Z.abs (A - k * B)).
      { apply Z.le_antisymm; apply dist_le; rewrite E; apply Qle_refl. }
      destruct (near_tie A B m k HB M1 E') as [-> |[T Hk]]; [left; reflexivity|right].
      specialize (M2 T). split; auto.
      assert (Hodd : Z.odd k = true).
      { rewrite <- Z.negb_even. destruct Hk as [-> | ->]; [rewrite Z.even_add|rewrite Z.even_sub]; rewrite M2; reflexivity. }
      destruct (Ho Hodd) as [-> ->]. auto. }
    destruct (Z.eq_dec mg 0) as [-> |Hmg].
    - apply (HK 0%Z); [rewrite !Qmult_0_l; reflexivity|discriminate].
    - destruct (mag_cases mg eg Hok Hmg) as [(k & Ek & Ho)|[[L1 L2] L3]]; [apply (HK k); auto|].
      assert (Hlt : Qabs (q - inject_Z m * u) < Qabs (q - inject_Z mg * p2 eg)).
      { eapply Qle_lt_trans; [apply (dist_le m (2 ^ 52)); apply near_best; auto|].
        assert (Hq2 : inject_Z (2 ^ 52) * u <= q).
        { rewrite q_c, <- c_u, Qmult_assoc, <- inject_Z_mult. apply Qmult_le_r; [apply c_pos|]. rewrite <- Zle_Qle. auto. }
        set (x := inject_Z (2 ^ 52) * u) in *. set (y := inject_Z mg * p2 eg) in *.
        rewrite (Qabs_pos (q - x)), (Qabs_pos (q - y)) by lra. lra. }
      split; [apply Qlt_le_weak; auto|]. intros E. rewrite E in Hlt. exfalso. eapply Qlt_irrefl; eauto.
  Qed.
End Round.

(** The unit and significand chosen by round_mag. *)
Lemma round_mag_cases n d : (0 < n)%Z -> (0 < d)%Z ->
  let e := f64_exponent n d in let m := div_half_even (scale_num n e) (scale_den d e) in
  (0 <= m <= 2 ^ 53)%Z /\
  (forall m' e', round_mag n d = Some (m', e') ->
     inject_Z m' * p2 e' == inject_Z m * p2 e /\ (Z.even m = true -> Z.even m' = true)) /\
  (round_mag n d = None <-> (971 < e \/ e = 971 /\ m = 2 ^ 53)%Z).
Proof.
  intros Hn Hd. cbv zeta. pose proof (f64_exponent_range n d Hn Hd) as (R1 & R2 & R3). cbv zeta in *.
  unfold round_mag. destruct (Z.eqb_spec n 0); [lia|].
  set (e := f64_exponent n d) in *. set (A := scale_num n e) in *. set (B := scale_den d e) in *.
  assert (HB : (0 < B)%Z) by (apply scale_den_pos; auto).
  assert (HA : (0 < A)%Z) by (apply scale_num_pos; auto).
  assert (M1 : (div_half_even A B <= 2 ^ 53)%Z) by (apply div_half_even_ge; auto).
  assert (M0 : (0 <= div_half_even A B)%Z) by (apply div_half_even_le; lia).
  assert (M2 : (e = -1074 \/ 2 ^ 52 <= div_half_even A B)%Z).
  { destruct R3 as [R3|R3]; auto. right. apply div_half_even_le; auto. }
  set (m := div_half_even A B) in *. clearbody m A B.
  split; [lia|].
  destruct (Z.eqb_spec m (2 ^ 53)) as [Em|Em].
  - change (2 ^ 52 =? 0)%Z with false. cbv iota.
    destruct (Z.ltb_spec 971 (e + 1)).
    + split; [discriminate|]. split; auto. lia.
    + split; [|split; [discriminate|lia]]. intros m' e' [= <- <-]. split; [|reflexivity].
      rewrite p2_add, Em.
      assert (H53 : inject_Z (2 ^ 53) == inject_Z (2 ^ 52) * p2 1) by reflexivity. rewrite H53.
      change (inject_Z (Z.pow_pos 2 52)) with (inject_Z (2 ^ 52)). generalize (inject_Z (2 ^ 52)) (p2 1) (p2 e). intros. ring.
  - destruct (Z.eqb_spec m 0) as [E0|E0].
    + split; [|split; [discriminate|]].
      * intros m' e' [= <- <-]. rewrite E0. split; [|reflexivity]. rewrite !Qmult_0_l. reflexivity.
      * intros H. exfalso. destruct M2 as [M2|M2]; [lia|].
        change (2 ^ 52)%Z with 4503599627370496%Z in M2. lia.
    + destruct (Z.ltb_spec 971 e).
      * split; [discriminate|]. split; auto.
      * split; [|split; [discriminate|lia]]. intros m' e' [= <- <-]. split; [reflexivity|auto].
Qed.

(** Overflow. *)
Lemma round_mag_none n d q : (0 < n)%Z -> (0 < d)%Z -> q * inject_Z d == inject_Z n ->
  (round_mag n d = None <-> overflow_threshold <= q).
Proof.
  intros Hn Hd Hq. pose proof (round_mag_cases n d Hn Hd) as (M0 & _ & HN). cbv zeta in *. rewrite HN. clear HN.
  pose proof (f64_exponent_range n d Hn Hd) as (R1 & R2 & R3). cbv zeta in *.
  set (e := f64_exponent n d) in *.
  assert (Hqc := q_c n d Hd q Hq). assert (Hcu := c_u n d Hd). assert (Hc := c_pos n d Hd).
  fold e in Hqc, Hcu, Hc.
  set (A := scale_num n e) in *. set (B := scale_den d e) in *.
  assert (HB : (0 < B)%Z) by (apply scale_den_pos; auto).
  set (c := p2 e / inject_Z B) in *. clearbody c.
  assert (HT : forall z, inject_Z z * p2 e <= q <-> (z * B <= A)%Z).
  { intros z. rewrite Hqc, <- Hcu, Qmult_assoc, <- inject_Z_mult, (Qmult_le_r _ _ c Hc), <- Zle_Qle. tauto. }
  assert (HT2 : forall z, inject_Z z * p2 (e - 1) <= q <-> (z * B <= 2 * A)%Z).
  { intros z.
    assert (E : inject_Z z * p2 (e - 1) == inject_Z (z * B) * ((1 # 2) * c)).
    { rewrite inject_Z_mult. transitivity (inject_Z z * (inject_Z B * c) * (1 # 2)); [|ring].
      rewrite Hcu. replace (e - 1)%Z with (e + -1)%Z by lia. rewrite p2_add. change (p2 (-1)) with (1 # 2). ring. }
    assert (E2 : q == inject_Z (2 * A) * ((1 # 2) * c)).
    { rewrite Hqc, inject_Z_mult. transitivity ((inject_Z 2 * (1 # 2)) * (inject_Z A * c)); [|ring].
      change (inject_Z 2 * (1 # 2)) with (2 # 2). setoid_replace (2 # 2) with 1 by reflexivity. ring. }
    rewrite E, E2, Qmult_le_r, <- Zle_Qle; [tauto|]. lra. }
  assert (Hthr : overflow_threshold == inject_Z (2 ^ 54 - 1) * p2 970).
  { unfold overflow_threshold. rewrite inject_Z_mult, p2_Z by lia. reflexivity. }
  destruct (Z.lt_trichotomy e 971) as [He|[He|He]].
  - (* below *) split; [lia|]. intros H. exfalso.
    assert (H2 : inject_Z (2 ^ 53) * p2 e <= q).
    { eapply Qle_trans; [|exact H]. rewrite Hthr. replace 970%Z with (970 - e + e)%Z by lia. rewrite p2_add, Qmult_assoc.
      apply Qmult_le_r; [apply p2_gt|]. rewrite p2_Z, <- inject_Z_mult, <- Zle_Qle by lia.
      pose proof (p2_pos (970 - e) ltac:(lia)). set (t := (2 ^ (970 - e))%Z) in *. clearbody t.
      change (2 ^ 53)%Z with 9007199254740992%Z. change (2 ^ 54)%Z with 18014398509481984%Z. lia. }
    apply HT in H2. lia.
  - rewrite Hthr. replace 970%Z with (e - 1)%Z by lia. rewrite HT2. rewrite He. split.
    + intros [H|[_ H]]; [lia|].
      assert (Hnear : (2 * Z.abs (A - 2 ^ 53 * B) <= B)%Z) by (apply (div_half_even_near A B); auto). lia.
    + intros H. right. split; auto.
      destruct (Z.eq_dec (div_half_even A B) (2 ^ 53)) as [|Hne]; auto. exfalso.
      destruct (div_half_even_near A B _ HB eq_refl) as [N1 N2]. set (m := div_half_even A B) in *.
      assert (Hm : (m <= 2 ^ 53 - 1)%Z) by lia.
      assert (Hm2 : (m * B <= (2 ^ 53 - 1) * B)%Z) by (apply Z.mul_le_mono_nonneg_r; lia).
      assert (Hge : (B <= 2 * (A - m * B))%Z).
      { change (2 ^ 54)%Z with (2 * 2 ^ 53)%Z in H. lia. }
      assert (Heq : (2 * Z.abs (A - m * B) = B)%Z) by lia. specialize (N2 Heq).
      assert (Hm3 : (m * B = (2 ^ 53 - 1) * B)%Z).
      { change (2 ^ 54)%Z with (2 * 2 ^ 53)%Z in H. lia. }
      apply Z.mul_reg_r in Hm3; [|lia]. rewrite Hm3 in N2. discriminate.
  - split; [|auto]. intros _.
    assert (H2 : inject_Z (2 ^ 52) * p2 e <= q) by (apply HT; destruct R3; lia).
    eapply Qle_trans; [|exact H2]. rewrite Hthr. replace e with (e - 970 + 970)%Z by lia. rewrite p2_add, Qmult_assoc.
    apply Qmult_le_r; [apply p2_gt|]. rewrite p2_Z, <- inject_Z_mult, <- Zle_Qle by lia.
    assert (Hp : (2 ^ 2 <= 2 ^ (e - 970))%Z) by (apply Z.pow_le_mono_r; lia).
    set (t := (2 ^ (e - 970))%Z) in *. clearbody t.
    change (2 ^ 2)%Z with 4%Z in Hp. change (2 ^ 52)%Z with 4503599627370496%Z. change (2 ^ 54)%Z with 18014398509481984%Z. lia.
Qed.

Lemma binary64_mag f : binary64 f <-> mag_ok (f_man f) (f_exp f).
Proof. unfold binary64, mag_ok. tauto. Qed.

Lemma Qred_fraction q : q * inject_Z (Zpos (Qden (Qred q))) == inject_Z (Qnum (Qred q)).
Proof. rewrite <- (Qred_correct q) at 1. unfold Qeq, inject_Z, Qmult. simpl. rewrite !Pos.mul_1_r. lia. Qed.

Lemma f64_mag_p2 f : f64_mag f == inject_Z (f_man f) * p2 (f_exp f).
Proof.
  unfold f64_mag. destruct (Z.leb_spec 0 (f_exp f)).
  - rewrite p2_Z, <- inject_Z_mult by auto. reflexivity.
  - pose proof (p2_neg (f_exp f)) as E. rewrite p2_Z in E by lia.
    pose proof (p2_pos (- f_exp f) ltac:(lia)) as Hp.
    assert (Hz : ~ inject_Z (2 ^ (- f_exp f)) == 0) by (intros E'; rewrite E' in E; discriminate).
    apply (Qmult_inj_l _ _ _ Hz).
    transitivity (inject_Z (f_man f) * (inject_Z (2 ^ - f_exp f) * p2 (f_exp f))); [rewrite E|ring].
    set (t := (2 ^ (- f_exp f))%Z) in *. clearbody t. destruct t as [|r|r]; try lia.
    cbn [Z.to_pos]. rewrite (Qmake_Qdiv (f_man f) r). field. exact Hz.
Qed.

Lemma value_mag_inj m e m' e' : mag_ok m e -> mag_ok m' e' ->
  inject_Z m * p2 e == inject_Z m' * p2 e' -> m = m' /\ e = e'.
Proof.
  intros H H' E.
  pose proof (round64_exact false (F64 false m e) (f64_mag (F64 false m' e')) (proj2 (f64_ok_mag (F64 false m e)) H)) as R1.
  pose proof (round64_exact false (F64 false m' e') (f64_mag (F64 false m' e')) (proj2 (f64_ok_mag (F64 false m' e')) H') (Qeq_refl _)) as R2.
  rewrite R2 in R1. cbn [f_man f_exp] in R1.
  specialize (R1 ltac:(rewrite !f64_mag_p2; cbn [f_man f_exp]; symmetry; exact E)). injection R1. auto.
Qed.

Lemma mag_nonneg m e : mag_ok m e -> 0 <= inject_Z m * p2 e.
Proof.
  intros H. apply Qmult_le_0_compat; [|apply Qlt_le_weak, p2_gt]. change 0 with (inject_Z 0). rewrite <- Zle_Qle.
  destruct H as [[-> _]|H]; lia.
Qed.

Lemma dist_sign s s' q x : 0 <= q -> 0 <= x ->
  Qabs (signed s q - signed s' x) == (if Bool.eqb s s' then Qabs (q - x) else q + x).
Proof.
  intros Hq Hx. destruct s, s'; cbn [signed Bool.eqb].
  - setoid_replace (- q - - x) with (- (q - x)) by ring. apply Qabs_opp.
  - setoid_replace (- q - x) with (- (q + x)) by ring. rewrite Qabs_opp. apply Qabs_pos. lra.
  - setoid_replace (q - - x) with (q + x) by ring. apply Qabs_pos. lra.
  - reflexivity.
Qed.
Lemma dist_tri q x : 0 <= q -> 0 <= x -> Qabs (q - x) <= q + x.
Proof. intros. apply Qabs_Qle_condition. lra. Qed.

(** The strong form: distances, and what a tie means. *)
Lemma round64_best s q f : 0 < q -> round64 s q = Some f -> forall g, binary64 g ->
  let x := inject_Z (f_man f) * p2 (f_exp f) in let y := inject_Z (f_man g) * p2 (f_exp g) in
  Qabs (q - x) <= Qabs (q - y) /\
  (Qabs (q - x) == Qabs (q - y) -> x == y \/ Z.even (f_man f) = true /\ Z.odd (f_man g) = true).
Proof.
  intros Hq Hr g Hg. cbv zeta. unfold round64 in Hr.
  assert (Hn : (0 < Qnum (Qred q))%Z).
  { assert (H : 0 < Qred q) by (rewrite Qred_correct; auto). unfold Qlt in H. simpl in H. lia. }
  set (n := Qnum (Qred q)) in *. set (d := Zpos (Qden (Qred q))) in *. assert (Hd : (0 < d)%Z) by (unfold d; lia).
  assert (Hqd : q * inject_Z d == inject_Z n) by apply Qred_fraction.
  destruct (round_mag n d) as [[m' e']|] eqn:Em; [|discriminate]. injection Hr as <-. cbn [f_man f_exp].
  pose proof (round_mag_cases n d Hn Hd) as (_ & HC & _). cbv zeta in HC. destruct (HC _ _ Em) as [Ev Eev].
  rewrite Ev. destruct (best n d Hn Hd q Hqd (f_man g) (f_exp g) (proj1 (binary64_mag g) Hg)) as [B1 B2].
  split; auto. intros T. destruct (B2 T) as [B|[B3 B4]]; auto.
Qed.

Theorem round64_nearest s q f : 0 <= q -> round64 s q = Some f -> nearest_even (signed s q) f.
Proof.
  intros Hq Hr. destruct (round64_ok s q f Hq Hr) as [Hok Hs]. apply f64_ok_mag in Hok.
  split; [apply binary64_mag; auto|]. intros g Hg. rewrite !f64_value_mag, Hs.
  pose proof (mag_nonneg _ _ Hok) as Hx. pose proof (mag_nonneg _ _ (proj1 (binary64_mag g) Hg)) as Hy.
  destruct (Qlt_le_dec 0 q) as [Hq0|Hq0].
  - pose proof (round64_best s q f Hq0 Hr g Hg) as [B1 B2]. cbv zeta in *.
    set (x := inject_Z (f_man f) * p2 (f_exp f)) in *. set (y := inject_Z (f_man g) * p2 (f_exp g)) in *.
    rewrite !dist_sign by auto. rewrite Bool.eqb_reflx. pose proof (dist_tri q y Hq Hy) as HT.
    destruct (Bool.eqb s (f_neg g)) eqn:Es.
    + split; auto. intros T. destruct (B2 T) as [B|[B _]]; auto. left.
      apply Bool.eqb_prop in Es. rewrite <- Es. unfold signed. destruct s; rewrite B; reflexivity.
    + split; [lra|]. intros T. assert (T2 : Qabs (q - x) == Qabs (q - y)) by (apply Qle_antisym; lra).
      destruct (B2 T2) as [B|[B _]]; auto. left.
      assert (Hx0 : x == 0).
      { rewrite <- B in T. revert T. apply Qabs_case; intros; lra. }
      assert (Hy0 : y == 0) by (rewrite <- B; exact Hx0).
      unfold signed. destruct s, (f_neg g); rewrite Hx0, Hy0; reflexivity.
  - assert (Hq1 : q == 0) by (apply Qle_antisym; auto).
    assert (Hf : f_man f = 0%Z).
    { rewrite (round64_ext s q 0 Hq1) in Hr. injection Hr as <-. reflexivity. }
    rewrite Hf. set (y := inject_Z (f_man g) * p2 (f_exp g)) in *.
    assert (E : Qabs (signed s q - signed s (inject_Z 0 * p2 (f_exp f))) == 0).
    { rewrite dist_sign, Bool.eqb_reflx by (auto; rewrite Qmult_0_l; apply Qle_refl).
      rewrite Hq1, Qmult_0_l. reflexivity. }
    rewrite E. split; [apply Qabs_nonneg|]. intros _. right. reflexivity.
Qed.

Theorem nearest_unique s q f g : 0 <= q -> round64 s q = Some f -> nearest_even (signed s q) g -> f_neg g = s -> g = f.
Proof.
  intros Hq Hr [Hg HN] Hs. destruct (round64_ok s q f Hq Hr) as [Hok Hsf].
  assert (Hbf : binary64 f) by (apply binary64_mag, f64_ok_mag; auto).
  pose proof (proj1 (binary64_mag f) Hbf) as Mf. pose proof (proj1 (binary64_mag g) Hg) as Mg.
  pose proof (mag_nonneg _ _ Mf) as Hx. pose proof (mag_nonneg _ _ Mg) as Hy.
  assert (HV : inject_Z (f_man g) * p2 (f_exp g) == inject_Z (f_man f) * p2 (f_exp f) -> g = f).
  { intros E. destruct (value_mag_inj _ _ _ _ Mg Mf E) as [E1 E2]. destruct f, g; simpl in *; congruence. }
  destruct (HN f Hbf) as [N1 N2]. rewrite !f64_value_mag, Hs, Hsf in N1, N2.
  rewrite !dist_sign, Bool.eqb_reflx in N1, N2 by auto.
  apply HV. destruct (Qlt_le_dec 0 q) as [Hq0|Hq0].
  - pose proof (round64_best s q f Hq0 Hr g Hg) as [B1 B2]. cbv zeta in *.
    assert (T : Qabs (q - inject_Z (f_man f) * p2 (f_exp f)) == Qabs (q - inject_Z (f_man g) * p2 (f_exp g))) by (apply Qle_antisym; auto).
    destruct (B2 T) as [B|[B3 B4]]; [symmetry; auto|].
    destruct (N2 (Qeq_sym _ _ T)) as [N|N].
    + unfold signed in N. destruct s; auto. apply Qopp_comp in N. rewrite !Qopp_involutive in N. auto.
    + rewrite <- Z.negb_odd, B4 in N. discriminate.
  - assert (Hq1 : q == 0) by (apply Qle_antisym; auto).
    assert (Hf : f_man f = 0%Z).
    { rewrite (round64_ext s q 0 Hq1) in Hr. injection Hr as <-. reflexivity. }
    rewrite Hf, Qmult_0_l in *. rewrite Hq1 in N1.
    setoid_replace (0 - inject_Z (f_man g) * p2 (f_exp g)) with (- (inject_Z (f_man g) * p2 (f_exp g))) in N1 by ring.
    rewrite Qabs_opp, Qabs_pos in N1 by auto. change (Qabs (0 - 0)) with 0 in N1. apply Qle_antisym; auto.
Qed.

(** ** strconv.ParseFloat *)

Lemma parse_dec_sign s d : json_number s = true -> parse_dec s = Some d ->
  d_neg d = (match s with String "-" _ => true | _ => false end).
Proof.
  intros H E. destruct (json_number_parts s H) as (g & i & f & e & Hg & Hi & Hf & He & ->).
  rewrite parse_dec_parts in E by auto. injection E as <-. cbn [parts_dec d_neg].
  destruct Hg as [-> | ->]; [|reflexivity]. destruct (int_part_digits i Hi) as [H1 H2].
  destruct i as [|c i]; [congruence|]. apply digits_cons in H1. destruct H1 as [Hc _]. cbn [append].
  destruct c as [[] [] [] [] [] [] [] []]; try reflexivity; discriminate Hc.
Qed.

Lemma overflow_pos : 0 < overflow_threshold.
Proof. apply inject_pos. apply Z.mul_pos_pos; [reflexivity|apply p2_pos; lia]. Qed.

Lemma round64_none s q : 0 <= q -> (round64 s q = None <-> overflow_threshold <= q).
Proof.
  intros Hq. unfold round64. destruct (Qlt_le_dec 0 q) as [Hq0|Hq0].
  - assert (Hn : (0 < Qnum (Qred q))%Z).
    { assert (H : 0 < Qred q) by (rewrite Qred_correct; auto). unfold Qlt in H. simpl in H. lia. }
    rewrite <- (round_mag_none _ (Zpos (Qden (Qred q))) q Hn ltac:(lia) (Qred_fraction q)).
    destruct (round_mag _ _) as [[m e]|]; split; congruence.
  - assert (Hq1 : q == 0) by (apply Qle_antisym; auto).
    rewrite (Qred_complete q 0 Hq1). pose proof overflow_pos. split; [discriminate|]. intros H2. rewrite Hq1 in H2. exfalso. lra.
Qed.

Lemma dec_val_signed d : dec_val d = signed (d_neg d) (q10 (dec_mant d) (dec_e10 d)).
Proof. reflexivity. Qed.
Lemma signed_abs s q : 0 <= q -> Qabs (signed s q) == q.
Proof. intros H. destruct s; cbn [signed]; [rewrite Qabs_opp|]; apply Qabs_pos; auto. Qed.

Lemma nearest_ext p q f : p == q -> nearest_even p f -> nearest_even q f.
Proof. intros E [H1 H2]. split; auto. intros g Hg. rewrite <- E. auto. Qed.

Theorem parse_float_reads s f : json_number s = true -> (parse_float s = Some f <-> reads_as s f).
Proof.
  intros Hs. destruct (json_number_parse s Hs) as (d & Ed & Hden). pose proof (parse_dec_sign s d Hs Ed) as Hsg.
  assert (Hq : 0 <= q10 (dec_mant d) (dec_e10 d)) by (apply q10_nonneg; eapply parse_dec_nonneg; eauto).
  unfold parse_float. rewrite Ed. set (q := q10 (dec_mant d) (dec_e10 d)) in *.
  assert (Hdv : dec_val d = signed (d_neg d) q) by reflexivity.
  split.
  - intros Hr. exists (dec_val d). split; auto. rewrite Hdv. split; [|split; [apply round64_nearest; auto|]].
    + rewrite signed_abs by auto. apply Qnot_le_lt. intros H. apply (round64_none (d_neg d) q Hq) in H. congruence.
    + rewrite <- Hsg. eapply round64_ok; eauto.
  - intros (q' & Hden' & Hlt & HN & Hneg).
    assert (E : q' == signed (d_neg d) q) by (rewrite <- Hdv; eapply denotes_unique; eauto).
    rewrite E, signed_abs in Hlt by auto.
    destruct (round64 (d_neg d) q) as [f0|] eqn:Er.
    2:{ apply (round64_none _ _ Hq) in Er. exfalso. lra. }
    f_equal. symmetry. apply (nearest_unique (d_neg d) q f0 f Hq Er); [|congruence].
    eapply nearest_ext; [exact E|exact HN].
Qed.

Theorem parse_float_none s q : denotes s q -> (parse_float s = None <-> overflow_threshold <= Qabs q).
Proof.
  intros Hden. destruct (denotes_parse s q Hden) as (Hs & d & Ed & Hd).
  assert (Hq : 0 <= q10 (dec_mant d) (dec_e10 d)) by (apply q10_nonneg; eapply parse_dec_nonneg; eauto).
  unfold parse_float. rewrite Ed, (round64_none _ _ Hq), <- Hd, dec_val_signed, signed_abs by auto. tauto.
Qed.
