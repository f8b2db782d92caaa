(** What %v prints of new(big.Float).SetRat(q) is a JSON number that is q
    itself, or close to it. *)
From Coq Require Import Lia.
From Verif Require Import ModelShow NumText NumSpec NumExact FloatNearest FloatText ShowDigits ShowShortest.
Open Scope Z_scope.

(** ** The text of a decimal *)
Lemma dec_text_length l : String.length (dec_text l) = length l.
Proof. unfold dec_text. induction l as [|x l IH]; [reflexivity|]. cbn. rewrite IH. reflexivity. Qed.
Lemma dec_text_spec l : digs l -> digits (dec_text l) /\ forall a, digits_val a (dec_text l) = fold_left (fun a x => a * 10 + x) l a.
Proof.
  induction l as [|x l IH]; intros H; [split; [apply digits_nil|reflexivity]|]. inversion H as [|? ? H1 H2]; subst. destruct (IH H2) as [D V]. destruct (digit_char_spec x H1) as [C1 C2].
  unfold dec_text in *. cbn [map string_of_list_ascii]. split; [apply digits_cons; auto|]. intros a. cbn [digits_val fold_left]. rewrite C2. apply V.
Qed.
Lemma dec_text_head l : digs l -> lead l -> head_nz (dec_text l).
Proof.
  destruct l as [|x l]; intros H K; [destruct K|]. inversion H as [|? ? H1 H2]; subst. destruct (digit_char_spec x H1) as [_ C2]. cbn in *. intros E. rewrite E in C2. change (digit_val "0") with 0 in C2. lia.
Qed.
Lemma big_exp_part x : exp_part (big_exp x) /\ exp_value (big_exp x) = x.
Proof.
  unfold big_exp. destruct (z2s_spec (Z.abs x) ltac:(lia)) as (H1 & H2 & H3 & _).
  set (ds := ((if (Z.abs x <? 10)%Z then "0" else "") ++ z2s (Z.abs x))%string).
  assert (D : digits ds /\ ds <> ""%string /\ digits_val 0 ds = Z.abs x).
  { unfold ds. destruct (Z.abs x <? 10); [|auto]. cbn [append]. split; [apply digits_cons; auto|]. split; [discriminate|]. cbn [digits_val]. exact H2. }
  destruct D as (D1 & D2 & D3). destruct (Z.ltb_spec x 0).
  - split; [right; exists "e"%char, "-"%string, ds; auto 10|]. cbn [append exp_value]. rewrite D3. lia.
  - split; [right; exists "e"%char, "+"%string, ds; auto 10|]. cbn [append exp_value]. rewrite D3. lia.
Qed.
Lemma show_dec_text N d X : rep N d X -> is_text X (- N) (show_dec d).
Proof.
  intros (H1 & H2 & _ & H4 & HX). destruct (dec_text_spec _ H1) as [D V]. specialize (V 0). pose proof (dec_text_head _ H1 H2) as HH.
  assert (NE : dec_text (dm d) <> ""%string) by (destruct (dm d); [destruct H2|discriminate]).
  assert (Q : (q10 X (- N) == q10 (ofd (dm d)) (de d - len (dm d)))%Q).
  { rewrite HX, q10_shift by lia. replace (- N + (de d + N - len (dm d))) with (de d - len (dm d)) by lia. reflexivity. }
  assert (T : forall t, is_text (ofd (dm d)) (de d - len (dm d)) t -> is_text X (- N) t).
  { intros t (i & f & e & A1 & A2 & A3 & A4 & A5). exists i, f, e. rewrite Q. auto. }
  unfold show_dec. destruct (dm d) as [|x l] eqn:Ed; [destruct H2|]. rewrite <- Ed in *. cbv zeta. apply T.
  destruct ((de d - 1 <? -4) || (6 <=? de d - 1))%bool.
  - destruct (pad_take_spec 1 _ D) as (P1 & P2 & P3 & P4 & _). destruct (with_frac_part _ P2) as [Hf Hfd]. destruct (big_exp_part (de d - 1)) as [He Hev].
    exists (pad_take 1 (dec_text (dm d))), (with_frac (drop 1 (dec_text (dm d)))), (big_exp (de d - 1)).
    assert (Hl : (1 <= String.length (dec_text (dm d)))%nat) by (rewrite dec_text_length, Ed; cbn; lia). destruct (P4 Hl) as [E1 E2].
    split; [right; split; auto; destruct (dec_text (dm d)); [congruence|split; [discriminate|exact HH]]|]. split; auto. split; auto. split; auto.
    unfold dec_mant, dec_e10, parts_dec. cbn [d_int d_frac d_exp]. rewrite Hfd, Hev, E1, E2, V. fold (ofd (dm d)). rewrite dec_text_length in *.
    replace (de d - 1 - Z.of_nat (length (dm d) - 1)) with (de d - len (dm d)) by lia. reflexivity.
  - pose proof (fmt_f_text (dec_text (dm d)) (ofd (dm d)) (de d - len (dm d)) D NE V HH) as F. rewrite dec_text_length in F. replace (de d - len (dm d) + len (dm d)) with (de d) in F by lia. exact F.
Qed.
Lemma text_denotes c p t : is_text c p t -> denotes t (q10 c p) /\ denotes (String "-" t) (- q10 c p).
Proof.
  intros (i & f & e & H1 & H2 & H3 & -> & Q). split.
  - assert (J : json_number (append "" (append i (append f e))) = true) by (apply parts_json_number; auto; left; reflexivity).
    destruct (json_number_parse _ J) as (x & E & D). rewrite parse_dec_parts in E by (auto; left; reflexivity). injection E as <-. eapply denotes_ext; [exact D|]. exact Q.
  - assert (J : json_number (append "-" (append i (append f e))) = true) by (apply parts_json_number; auto; right; reflexivity).
    destruct (json_number_parse _ J) as (x & E & D). rewrite parse_dec_parts in E by (auto; right; reflexivity). injection E as <-. eapply denotes_ext; [exact D|]. unfold dec_val. cbn [d_neg parts_dec].
    change (q10 (dec_mant (parts_dec "" i f e)) (dec_e10 (parts_dec "" i f e)) == q10 c p)%Q in Q. apply Qopp_comp. exact Q.
Qed.

(** ** Rounding to a big.Float *)
Lemma pow2 k : 0 <= k -> 0 < 2 ^ k.
Proof. intros H. apply Z.pow_pos_nonneg; lia. Qed.
Lemma scale_pos n d e : 0 < n -> 0 < d -> 0 < scale_num n e /\ 0 < scale_den d e.
Proof.
  intros Hn Hd. unfold scale_num, scale_den. destruct (Z.leb_spec 0 e); [pose proof (pow2 e ltac:(lia)); nia|pose proof (pow2 (- e) ltac:(lia)); nia].
Qed.
Lemma scale_next n d e : scale_num n e * scale_den d (e + 1) = 2 * scale_num n (e + 1) * scale_den d e.
Proof.
  unfold scale_num, scale_den. destruct (Z.leb_spec 0 e), (Z.leb_spec 0 (e + 1)); try lia.
  - rewrite Z.pow_add_r by lia. change (2 ^ 1) with 2. ring.
  - replace (- e) with 1 by lia. replace (e + 1) with 0 by lia. change (2 ^ 1) with 2. change (2 ^ 0) with 1. ring.
  - replace (- e) with (- (e + 1) + 1) by lia. rewrite Z.pow_add_r by lia. change (2 ^ 1) with 2. ring.
Qed.
Lemma scale_first n d prec : 0 < n -> 0 < d -> 1 <= prec -> let e0 := Z.log2 n - Z.log2 d - prec in
  2 ^ (prec - 1) * scale_den d e0 < scale_num n e0 < 2 ^ (prec + 1) * scale_den d e0.
Proof.
  intros Hn Hd Hp e0. destruct (Z.log2_spec n Hn) as [N1 N2]. destruct (Z.log2_spec d Hd) as [D1 D2]. pose proof (Z.log2_nonneg n). pose proof (Z.log2_nonneg d).
  rewrite <- Z.add_1_r in N2, D2. unfold scale_num, scale_den. destruct (Z.leb_spec 0 e0) as [H1|H1].
  - pose proof (pow2 e0 H1) as P. pose proof (pow2 (prec - 1) ltac:(lia)). pose proof (pow2 (prec + 1) ltac:(lia)). split.
    + assert (A : 2 ^ (prec - 1) * (2 ^ (Z.log2 d + 1) * 2 ^ e0) = 2 ^ Z.log2 n) by (rewrite <- !Z.pow_add_r by lia; f_equal; unfold e0; lia).
      assert (d * 2 ^ e0 < 2 ^ (Z.log2 d + 1) * 2 ^ e0) by nia. nia.
    + assert (A : 2 ^ (prec + 1) * (2 ^ Z.log2 d * 2 ^ e0) = 2 ^ (Z.log2 n + 1)) by (rewrite <- !Z.pow_add_r by lia; f_equal; unfold e0; lia).
      assert (2 ^ Z.log2 d * 2 ^ e0 <= d * 2 ^ e0) by nia. nia.
  - pose proof (pow2 (- e0) ltac:(lia)) as P. pose proof (pow2 (prec - 1) ltac:(lia)). pose proof (pow2 (prec + 1) ltac:(lia)). split.
    + assert (A : 2 ^ (prec - 1) * 2 ^ (Z.log2 d + 1) = 2 ^ Z.log2 n * 2 ^ (- e0)) by (rewrite <- !Z.pow_add_r by lia; f_equal; unfold e0; lia). nia.
    + assert (A : 2 ^ (prec + 1) * 2 ^ Z.log2 d = 2 ^ (Z.log2 n + 1) * 2 ^ (- e0)) by (rewrite <- !Z.pow_add_r by lia; f_equal; unfold e0; lia). nia.
Qed.

(** The mantissa is normalized and half a unit away at most; a tie goes to even. *)
Definition rounds (n d : Z) (x : bfloat) : Prop :=
  2 ^ (b_prec x - 1) <= b_man x < 2 ^ b_prec x /\
  let A := scale_num n (b_exp x) in let B := scale_den d (b_exp x) in
  (2 * b_man x - 1) * B <= 2 * A <= (2 * b_man x + 1) * B /\
  (Z.even (b_man x) = false -> (2 * b_man x - 1) * B < 2 * A < (2 * b_man x + 1) * B).
Lemma round_rounds prec n d : 2 <= prec -> 0 < n -> 0 < d -> rounds n d (big_round prec n d) /\ b_prec (big_round prec n d) = prec.
Proof.
  intros Hp Hn Hd. unfold big_round. cbv zeta. pose proof (scale_first n d prec Hn Hd ltac:(lia)) as F. cbv zeta in F. set (e0 := Z.log2 n - Z.log2 d - prec) in *.
  set (e := if scale_num n e0 / scale_den d e0 <? 2 ^ prec then e0 else e0 + 1). destruct (scale_pos n d e Hn Hd) as [PA PB]. destruct (scale_pos n d e0 Hn Hd) as [PA0 PB0].
  assert (Q : 2 ^ prec = 2 * 2 ^ (prec - 1)) by (replace prec with ((prec - 1) + 1) at 1 by lia; rewrite Z.pow_add_r by lia; change (2 ^ 1) with 2; ring).
  assert (Q2 : 2 ^ (prec + 1) = 2 * 2 ^ prec) by (rewrite Z.pow_add_r by lia; change (2 ^ 1) with 2; ring).
  assert (R : 2 ^ (prec - 1) * scale_den d e <= scale_num n e < 2 ^ prec * scale_den d e).
  { unfold e in *. destruct (Z.ltb_spec (scale_num n e0 / scale_den d e0) (2 ^ prec)) as [C|C].
    - pose proof (Z.div_mod (scale_num n e0) (scale_den d e0) ltac:(lia)). pose proof (Z.mod_pos_bound (scale_num n e0) (scale_den d e0) PB0). nia.
    - pose proof (scale_next n d e0) as S. pose proof (Z.mul_div_le (scale_num n e0) (scale_den d e0) PB0) as G.
      assert (G2 : scale_den d e0 * 2 ^ prec <= scale_num n e0) by nia.
      assert (G3 : 2 * (2 ^ (prec - 1) * scale_den d (e0 + 1)) * scale_den d e0 <= 2 * scale_num n (e0 + 1) * scale_den d e0) by (rewrite <- S; nia).
      assert (G4 : 2 * scale_num n (e0 + 1) * scale_den d e0 < 2 * (2 ^ prec * scale_den d (e0 + 1)) * scale_den d e0) by (rewrite <- S; nia).
      split; [apply Zmult_le_reg_r with (p := scale_den d e0); lia|apply Zmult_lt_reg_r with (p := scale_den d e0); lia]. }
  destruct (div_half_even_near (scale_num n e) (scale_den d e) _ PB eq_refl) as [M1 M2]. set (m := div_half_even (scale_num n e) (scale_den d e)) in *.
  pose proof (pow2 (prec - 1) ltac:(lia)) as P1.
  assert (M : 2 ^ (prec - 1) <= m <= 2 ^ prec) by nia.
  destruct (Z.eqb_spec m (2 ^ prec)) as [C|C].
  - split; [|reflexivity]. unfold rounds. cbn [b_prec b_man b_exp]. split; [lia|]. cbv zeta. destruct (scale_pos n d (e + 1) Hn Hd) as [PA1 PB1]. pose proof (scale_next n d e) as S.
    assert (EV : Z.even (2 ^ (prec - 1)) = true). { replace (prec - 1) with (Z.succ (prec - 2)) by lia. rewrite Z.pow_succ_r by lia. apply Z.even_mul. }
    rewrite EV. split; [|discriminate]. rewrite C in M1.
    assert (G1 : (2 * 2 ^ (prec - 1) - 1) * scale_den d (e + 1) * scale_den d e <= 2 * scale_num n (e + 1) * scale_den d e) by (rewrite <- S; nia).
    assert (G2 : 2 * scale_num n (e + 1) * scale_den d e <= (2 * 2 ^ (prec - 1) + 1) * scale_den d (e + 1) * scale_den d e) by (rewrite <- S; nia).
    split; apply Zmult_le_reg_r with (p := scale_den d e); lia.
  - split; [|reflexivity]. unfold rounds. cbn [b_prec b_man b_exp]. split; [lia|]. cbv zeta. split; [lia|]. intros EV.
    destruct (Z.eq_dec (2 * Z.abs (scale_num n e - m * scale_den d e)) (scale_den d e)) as [T|T]; [|lia]. rewrite (M2 T) in EV. discriminate.
Qed.

(** ** Lower, x and upper as integers: 2m-1, 2m and 2m+1 half units *)
Definition scal (m s N : Z) : Z := if 0 <=? s then m * 2 ^ s * 10 ^ N else m * 5 ^ (- s) * 10 ^ (N + s).
Lemma scal_lin m s N : scal m s N = m * scal 1 s N.
Proof. unfold scal. destruct (0 <=? s); ring. Qed.
Lemma ten_split k : 0 <= k -> 10 ^ (k + 1) = 2 * (5 * 10 ^ k).
Proof. intros H. rewrite p10_S by lia. lia. Qed.
Lemma scal_half s N : 0 <= N -> 0 <= N + s - 1 -> scal 1 s N = 2 * scal 1 (s - 1) N.
Proof.
  intros HN Hs. unfold scal. destruct (Z.leb_spec 0 s), (Z.leb_spec 0 (s - 1)); try lia.
  - replace (2 ^ s) with (2 * 2 ^ (s - 1)); [ring|]. rewrite <- Z.pow_succ_r by lia. f_equal. lia.
  - assert (s = 0) by lia. subst s. change (2 ^ 0) with 1. change (5 ^ (- (0 - 1))) with 5. replace N with ((N + (0 - 1)) + 1) at 1 by lia. rewrite ten_split by lia. lia.
  - replace (5 ^ (- (s - 1))) with (5 * 5 ^ (- s)) by (rewrite <- Z.pow_succ_r by lia; f_equal; lia). replace (N + s) with ((N + (s - 1)) + 1) at 1 by lia. rewrite ten_split by lia. ring.
Qed.
Lemma scal_pos s N : 0 <= N -> 0 <= N + s -> 0 < scal 1 s N.
Proof.
  intros HN Hs. unfold scal. destruct (Z.leb_spec 0 s).
  - pose proof (pow2 s ltac:(lia)). pose proof (p10 N HN). nia.
  - pose proof (Z.pow_pos_nonneg 5 (- s) ltac:(lia) ltac:(lia)). pose proof (p10 (N + s) Hs). nia.
Qed.
Lemma scal_ratio n d e N : 0 <= N -> 0 <= N + e - 1 -> 2 * scale_num n e * scal 1 (e - 1) N * d = n * 10 ^ N * scale_den d e.
Proof.
  intros HN He. unfold scale_num, scale_den. destruct (Z.leb_spec 0 e) as [H|H].
  - assert (E : 2 * scal 1 (e - 1) N = 2 ^ e * 10 ^ N) by (rewrite <- scal_half by lia; unfold scal; destruct (Z.leb_spec 0 e); [ring|lia]).
    replace (2 * n * scal 1 (e - 1) N * d) with (n * (2 * scal 1 (e - 1) N) * d) by ring. rewrite E. ring.
  - assert (E : 2 * scal 1 (e - 1) N = 5 ^ (- e) * 10 ^ (N + e)) by (rewrite <- scal_half by lia; unfold scal; destruct (Z.leb_spec 0 e); [lia|ring]).
    replace (2 * (n * 2 ^ (- e)) * scal 1 (e - 1) N * d) with (n * (2 ^ (- e) * (2 * scal 1 (e - 1) N)) * d) by ring. rewrite E.
    assert (T : 2 ^ (- e) * (5 ^ (- e) * 10 ^ (N + e)) = 10 ^ N) by (rewrite Z.mul_assoc, <- Z.pow_mul_l; change (2 * 5) with 10; rewrite <- Z.pow_add_r by lia; f_equal; lia). rewrite T. ring.
Qed.

Section Shown.
  Variables (n d : Z).
  Hypothesis Hn : 0 < n.
  Hypothesis Hd : 0 < d.
  Variable x : bfloat.
  Hypothesis Hx : rounds n d x.
  Hypothesis Hprec : 64 <= b_prec x.
  Variable N : Z.
  Hypothesis HN : 21 <= N.
  Hypothesis HNe : 21 <= N + b_exp x.
  Notation m := (b_man x).
  Notation W := (scal 1 (b_exp x - 1) N).
  Notation r := (round_shortest x).
  Lemma man_big : 2 ^ 63 <= m.
  Proof. destruct Hx as [H _]. assert (2 ^ 63 <= 2 ^ (b_prec x - 1)) by (apply Z.pow_le_mono_r; lia). lia. Qed.
  Lemma W_pos : 0 < W.
  Proof. apply scal_pos; lia. Qed.
  Lemma W_big : 10 ^ 20 <= W.
  Proof.
    unfold scal. destruct (Z.leb_spec 0 (b_exp x - 1)).
    - pose proof (pow2 (b_exp x - 1) ltac:(lia)). assert (10 ^ 20 <= 10 ^ N) by (apply Z.pow_le_mono_r; lia). nia.
    - pose proof (Z.pow_pos_nonneg 5 (- (b_exp x - 1)) ltac:(lia) ltac:(lia)). assert (10 ^ 20 <= 10 ^ (N + (b_exp x - 1))) by (apply Z.pow_le_mono_r; lia). nia.
  Qed.
  Lemma rep_lower : rep N (dec_init (2 * m - 1) (b_exp x - 1)) ((2 * m - 1) * W).
  Proof. pose proof man_big. rewrite <- scal_lin. apply init_rep; lia. Qed.
  Lemma rep_upper : rep N (dec_init (2 * m + 1) (b_exp x - 1)) ((2 * m + 1) * W).
  Proof. pose proof man_big. rewrite <- scal_lin. apply init_rep; lia. Qed.
  Lemma rep_x : rep N (dec_init m (b_exp x)) (2 * m * W).
  Proof.
    pose proof man_big. replace (2 * m * W) with (scal m (b_exp x) N) by (rewrite scal_lin, scal_half by lia; ring). apply init_rep; lia.
  Qed.
  (** n/d lies between lower and upper. *)
  Lemma bound_between : (2 * m - 1) * W * d <= n * 10 ^ N <= (2 * m + 1) * W * d /\ (Z.even m = false -> (2 * m - 1) * W * d < n * 10 ^ N < (2 * m + 1) * W * d).
  Proof.
    destruct Hx as (_ & H & HS). pose proof (scal_ratio n d (b_exp x) N ltac:(lia) ltac:(lia)) as K. pose proof W_pos as P. destruct (scale_pos n d (b_exp x) Hn Hd) as [PA PB].
    set (A := scale_num n (b_exp x)) in *. set (B := scale_den d (b_exp x)) in *.
    assert (K' : n * 10 ^ N * B = 2 * A * (W * d)) by lia. assert (PW : 0 < W * d) by nia. split.
    - destruct H as [H1 H2]. split; apply Zmult_le_reg_r with (p := B); try lia; rewrite K'.
      + replace ((2 * m - 1) * W * d * B) with ((2 * m - 1) * B * (W * d)) by ring. apply Z.mul_le_mono_nonneg_r; lia.
      + replace ((2 * m + 1) * W * d * B) with ((2 * m + 1) * B * (W * d)) by ring. apply Z.mul_le_mono_nonneg_r; lia.
    - intros EV. destruct (HS EV) as [H1 H2]. split; apply Zmult_lt_reg_r with (p := B); try lia; rewrite K'.
      + replace ((2 * m - 1) * W * d * B) with ((2 * m - 1) * B * (W * d)) by ring. apply Z.mul_lt_mono_pos_r; lia.
      + replace ((2 * m + 1) * W * d * B) with ((2 * m + 1) * B * (W * d)) by ring. apply Z.mul_lt_mono_pos_r; lia.
  Qed.
  Lemma shown_near : exists Y, rep N r Y /\ (2 * m - 1) * W <= Y <= (2 * m + 1) * W.
  Proof.
    pose proof man_big. pose proof W_pos. destruct (shortest_between N _ _ _ _ _ _ rep_lower rep_x rep_upper ltac:(nia) ltac:(nia) ltac:(nia) (Z.even m)) as (Y & k & R & B & _). exists Y. split; auto.
  Qed.
  Lemma shown_integer : d = 1 -> b_exp x <= 0 -> n * 2 ^ (- b_exp x) = m -> rep N r (n * 10 ^ N).
  Proof.
    intros D1 He Em. pose proof man_big. pose proof W_pos. pose proof rep_x as R.
    assert (E : 2 * m * W = n * 10 ^ N).
    { pose proof (scal_ratio n d (b_exp x) N ltac:(lia) ltac:(lia)) as K. subst d. unfold scale_num, scale_den in K. destruct (Z.leb_spec 0 (b_exp x)) as [C|C].
      - assert (b_exp x = 0) by lia. rewrite <- Em. replace (b_exp x) with 0 in * by lia. change (2 ^ 0) with 1 in *. change (2 ^ (- 0)) with 1. lia.
      - rewrite Em in K. lia. }
    assert (WB : W < 10 ^ N).
    { assert (1 <= 2 ^ (- b_exp x)) by (pose proof (pow2 (- b_exp x) ltac:(lia)); lia). assert (n <= m) by nia. pose proof (p10 N ltac:(lia)). nia. }
    rewrite <- E. apply (shortest_exact N _ _ _ _ _ _ rep_lower rep_x rep_upper ltac:(nia) ltac:(nia) ltac:(nia) (Z.even m)); try lia. exists n. exact E.
  Qed.
  Lemma shown_short c k : 0 < c < 10 ^ 18 -> 0 <= k -> c * 10 ^ k * d = n * 10 ^ N -> rep N r (c * 10 ^ k).
  Proof.
    intros Hc Hk E. pose proof man_big. pose proof W_pos. pose proof W_big. destruct bound_between as [B1 B2]. rewrite <- E in *.
    apply (shortest_short N _ _ _ _ _ _ rep_lower rep_x rep_upper ltac:(nia) ltac:(nia) ltac:(nia) (Z.even m)); auto; [nia|nia| |].
    - split; apply Zmult_le_reg_r with (p := d); lia.
    - intros EV. specialize (B2 EV). split; apply Zmult_lt_reg_r with (p := d); lia.
  Qed.
End Shown.

(** ** Rationals *)
Lemma set_rat_rounds n d : 0 < n -> 0 < d -> rounds n d (set_rat n d) /\ 64 <= b_prec (set_rat n d).
Proof.
  intros Hn Hd. unfold set_rat. set (p := if d =? 1 then _ else _). assert (64 <= p) by (unfold p; destruct (d =? 1); lia).
  destruct (round_rounds p n d ltac:(lia) Hn Hd) as [R ->]. auto.
Qed.
Lemma set_int_exact n : 0 < n -> b_exp (set_rat n 1) <= 0 /\ n * 2 ^ (- b_exp (set_rat n 1)) = b_man (set_rat n 1).
Proof.
  intros Hn. unfold set_rat. rewrite Z.eqb_refl. unfold bit_len. destruct (Z.eqb_spec n 0); [lia|]. set (p := Z.max (Z.log2 n + 1) 64). unfold big_round. cbv zeta. change (Z.log2 1) with 0.
  set (e0 := Z.log2 n - 0 - p). assert (E0 : e0 < 0) by (unfold e0, p; lia). destruct (Z.log2_spec n Hn) as [N1 N2]. rewrite <- Z.add_1_r in N2. pose proof (Z.log2_nonneg n).
  assert (C : (scale_num n e0 / scale_den 1 e0 <? 2 ^ p) = false).
  { apply Z.ltb_ge. unfold scale_num, scale_den. destruct (Z.leb_spec 0 e0); [lia|]. rewrite Z.div_1_r. replace p with (Z.log2 n + - e0) by (unfold e0; lia). rewrite Z.pow_add_r by lia. pose proof (pow2 (- e0) ltac:(lia)). nia. }
  rewrite C. assert (D : div_half_even (scale_num n (e0 + 1)) (scale_den 1 (e0 + 1)) = n * 2 ^ (- (e0 + 1))).
  { unfold scale_num, scale_den. destruct (Z.leb_spec 0 (e0 + 1)) as [G|G].
    - assert (G0 : e0 + 1 = 0) by lia. rewrite G0. change (2 ^ 0) with 1. change (2 ^ (- 0)) with 1. unfold div_half_even. cbv zeta. rewrite Z.div_1_r, Z.mod_1_r. cbn [Z.compare Z.mul]. lia.
    - unfold div_half_even. cbv zeta. rewrite Z.div_1_r, Z.mod_1_r. reflexivity. }
  rewrite D. assert (LT : n * 2 ^ (- (e0 + 1)) < 2 ^ p).
  { replace p with ((Z.log2 n + 1) + - (e0 + 1)) by (unfold e0; lia). rewrite Z.pow_add_r by lia. pose proof (pow2 (- (e0 + 1)) ltac:(lia)). nia. }
  destruct (Z.eqb_spec (n * 2 ^ (- (e0 + 1))) (2 ^ p)); [lia|]. cbn [b_exp b_man]. split; [lia|reflexivity].
Qed.

Section Rational.
  Variable q : Q.
  Notation n0 := (Qnum (Qred q)).
  Notation d := (Zpos (Qden (Qred q))).
  Notation x := (set_rat (Z.abs n0) d).
  Lemma show_zero : n0 = 0 -> denotes (show_rat q) q.
  Proof.
    intros E. unfold show_rat. cbv zeta. rewrite E. cbn [Z.eqb]. destruct (text_denotes 0 0 "0") as [T _].
    - exists "0"%string, ""%string, ""%string. split; [left; reflexivity|]. split; [left; reflexivity|]. split; [left; reflexivity|]. split; reflexivity.
    - eapply denotes_ext; [exact T|]. rewrite <- (Qred_correct q). unfold Qeq. rewrite E. reflexivity.
  Qed.
  Lemma shown_value N Y : n0 <> 0 -> rep N (round_shortest x) Y -> denotes (show_rat q) (inject_Z (Z.sgn n0) * q10 Y (- N)).
  Proof.
    intros H R. unfold show_rat. cbv zeta. destruct (Z.eqb_spec n0 0); [contradiction|]. destruct (text_denotes _ _ _ (show_dec_text _ _ _ R)) as [T1 T2].
    destruct (Z.ltb_spec n0 0).
    - eapply denotes_ext; [exact T2|]. rewrite Z.sgn_neg by lia. ring.
    - eapply denotes_ext; [exact T1|]. rewrite Z.sgn_pos by lia. ring.
  Qed.
  Lemma q10_neg Y N : 0 <= N -> (q10 Y (- N) == Y # Z.to_pos (10 ^ N))%Q.
  Proof.
    intros HN. unfold q10. destruct (Z.leb_spec 0 (- N)).
    - assert (N = 0) by lia. subst N. unfold Qeq. cbn. lia.
    - rewrite Z.opp_involutive. reflexivity.
  Qed.
  Lemma shown_is N Y : n0 <> 0 -> 0 <= N -> rep N (round_shortest x) Y -> Y * d = Z.abs n0 * 10 ^ N -> denotes (show_rat q) q.
  Proof.
    intros H HN R E. eapply denotes_ext; [apply (shown_value N Y H R)|]. rewrite q10_neg by auto. rewrite <- (Qred_correct q) at 2. unfold Qeq, Qmult, inject_Z. cbn [Qnum Qden].
    rewrite Pos.mul_1_l, Z2Pos.id by (apply p10; auto). rewrite <- Z.mul_assoc, E, Z.mul_assoc, (Z.mul_comm (Z.sgn n0)), Z.abs_sgn. reflexivity.
  Qed.
  Theorem show_integer z : (q == inject_Z z)%Q -> denotes (show_rat q) q.
  Proof.
    intros E. destruct (Z.eq_dec n0 0) as [Z0|Z0]; [apply show_zero; auto|].
    assert (I : rat_is_int q = true) by (apply rat_is_int_iff; eauto). unfold rat_is_int in I. apply Pos.eqb_eq in I.
    destruct (set_rat_rounds (Z.abs n0) d ltac:(lia) ltac:(lia)) as [R P]. destruct (set_int_exact (Z.abs n0) ltac:(lia)) as [X1 X2]. rewrite I in *.
    apply (shown_is (21 + Z.abs (b_exp x)) (Z.abs n0 * 10 ^ (21 + Z.abs (b_exp x)))); auto; rewrite ?I; try lia.
    apply shown_integer with (d := 1); auto; lia.
  Qed.
  Theorem show_short c k : Z.abs c < 10 ^ 18 -> (q == inject_Z c * Qpower (10 # 1) k)%Q -> denotes (show_rat q) q.
  Proof.
    intros Hc E. destruct (Z.eq_dec n0 0) as [Z0|Z0]; [apply show_zero; auto|]. rewrite <- q10_pow in E. rewrite <- (Qred_correct q) in E.
    destruct (set_rat_rounds (Z.abs n0) d ltac:(lia) ltac:(lia)) as [R P]. set (N := 21 + Z.abs (b_exp x) + Z.abs k).
    assert (W : Z.abs c * 10 ^ (N + k) * d = Z.abs n0 * 10 ^ N).
    { unfold q10 in E. destruct (Z.leb_spec 0 k) as [K|K]; unfold Qeq in E; cbn [Qnum Qden] in E.
      - rewrite Z.pow_add_r by lia. apply (f_equal Z.abs) in E. rewrite !Z.abs_mul in E. rewrite (Z.abs_eq (10 ^ k)) in E by (apply Z.lt_le_incl, p10; lia). change (Z.abs 1) with 1 in E. change (Z.abs d) with d in E. rewrite Z.mul_1_r in E. rewrite E. ring.
      - rewrite Z2Pos.id in E by (apply p10; lia). apply (f_equal Z.abs) in E. rewrite !Z.abs_mul in E. rewrite (Z.abs_eq (10 ^ (- k))) in E by (apply Z.lt_le_incl, p10; lia). change (Z.abs d) with d in E.
        replace (Z.abs c * 10 ^ (N + k) * d) with (Z.abs c * d * 10 ^ (N + k)) by ring. rewrite <- E, <- Z.mul_assoc, <- Z.pow_add_r by lia. do 2 f_equal. lia. }
    assert (C0 : 0 < Z.abs c) by (pose proof (p10 N ltac:(lia)); pose proof (p10 (N + k) ltac:(lia)); nia).
    apply (shown_is N (Z.abs c * 10 ^ (N + k))); auto; [lia|]. apply shown_short with (n := Z.abs n0) (d := d); auto; lia.
  Qed.
  Theorem show_near : exists q', denotes (show_rat q) q' /\ (Qabs.Qabs (q' - q) <= Qabs.Qabs q * (1 # 2 ^ 62))%Q.
  Proof.
    destruct (Z.eq_dec n0 0) as [Z0|Z0].
    { exists q. split; [apply show_zero; auto|]. setoid_replace (q - q)%Q with 0%Q by ring. change (Qabs.Qabs 0) with 0%Q. apply Qmult_le_0_compat; [apply Qabs.Qabs_nonneg|discriminate]. }
    destruct (set_rat_rounds (Z.abs n0) d ltac:(lia) ltac:(lia)) as [R P]. set (N := 21 + Z.abs (b_exp x)).
    destruct (shown_near (Z.abs n0) d x R P N ltac:(lia) ltac:(lia)) as (Y & RY & BY).
    destruct (bound_between (Z.abs n0) d ltac:(lia) ltac:(lia) x R P N ltac:(lia) ltac:(lia)) as [B _]. pose proof (man_big _ _ x R P) as M. pose proof (W_pos x N ltac:(lia) ltac:(lia)) as WP.
    set (W := scal 1 (b_exp x - 1) N) in *. exists (inject_Z (Z.sgn n0) * q10 Y (- N))%Q. split; [apply shown_value; auto|].
    assert (K : 2 ^ 62 * Z.abs (Y * d - Z.abs n0 * 10 ^ N) <= Z.abs n0 * 10 ^ N).
    { assert (B1 : (2 * b_man x - 1) * W * d <= Y * d) by nia. assert (B2 : Y * d <= (2 * b_man x + 1) * W * d) by nia. assert (WD : 0 < W * d) by nia.
      assert (Z.abs (Y * d - Z.abs n0 * 10 ^ N) <= 2 * (W * d)) by lia. nia. }
    pose proof (p10 N ltac:(lia)) as PN. 
    assert (A1 : (inject_Z (Z.sgn n0) * (Y # Z.to_pos (10 ^ N)) - Qred q == inject_Z (Z.sgn n0) * ((Y * d - Z.abs n0 * 10 ^ N) # (Z.to_pos (10 ^ N) * Qden (Qred q))))%Q).
    { unfold Qeq, Qminus, Qplus, Qopp, Qmult, inject_Z. cbn [Qnum Qden]. rewrite !Pos2Z.inj_mul, !Z2Pos.id by auto. pose proof (Z.abs_sgn n0) as S. rewrite ?Pos2Z.inj_mul, ?Z.mul_1_l.
      set (s := Z.sgn n0) in *. set (a := Z.abs n0) in *. rewrite <- S. rewrite ?Z2Pos.id by auto. ring. }
    assert (A2 : (Qabs.Qabs (inject_Z (Z.sgn n0)) == 1)%Q) by (destruct n0; [congruence|reflexivity|reflexivity]).
    assert (A3 : (inject_Z (Z.sgn n0) * q10 Y (- N) - q == inject_Z (Z.sgn n0) * ((Y * d - Z.abs n0 * 10 ^ N) # (Z.to_pos (10 ^ N) * Qden (Qred q))))%Q).
    { rewrite <- A1. apply Qplus_comp; [rewrite q10_neg by lia; reflexivity|apply Qopp_comp; symmetry; apply Qred_correct]. }
    rewrite A3, Qabs.Qabs_Qmult, A2, Qmult_1_l. apply Qle_trans with (y := (Qabs.Qabs (Qred q) * (1 # 2 ^ 62))%Q); [|apply Qle_lteq; right; apply Qmult_comp; [apply Qabs.Qabs_wd; apply Qred_correct|reflexivity]].
    clear - K PN. destruct (Qred q) as [nn dd]. cbn [Qnum Qden Qabs.Qabs Z.abs] in *. unfold Qle, Qmult. cbn [Qnum Qden]. rewrite !Pos2Z.inj_mul, Z2Pos.id by auto. rewrite Z.mul_1_r. change (Z.pos (2 ^ 62)) with (2 ^ 62). nia.
  Qed.
End Rational.
