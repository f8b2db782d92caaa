(** Where equality at float64 precision is equality of values. *)
From Verif Require Export NumberProps.
From Coq Require Import Lia Lqa.
Open Scope nat_scope.

Lemma denotes_sign s q : denotes s q -> if signed s then (q <= 0)%Q else (0 <= q)%Q.
Proof.
  intros D. assert (J : json_number s = true) by (apply number_iff; exists q; exact D).
  destruct (json_number_parse s J) as (d & Ed & Hden). pose proof (parse_dec_sign s d J Ed) as Hsg.
  assert (Hq : (0 <= q10 (dec_mant d) (dec_e10 d))%Q) by (apply q10_nonneg; eapply parse_dec_nonneg; eauto).
  pose proof (denotes_unique _ _ _ D Hden) as E. fold (signed s) in Hsg. rewrite <- Hsg. rewrite dec_val_signed in E. unfold FloatNearest.signed in E. destruct (d_neg d); rewrite E; lra.
Qed.

(** The value is exactly a float64, and zero is not written with a minus sign. *)
Definition exact_number (s : string) : Prop :=
  (exists f, binary64 f /\ denotes s (f64_value f)) /\ (denotes s 0 -> signed s = false).

Lemma exact_reads s f q : exact_number s -> reads_as s f -> denotes s q -> (f64_value f == q)%Q.
Proof.
  intros [(g & Hg & Dg) _] (p & Dp & _ & [_ N] & _) D. destruct (N g Hg) as [N1 _].
  pose proof (denotes_unique _ _ _ D Dp) as E1. pose proof (denotes_unique _ _ _ D Dg) as E2.
  assert (Z : (Qabs (p - f64_value g) == 0)%Q).
  { assert (X : (p - f64_value g == 0)%Q) by lra. rewrite X. reflexivity. }
  rewrite Z in N1. apply Qabs_Qle_condition in N1. lra.
Qed.

Lemma exact_same s t : exact_number s -> exact_number t -> float_range s -> (same_float (VNum s) (VNum t) <-> same_value (VNum s) (VNum t)).
Proof.
  intros Hs Ht HR. destruct Hs as [(g & Hg & Dg) Zs] eqn:E1; clear E1. destruct Ht as [(h & Hh & Dh) Zt] eqn:E2; clear E2.
  assert (Xs : exact_number s) by (split; eauto). assert (Xt : exact_number t) by (split; eauto). split.
  - intros (f & [(s' & [= <-] & R1)|[? _]] & [(t' & [= <-] & R2)|[? _]]); try discriminate.
    exists s, t, (f64_value g), (f64_value h). repeat split; auto. rewrite <- (exact_reads _ _ _ Xs R1 Dg), <- (exact_reads _ _ _ Xt R2 Dh). reflexivity.
  - intros (s' & t' & p & q & [= <-] & [= <-] & D1 & D2 & E). apply respelled_float; [|constructor; auto].
    exists s, t, p, q. repeat match goal with |- _ /\ _ => split; auto end.
    pose proof (denotes_sign _ _ D1) as S1. pose proof (denotes_sign _ _ D2) as S2.
    destruct (Qeq_dec p 0) as [Zp|Np].
    + rewrite Zs, Zt; auto; [eapply denotes_ext; [exact D2|lra]|eapply denotes_ext; [exact D1|auto]].
    + destruct (signed s), (signed t); auto; exfalso; apply Np; lra.
Qed.

Lemma exact_equal v : forall v', all_numbers exact_number v -> all_numbers exact_number v' -> doc_ok v -> doc_ok v' -> in_float_range v ->
  (equal same_float v v' <-> equal same_value v v').
Proof.
  induction v as [v IH] using (well_founded_induction (Wf_nat.well_founded_ltof _ weight)). unfold Wf_nat.ltof in IH.
  assert (IA : forall l l', v = VArr l -> all_numbers exact_number v -> all_numbers exact_number (VArr l') -> doc_ok v -> doc_ok (VArr l') -> in_float_range v ->
    forall (P Q : value -> value -> Prop), (forall x y, In x l -> In y l' -> P x y -> Q x y) -> Forall2 P l l' -> Forall2 Q l l').
  { intros l l' _ _ _ _ _ _ P Q HPQ F. induction F; constructor; [apply HPQ; simpl; auto|]. apply IHF. intros; apply HPQ; simpl; auto. }
  assert (KA : forall l l' x y, v = VArr l -> all_numbers exact_number v -> all_numbers exact_number (VArr l') -> doc_ok v -> doc_ok (VArr l') -> in_float_range v ->
    In x l -> In y l' -> (equal same_float x y <-> equal same_value x y)).
  { intros l l' x y -> X X' D D' HR Hx Hy. inversion X as [| | | | |? A|]; inversion X' as [| | | | |? B|]; inversion HR as [| | | | |? C|]; subst. rewrite Forall_forall in A, B, C.
    apply doc_ok_arr in D. apply doc_ok_arr in D'. rewrite Forall_forall in D, D'. apply IH; [apply weight_arr; auto|apply A; auto|apply B; auto|auto|auto|apply C; auto]. }
  assert (KM : forall m m' k x y, v = VMap m -> all_numbers exact_number v -> all_numbers exact_number (VMap m') -> doc_ok v -> doc_ok (VMap m') -> in_float_range v ->
    assoc k m = Some x -> assoc k m' = Some y -> (equal same_float x y <-> equal same_value x y)).
  { intros m m' k x y -> X X' D D' HR Hx Hy. apply assoc_In in Hx. apply assoc_In in Hy.
    inversion X as [| | | | | |? A]; inversion X' as [| | | | | |? B]; inversion HR as [| | | | | |? C]; subst. rewrite Forall_forall in A, B, C.
    apply doc_ok_map in D. apply doc_ok_map in D'. destruct D as [_ D], D' as [_ D']. rewrite Forall_forall in D, D'.
    apply IH; [apply weight_map in Hx; lia|apply (A _ Hx)|apply (B _ Hy)|apply (D _ Hx)|apply (D' _ Hy)|apply (C _ Hx)]. }
  intros v' X X' D D' HR. split; intros H; inversion H as [|b|s|x0 y0 E|l l' F|m m' HK HV]; subst; try (constructor; auto; fail).
  - apply equal_num. destruct E as (f & [(s & -> & R1)|[-> R1]] & [(t & -> & R2)|[-> R2]]);
      [|destruct D' as [_ P]; discriminate P|destruct D as [_ P]; discriminate P|destruct D as [_ P]; discriminate P].
    inversion X; inversion X'; inversion HR; subst. apply exact_same; auto. exists f. split; left; eauto.
  - apply equal_arr. eapply IA; [reflexivity|..|exact F]; auto. intros x y Hx Hy. apply (KA l l' x y); auto.
  - apply equal_obj; auto. intros k x y Ex Ey. apply (KM m m' k x y); auto. eapply HV; eauto.
  - apply equal_num. pose proof E as (s & t & p & q & -> & -> & _). inversion X; inversion X'; inversion HR; subst. apply exact_same; auto.
  - apply equal_arr. eapply IA; [reflexivity|..|exact F]; auto. intros x y Hx Hy. apply (KA l l' x y); auto.
  - apply equal_obj; auto. intros k x y Ex Ey. apply (KM m m' k x y); auto. eapply HV; eauto.
Qed.

(** Integers up to 2^53 are exact. *)
Lemma integer_exact s n : denotes s (inject_Z n) -> (Z.abs n <= 2 ^ 53)%Z -> (n = 0%Z -> signed s = false) -> exact_number s.
Proof.
  intros D Hn H0. split.
  - assert (E : exists f, binary64 f /\ (f64_value f == inject_Z n)%Q).
    { pose proof (round64_nearest (Z.ltb n 0) (inject_Z (Z.abs n))) as HR.
      assert (P : (0 <= inject_Z (Z.abs n))%Q) by (change 0%Q with (inject_Z 0); rewrite <- Zle_Qle; lia).
      destruct (Z.eq_dec n 0) as [->|Nz].
      - exists (F64 false 0 0). split; [left; auto|]. reflexivity.
      - set (l := Z.log2 (Z.abs n)). set (e := (l - 52)%Z).
        assert (L : (2 ^ l <= Z.abs n < 2 ^ (l + 1))%Z) by (apply Z.log2_spec; lia).
        assert (Hl : (0 <= l)%Z) by apply Z.log2_nonneg.
        assert (Hl' : (l <= 53)%Z). { unfold l. apply Z.log2_le_mono in Hn. rewrite Z.log2_pow2 in Hn; lia. }
        destruct (Z.eq_dec l 53) as [E53|N53].
        + assert (A : Z.abs n = (2 ^ 53)%Z) by (rewrite E53 in L; lia).
          exists (F64 (Z.ltb n 0) (2 ^ 52) 1). split; [right; simpl; lia|]. unfold f64_value. cbn [f_neg f_man f_exp].
          destruct (Z.ltb_spec n 0); [replace n with (- 2 ^ 53)%Z by lia|replace n with (2 ^ 53)%Z by lia]; reflexivity.
        + exists (F64 (Z.ltb n 0) (Z.abs n * 2 ^ (52 - l)) (l - 52)). split.
          * right. cbn [f_man f_exp]. assert (A : (2 ^ l * 2 ^ (52 - l) = 2 ^ 52)%Z) by (rewrite <- Z.pow_add_r by lia; f_equal; lia).
            assert (B : (2 ^ (l + 1) * 2 ^ (52 - l) = 2 ^ 53)%Z) by (rewrite <- Z.pow_add_r by lia; f_equal; lia).
            assert (C : (0 < 2 ^ (52 - l))%Z) by (apply Z.pow_pos_nonneg; lia). nia.
          * unfold f64_value. cbn [f_neg f_man f_exp].
            assert (C : (inject_Z (Z.abs n * 2 ^ (52 - l)) * Qpower (2 # 1) (l - 52) == inject_Z (Z.abs n))%Q).
            { rewrite inject_Z_mult. rewrite <- (p2_Z (52 - l)) by lia. rewrite <- Qmult_assoc. change (Qpower (2 # 1) (l - 52)) with (p2 (l - 52)). rewrite <- p2_add.
              replace (52 - l + (l - 52))%Z with 0%Z by lia. change (p2 0) with 1%Q. ring. }
            destruct (Z.ltb_spec n 0).
            -- setoid_replace (- inject_Z (Z.abs n * 2 ^ (52 - l)) * Qpower (2 # 1) (l - 52))%Q with (- (inject_Z (Z.abs n * 2 ^ (52 - l)) * Qpower (2 # 1) (l - 52)))%Q by ring.
               rewrite C, <- inject_Z_opp. replace (- Z.abs n)%Z with n by lia. reflexivity.
            -- rewrite C. replace (Z.abs n) with n by lia. reflexivity. }
    destruct E as (f & Hf & E). exists f. split; auto. eapply denotes_ext; [exact D|]. symmetry. auto.
  - intros D0. apply H0. pose proof (denotes_unique _ _ _ D D0) as E. change 0%Q with (inject_Z 0) in E. apply (proj1 (inject_Z_injective n 0)). exact E.
Qed.

(** Exact numbers are in the range of float64. *)
Lemma exact_range s : exact_number s -> float_range s.
Proof.
  intros [(f & Hf & D) _]. exists (f64_value f). split; auto. apply Qnot_le_lt. intros H.
  apply f64_ok_binary64 in Hf. pose proof (f64_mag_nonneg f Hf) as P.
  assert (A : (Qabs (f64_value f) == f64_mag f)%Q) by (rewrite f64_value_mag; rewrite signed_abs by (rewrite <- (f64_mag_p2 f); auto); symmetry; apply f64_mag_p2).
  rewrite A in H. apply (round64_none true _ P) in H. rewrite (round64_exact true f _ Hf) in H by reflexivity. discriminate H.
Qed.
