(** What the float encoder of encoding/json writes is a JSON number that reads
    back as the same float64. *)
From Verif Require Export NumText.
Open Scope Z_scope.

Lemma strip_zeros_spec k : forall c p, 0 < c ->
  let '(c', p') := strip_zeros k c p in 0 < c' /\ (q10 c' p' == q10 c p)%Q.
Proof.
  induction k as [|k IH]; intros c p Hc; cbn [strip_zeros]; [split; [auto|reflexivity]|].
  destruct (Z.eqb_spec (c mod 10) 0) as [E|E]; [|split; [auto|reflexivity]].
  assert (Hdm := Z.div_mod c 10 ltac:(lia)). assert (Hc' : 0 < c / 10) by lia.
  specialize (IH (c / 10) (p + 1) Hc'). destruct (strip_zeros k (c / 10) (p + 1)) as [c' p'].
  destruct IH as [H1 H2]. split; auto. rewrite H2, <- (q10_shift (c / 10) p 1) by lia.
  replace (c / 10 * 10 ^ 1) with c; [reflexivity|]. change (10 ^ 1) with 10. lia.
Qed.

(** A decimal that reads back. *)
Definition reads (f : f64) (c p : Z) : Prop :=
  0 < c /\ round64 (f_neg f) (q10 c p) = Some f.

Lemma reads_back_reads f c p : f64_ok f = true -> f_man f <> 0 -> 0 <= c -> reads_back f c p = true -> reads f c p.
Proof.
  intros Hok Hm Hc H. unfold reads_back in H. destruct (round64 (f_neg f) (q10 c p)) as [g|] eqn:E; [|discriminate].
  apply andb_true_iff in H. destruct H as [H1 H2]. apply Z.eqb_eq in H1, H2.
  pose proof (round64_ok _ _ _ (q10_nonneg c p Hc) E) as [_ Hs].
  assert (Hg : g = f) by (destruct f, g; simpl in *; congruence). subst g. split; auto.
  destruct (Z.eq_dec c 0) as [-> |]; [|lia]. exfalso. apply Hm.
  rewrite (round64_ext _ _ 0 (q10_0 p)) in E. vm_compute in E. injection E as E. rewrite <- E. reflexivity.
Qed.

Lemma pow2_div_mul k : 0 <= k -> 5 ^ k * 2 ^ k = 10 ^ k.
Proof. intros H. rewrite <- Z.pow_mul_l. reflexivity. Qed.

Lemma shortest_reads f : f64_ok f = true -> f_man f <> 0 -> forall k nd dp,
  let '(c, p) := shortest k nd f dp in reads f c p.
Proof.
  intros Hok Hm.
  assert (Hmp : 0 < f_man f) by (apply f64_ok_mag in Hok; destruct Hok as [[H _]|H]; lia).
  induction k as [|k IH]; intros nd dp; cbn [shortest].
  - assert (Hex : forall q, (q == f64_mag f)%Q -> round64 (f_neg f) q = Some f).
    { intros q Hq. rewrite (round64_exact (f_neg f) f q Hok Hq). destruct f; reflexivity. }
    destruct (Z.leb_spec 0 (f_exp f)) as [He|He].
    + split; [apply Z.mul_pos_pos; auto; apply p2_pos; lia|]. apply Hex.
      unfold q10, f64_mag. simpl. destruct (Z.leb_spec 0 (f_exp f)); [|lia].
      unfold Qeq. cbn [Qnum Qden]. lia.
    + split; [apply Z.mul_pos_pos; auto; apply Z.pow_pos_nonneg; lia|]. apply Hex.
      unfold q10, f64_mag. destruct (Z.leb_spec 0 (f_exp f)); [lia|].
      unfold Qeq. cbn [Qnum Qden]. rewrite !Z2Pos.id by (apply p2_pos || apply p10_pos; lia).
      rewrite <- (pow2_div_mul (- f_exp f)) by lia. ring.
  - assert (Hfl : 0 <= dec_floor f (dp - nd)).
    { unfold dec_floor. set (q := f64_mag f).
      assert (Hq : 0 <= Qnum q).
      { pose proof (f64_mag_nonneg f Hok) as H. unfold Qle in H. simpl in H. unfold q. lia. }
      destruct (Z.leb_spec 0 (dp - nd)).
      - apply Z.div_pos; auto. apply Z.mul_pos_pos; [lia|apply p10_pos; auto].
      - apply Z.div_pos; [|lia]. apply Z.mul_nonneg_nonneg; auto. apply Z.lt_le_incl, p10_pos. lia. }
    destruct (reads_back f (dec_floor f (dp - nd)) (dp - nd)) eqn:Elo;
    destruct (reads_back f (dec_floor f (dp - nd) + 1) (dp - nd)) eqn:Ehi; cbn [andb].
    + destruct (floor_closer _ _ _); apply reads_back_reads; auto; lia.
    + apply reads_back_reads; auto.
    + apply reads_back_reads; auto; lia.
    + apply IH.
Qed.

Lemma shortest_dec_reads f : f64_ok f = true -> f_man f <> 0 ->
  let '(c, p) := shortest_dec f in reads f c p.
Proof.
  intros Hok Hm. unfold shortest_dec.
  pose proof (shortest_reads f Hok Hm 17 1 (dec_point f)) as H.
  destruct (shortest 17 1 f (dec_point f)) as [c p]. destruct H as [H1 H2].
  pose proof (strip_zeros_spec 17 c p H1) as H3. destruct (strip_zeros 17 c p) as [c' p'].
  destruct H3 as [H3 H4]. split; auto. rewrite (round64_ext _ _ _ H4). exact H2.
Qed.

(** The texts, by parts. *)

Lemma with_frac_part s : digits s -> frac_part (with_frac s) /\ frac_digits (with_frac s) = s.
Proof.
  intros H. destruct s as [|c s]; [split; [left|]; reflexivity|]. split; [|reflexivity].
  right. exists (String c s). repeat split; auto. discriminate.
Qed.

Lemma fmt_exp_part x : exp_part (fmt_exp x) /\ exp_value (fmt_exp x) = x.
Proof.
  unfold fmt_exp. destruct (Z.ltb_spec x 0).
  - destruct (z2s_spec (- x) ltac:(lia)) as (H1 & H2 & H3 & _). split.
    + right. exists "e"%char, "-"%string, (z2s (- x)). auto 10.
    + cbn [append exp_value]. rewrite H2. lia.
  - destruct (z2s_spec x ltac:(lia)) as (H1 & H2 & H3 & _).
    destruct (Z.ltb_spec x 10).
    + split.
      * right. exists "e"%char, "+"%string, (String "0" (z2s x)). split; auto. split; auto. split; auto.
        split; [apply digits_cons; auto|discriminate].
      * cbn [append exp_value digits_val]. change (digit_val "0") with 0. simpl (0 * 10 + 0). exact H2.
    + split.
      * right. exists "e"%char, "+"%string, (z2s x). auto 10.
      * cbn [append exp_value]. exact H2.
Qed.

(** A digit text [ds] for c, whose last digit stands for 10^p. *)
Section Fmt.
  Variables (ds : string) (c p : Z).
  Hypothesis Hds : digits ds.
  Hypothesis Hne : ds <> ""%string.
  Hypothesis Hc : digits_val 0 ds = c.
  Hypothesis Hh : head_nz ds.
  Let dp := p + Z.of_nat (String.length ds).

  Definition is_text (t : string) : Prop := exists i f e,
    int_part i /\ frac_part f /\ exp_part e /\ t = append i (append f e) /\
    (q10 (dec_mant (parts_dec "" i f e)) (dec_e10 (parts_dec "" i f e)) == q10 c p)%Q.

  Lemma fmt_f_text : is_text (fmt_f ds dp).
  Proof.
    unfold fmt_f. destruct (Z.ltb_spec 0 dp) as [Hdp|Hdp].
    - destruct (pad_take_spec (Z.to_nat dp) ds Hds) as (H1 & H2 & H3 & H4 & H5).
      destruct (with_frac_part _ H2) as [Hf Hfd].
      exists (pad_take (Z.to_nat dp) ds), (with_frac (drop (Z.to_nat dp) ds)), ""%string.
      split.
      { right. split; auto. destruct ds as [|c0 s]; [congruence|].
        destruct (Z.to_nat dp) as [|n] eqn:En; [lia|]. split; [discriminate|]. exact Hh. }
      split; auto. split; [left; auto|]. split; [rewrite append_nil_r; auto|].
      unfold dec_mant, dec_e10, parts_dec. cbn [d_int d_frac d_exp exp_value]. rewrite Hfd.
      destruct (Nat.le_ge_cases (Z.to_nat dp) (String.length ds)) as [Hl|Hl].
      + destruct (H4 Hl) as [E1 E2]. rewrite E1, E2, Hc.
        replace (0 - Z.of_nat (String.length ds - Z.to_nat dp)) with p by (unfold dp in *; lia). reflexivity.
      + destruct (H5 Hl) as [E1 E2]. rewrite E1, E2, append_nil_r, digits_val_app, zeros_val, Hc.
        cbn [String.length]. change (0 - Z.of_nat 0) with 0. rewrite q10_shift by lia.
        replace (0 + Z.of_nat (Z.to_nat dp - String.length ds)) with p by (unfold dp in *; lia). reflexivity.
    - exists "0"%string, (String "." (append (zeros (Z.to_nat (- dp))) ds)), ""%string.
      split; [left; auto|]. split.
      { right. exists (append (zeros (Z.to_nat (- dp))) ds). split; auto.
        split; [apply digits_app; auto using zeros_digits|].
        destruct (zeros (Z.to_nat (- dp))); [exact Hne|discriminate]. }
      split; [left; auto|]. split; [simpl; rewrite append_nil_r; auto|].
      unfold dec_mant, dec_e10, parts_dec. cbn [d_int d_frac d_exp exp_value frac_digits append digits_val].
      change (digit_val "0") with 0. rewrite digits_val_app, zeros_val, length_append, zeros_length.
      rewrite digits_val_acc. rewrite Hc.
      replace ((0 * 10 + 0) * 10 ^ Z.of_nat (Z.to_nat (- dp)) * 10 ^ Z.of_nat (String.length ds) + c) with c by lia.
      replace (0 - Z.of_nat (Z.to_nat (- dp) + String.length ds)) with p by (unfold dp in *; lia). reflexivity.
  Qed.

  Lemma fmt_e_text : is_text (fmt_e ds dp).
  Proof.
    unfold fmt_e. destruct (pad_take_spec 1 ds Hds) as (H1 & H2 & H3 & H4 & _).
    destruct (with_frac_part _ H2) as [Hf Hfd]. destruct (fmt_exp_part (dp - 1)) as [He Hev].
    exists (pad_take 1 ds), (with_frac (drop 1 ds)), (fmt_exp (dp - 1)).
    assert (Hl : (1 <= String.length ds)%nat) by (destruct ds; [congruence|simpl; lia]).
    destruct (H4 Hl) as [E1 E2].
    split.
    { right. split; auto. destruct ds as [|c0 s]; [congruence|]. split; [discriminate|exact Hh]. }
    split; auto. split; auto. split; auto.
    unfold dec_mant, dec_e10, parts_dec. cbn [d_int d_frac d_exp]. rewrite Hfd, Hev, E1, E2, Hc.
    replace (dp - 1 - Z.of_nat (String.length ds - 1)) with p by (unfold dp; lia). reflexivity.
  Qed.
End Fmt.

Lemma fmt_mag_text f : f64_ok f = true -> exists i fr e,
  int_part i /\ frac_part fr /\ exp_part e /\ fmt_mag f = append i (append fr e) /\
  round64 (f_neg f) (q10 (dec_mant (parts_dec "" i fr e)) (dec_e10 (parts_dec "" i fr e))) = Some f.
Proof.
  intros Hok. unfold fmt_mag. destruct (Z.eqb_spec (f_man f) 0) as [E|E].
  - exists "0"%string, ""%string, ""%string. split; [left; auto|]. split; [left; auto|]. split; [left; auto|].
    split; auto. pose proof (proj1 (f64_ok_mag f) Hok) as [[H1 H2]|H]; [|lia].
    destruct f as [s m e]. simpl in *. subst. destruct s; vm_compute; reflexivity.
  - pose proof (shortest_dec_reads f Hok E) as H. destruct (shortest_dec f) as [c p]. destruct H as [Hc Hr].
    destruct (z2s_spec c ltac:(lia)) as (H1 & H2 & H3 & H4).
    assert (HT : is_text c p (if Qle_bool f64_1e21 (f64_mag f) || negb (Qle_bool f64_1em6 (f64_mag f))
                              then fmt_e (z2s c) (p + Z.of_nat (String.length (z2s c)))
                              else fmt_f (z2s c) (p + Z.of_nat (String.length (z2s c))))).
    { destruct (_ || _)%bool; [apply fmt_e_text|apply fmt_f_text]; auto. }
    destruct HT as (i & fr & e & Hi & Hf & He & Et & Hq). exists i, fr, e.
    repeat (split; auto). rewrite (round64_ext _ _ _ Hq). exact Hr.
Qed.

Theorem fmt_float_json f : f64_ok f = true -> json_number (fmt_float f) = true.
Proof.
  intros Hok. destruct (fmt_mag_text f Hok) as (i & fr & e & Hi & Hf & He & Et & _).
  unfold fmt_float. rewrite Et. destruct (f_neg f).
  - apply (parts_json_number "-" i fr e); auto. right; auto.
  - apply (parts_json_number "" i fr e); auto. left; auto.
Qed.

Theorem parse_fmt_float f : f64_ok f = true -> parse_float (fmt_float f) = Some f.
Proof.
  intros Hok. destruct (fmt_mag_text f Hok) as (i & fr & e & Hi & Hf & He & Et & Hr).
  unfold fmt_float, parse_float. rewrite Et. destruct (f_neg f) eqn:Es.
  - change (String "-" (append i (append fr e))) with (append "-" (append i (append fr e))).
    rewrite (parse_dec_parts "-" i fr e (or_intror eq_refl) Hi Hf He). cbn [d_neg parts_dec].
    rewrite <- Hr. reflexivity.
  - pose proof (parse_dec_parts "" i fr e (or_introl eq_refl) Hi Hf He) as Hp. cbn [append] in Hp. rewrite Hp.
    cbn [d_neg parts_dec]. rewrite <- Hr. reflexivity.
Qed.

(** Reading any decimal literal gives a float64. *)
Lemma take_digits_digits s d r : take_digits s = (d, r) -> digits d.
Proof. intros H. apply take_digits_app in H. apply H. Qed.

Lemma parse_dec_nonneg s d : parse_dec s = Some d -> 0 <= dec_mant d.
Proof.
  unfold parse_dec. destruct (take_sign s) as [neg s1]. destruct (take_digits s1) as [ip s2] eqn:E1.
  destruct (take_frac s2) as [fp s3] eqn:E2.
  destruct (append ip fp) as [|? ?] eqn:E; [discriminate|]. destruct (take_exp s3); [|discriminate].
  intros [= <-]. unfold dec_mant. cbn [d_int d_frac]. apply digits_val_nonneg; [|lia].
  apply digits_app. split; [eapply take_digits_digits; eauto|].
  unfold take_frac in E2. destruct s2 as [|c s2]; [injection E2 as <- <-; apply digits_nil|].
  destruct c as [[] [] [] [] [] [] [] []]; try (injection E2 as <- <-; apply digits_nil).
  eapply take_digits_digits; eauto.
Qed.

Lemma parse_float_ok s f : parse_float s = Some f -> f64_ok f = true.
Proof.
  unfold parse_float. destruct (parse_dec s) as [d|] eqn:E; [|discriminate]. intros H.
  apply round64_ok in H; [tauto|]. apply q10_nonneg. eapply parse_dec_nonneg; eauto.
Qed.
