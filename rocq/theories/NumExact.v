(** big.Rat.SetString gives the exact value of a JSON number whose exponent is
    moderate; integers are recognised by value. *)
From Coq Require Import Qpower.
From Verif Require Export NumSpec Utf8 ModelPool.
Open Scope Z_scope.

Lemma last_digit_parse s x : last_digit_exponent s x ->
  json_number s = true /\ exists d, parse_dec s = Some d /\ dec_e10 d = x.
Proof.
  intros (g & sg & i & ni & f & k & nf & e & y & -> & Hg & Hi & Hf & He & ->).
  destruct (parts_value g sg i ni f k nf e y Hg Hi Hf He) as (H1 & H2 & H3 & H4 & _).
  split; [apply parts_json_number; auto|]. exists (parts_dec g i f e).
  split; [apply parse_dec_parts; auto|].
  unfold dec_e10, parts_dec. cbn [d_frac d_exp].
  (* lengths as in parts_value *)
  assert (Hf' : String.length (frac_digits f) = k).
  { destruct Hf as [(-> & -> & ->)|(d & -> & Hd & Hk)]; [reflexivity|].
    apply digit_string_digits in Hd. destruct Hd as (_ & Hd & _). symmetry; exact Hd. }
  assert (He' : exp_value e = y).
  { destruct He as [[-> ->]|(c & g' & d & l & n & -> & Hc & Hd & Hx)]; [reflexivity|].
    apply digit_string_digits in Hd. destruct Hd as (D1 & D2 & D3).
    destruct Hx as [[[-> | ->] ->]|[-> ->]]; cbn [append exp_value]; rewrite ?D3; auto.
    destruct d as [|c0 d]; [discriminate|]. apply digits_cons in D1. destruct D1 as [D1 _].
    destruct c0 as [[] [] [] [] [] [] [] []]; try reflexivity; discriminate. }
  rewrite Hf', He'. reflexivity.
Qed.

Lemma last_digit_exists s : json_number s = true -> exists x, last_digit_exponent s x.
Proof.
  intros H. destruct (json_number_denotes s H) as (q & g & sg & i & ni & f & k & nf & e & x & E & Hg & Hi & Hf & He & _).
  exists (x - Z.of_nat k), g, sg, i, ni, f, k, nf, e, x. repeat split; auto.
Qed.

Lemma dec_val_zero d : (dec_val d == 0)%Q <-> dec_mant d = 0.
Proof.
  unfold dec_val. assert (E : (q10 (dec_mant d) (dec_e10 d) == 0)%Q <-> dec_mant d = 0).
  { rewrite q10_pow. split.
    - intros H. apply Qmult_integral in H. destruct H as [H|H].
      + unfold Qeq in H. simpl in H. lia.
      + exfalso. revert H. apply Qpower_not_0. discriminate.
    - intros ->. apply Qmult_0_l. }
  destruct (d_neg d); [|exact E]. rewrite <- E. split; intros H.
  - rewrite <- (Qopp_involutive (q10 _ _)), H. reflexivity.
  - rewrite H. reflexivity.
Qed.

Theorem rat_of_moderate lim s : json_number s = true -> (moderate lim s <-> exists q, rat_of lim s = Some q).
Proof.
  intros Hj. unfold rat_of. destruct (json_number_parse s Hj) as (d & E & Hd). rewrite E.
  assert (M : moderate lim s <-> dec_mant d = 0 \/ Z.abs (dec_e10 d) <= lim).
  { unfold moderate. rewrite number_iff. split.
    - intros (_ & [H0|(x & Hx & Hl)]).
      + left. apply dec_val_zero. apply denotes_unique with s; auto.
      + right. apply last_digit_parse in Hx. destruct Hx as (_ & d' & E' & <-). congruence.
    - intros H. split; auto. destruct H as [H|H].
      + left. eapply denotes_ext; eauto. apply dec_val_zero. auto.
      + right. destruct (last_digit_exists s Hj) as (x & Hx). exists x. split; auto.
        apply last_digit_parse in Hx. destruct Hx as (_ & d' & E' & <-). congruence. }
  rewrite M. destruct (Z.eqb_spec (dec_mant d) 0) as [E0|E0]; simpl.
  - split; eauto.
  - destruct (Z.leb_spec (Z.abs (dec_e10 d)) lim); split; eauto; intros H1; [lia|destruct H1; discriminate].
Qed.

Theorem rat_of_value lim s q q' : denotes s q -> rat_of lim s = Some q' -> (q' == q)%Q.
Proof.
  intros Hd. apply denotes_parse in Hd. destruct Hd as (_ & d & E & Hd). unfold rat_of. rewrite E.
  destruct ((dec_mant d =? 0) || _)%bool; [|discriminate]. intros [= <-]. rewrite Qred_correct. exact Hd.
Qed.

Lemma rat_of_denotes lim s q : json_number s = true -> rat_of lim s = Some q -> denotes s q.
Proof.
  intros Hj E. destruct (json_number_denotes s Hj) as [q' Hq]. eapply denotes_ext; eauto.
  symmetry. eapply rat_of_value; eauto.
Qed.

(** Lowest terms: denominator 1 exactly for integers. *)
Lemma rat_is_int_iff q : rat_is_int q = true <-> exists z, (q == inject_Z z)%Q.
Proof.
  unfold rat_is_int. rewrite Pos.eqb_eq. split.
  - intros H. exists (Qnum (Qred q)). rewrite <- (Qred_correct q) at 1.
    destruct (Qred q) as [n d]. simpl in *. subst. reflexivity.
  - intros [z Hz]. apply Qred_complete in Hz. rewrite Hz.
    unfold Qred, inject_Z. pose proof (Z.ggcd_gcd z 1) as G. pose proof (Z.ggcd_correct_divisors z 1) as D.
    destruct (Z.ggcd z 1) as [g [a b]]. cbn [fst snd] in *. rewrite Z.gcd_1_r in G. subst g. destruct D as [_ D].
    replace b with 1 by lia. reflexivity.
Qed.

Theorem checkJSONInteger_iff lim s q : denotes s q ->
  (checkJSONInteger lim s = true <-> moderate lim s /\ exists z, (q == inject_Z z)%Q).
Proof.
  intros Hd. pose proof (denotes_parse s q Hd) as (Hj & _). rewrite (rat_of_moderate lim s Hj).
  unfold checkJSONInteger. destruct (rat_of lim s) as [q'|] eqn:E.
  - pose proof (rat_of_value lim s q q' Hd E) as Hq. rewrite rat_is_int_iff. split.
    + intros [z Hz]. split; eauto. exists z. rewrite <- Hq. exact Hz.
    + intros [_ [z Hz]]. exists z. rewrite Hq. exact Hz.
  - split; [discriminate|]. intros [[x Hx] _]. discriminate.
Qed.

(** The integer keywords of a schema: ParseInt reads plain digits, and agrees
    with the value. *)
Lemma parse_int64_value s z : json_number s = true -> parse_int64 s = Some z -> denotes s (inject_Z z).
Proof.
  intros Hj Hp. destruct (json_number_parse s Hj) as (d & E & Hd). eapply denotes_ext; eauto.
  unfold parse_int64 in Hp. unfold parse_dec in E.
  destruct (take_sign s) as [neg s1]. destruct (take_digits s1) as [ds r].
  destruct ds as [|c ds]; [discriminate|]. destruct r; [|discriminate].
  cbn [take_frac append take_exp] in E. injection E as <-. unfold dec_val, dec_mant, dec_e10. cbn [d_neg d_int d_frac d_exp].
  assert (Ha : append (String c ds) "" = String c ds).
  { clear. revert c. induction ds as [|a ds IH]; intros c; [reflexivity|]. change (append (String c (String a ds)) "") with (String c (append (String a ds) "")). rewrite IH. reflexivity. }
  rewrite Ha. destruct ((- 2 ^ 63 <=? _) && _)%bool; [|discriminate]. injection Hp as <-.
  unfold q10. change (0 <=? 0 - Z.of_nat (String.length "")) with true. cbv iota.
  change (10 ^ (0 - Z.of_nat (String.length "")))%Z with 1%Z. rewrite Z.mul_1_r. destruct neg; reflexivity.
Qed.

Theorem rune_count_text cps s : text cps s -> rune_count s = Z.of_nat (length cps).
Proof. intros H. unfold rune_count. apply text_chunks in H. destruct H as [_ ->]. reflexivity. Qed.
