(** JSON number literals of the model against the specification. *)
From Coq Require Import Qpower Qfield.
From Verif Require Export SpecJson NumText.
Open Scope Z_scope.

Lemma digit_char d : 0 <= d <= 9 -> is_digit (ascii_of_N (48 + Z.to_N d)) = true /\
  digit_val (ascii_of_N (48 + Z.to_N d)) = d.
Proof.
  intros H. unfold is_digit, digit_val. rewrite !N_ascii_embedding by lia. split; [|lia].
  apply andb_true_iff. rewrite !N.leb_le. lia.
Qed.
Lemma digit_char_inv c : is_digit c = true -> 0 <= digit_val c <= 9 /\ c = ascii_of_N (48 + Z.to_N (digit_val c)).
Proof.
  unfold is_digit, digit_val. rewrite andb_true_iff, !N.leb_le. intros H. split; [lia|].
  replace (48 + Z.to_N (Z.of_N (N_of_ascii c) - 48))%N with (N_of_ascii c) by lia.
  symmetry. apply ascii_N_embedding.
Qed.

Lemma digit_string_digits s k n : digit_string s k n -> digits s /\ k = String.length s /\ n = digits_val 0 s.
Proof.
  induction 1 as [|d s k n Hd Hs (IH1 & IH2 & IH3)]; [split; [apply digits_nil|auto]|].
  destruct (digit_char d Hd) as [H1 H2].
  split; [apply digits_cons; auto|]. split; [simpl; congruence|].
  cbn [digits_val]. rewrite digits_val_acc, H2, <- IH3, <- IH2. lia.
Qed.
Lemma digits_digit_string s : digits s -> digit_string s (String.length s) (digits_val 0 s).
Proof.
  induction s as [|c s IH]; intros H; [constructor|]. apply digits_cons in H. destruct H as [Hc Hs].
  destruct (digit_char_inv c Hc) as [H1 H2].
  cbn [digits_val String.length]. rewrite digits_val_acc. replace (0 * 10 + digit_val c) with (digit_val c) by lia.
  rewrite H2 at 1. constructor; auto.
Qed.

Lemma q10_pow m e : (q10 m e == inject_Z m * Qpower (10 # 1) e)%Q.
Proof.
  unfold q10. destruct (Z.leb_spec 0 e) as [H|H].
  - change (m * 10 ^ e # 1)%Q with (inject_Z (m * 10 ^ e)). rewrite inject_Z_mult. f_equiv.
    destruct e as [|p|p]; [reflexivity| |lia].
    change (10#1)%Q with (inject_Z 10). rewrite Zpower_Qpower by lia. reflexivity.
  - destruct e as [|p|p]; try lia. simpl Z.opp.
    assert (E : (Qpower (10 # 1) (Z.neg p) == / inject_Z (10 ^ Z.pos p))%Q).
    { simpl. change (10#1)%Q with (inject_Z 10).
      assert (H' : (Qpower (inject_Z 10) (Z.pos p) == inject_Z (10 ^ Z.pos p))%Q) by (rewrite Zpower_Qpower by lia; reflexivity).
      simpl in H'. rewrite H'. reflexivity. }
    rewrite E. assert (Hp : 0 < 10 ^ Z.pos p) by (apply p10_pos; lia).
    destruct (10 ^ Z.pos p) as [|r|r] eqn:Er; try lia.
    unfold Qeq, inject_Z, Qmult, Qinv. simpl. lia.
Qed.

(** The value of a literal given by parts. *)
Lemma parts_value g sg i ni f k nf e x :
  sign_of g sg -> int_of i ni -> frac_of f k nf -> exp_of e x ->
  sign_part g /\ int_part i /\ frac_part f /\ exp_part e /\
  (dec_val (parts_dec g i f e) ==
     inject_Z sg * (inject_Z ni + inject_Z nf / inject_Z (10 ^ Z.of_nat k)) * Qpower (10 # 1) x)%Q.
Proof.
  intros Hg Hi Hf He.
  assert (Hi' : int_part i /\ digits i /\ digits_val 0 i = ni).
  { destruct Hi as [[-> ->]|[[l Hi] Hn]]; [split; [left; auto|split; reflexivity]|].
    apply digit_string_digits in Hi. destruct Hi as (H1 & H2 & H3). split; [|auto]. right.
    split; auto. destruct i as [|c i]; [discriminate|]. split; [discriminate|]. simpl. intros ->. eapply Hn; eauto. }
  assert (Hf' : frac_part f /\ digits (frac_digits f) /\ String.length (frac_digits f) = k /\ digits_val 0 (frac_digits f) = nf).
  { destruct Hf as [(-> & -> & ->)|(d & -> & Hd & Hk)]; [repeat split; auto; left; auto|].
    apply digit_string_digits in Hd. destruct Hd as (H1 & H2 & H3). cbn [frac_digits]. split; [|auto].
    right. exists d. split; auto. split; auto. intros ->. simpl in H2. congruence. }
  assert (He' : exp_part e /\ exp_value e = x).
  { destruct He as [[-> ->]|(c & g' & d & l & n & -> & Hc & Hd & Hx)]; [split; [left|]; auto|].
    apply digit_string_digits in Hd. destruct Hd as (H1 & H2 & H3).
    assert (Hne : d <> ""%string) by (intros ->; discriminate). split.
    - right. exists c, g', d. repeat split; auto. destruct Hx as [[[-> | ->] _]|[-> _]]; auto.
    - destruct Hx as [[[-> | ->] ->]|[-> ->]]; cbn [append exp_value]; rewrite ?H3; auto.
      destruct d as [|c0 d]; [congruence|]. apply digits_cons in H1. destruct H1 as [H1 _].
      destruct c0 as [[] [] [] [] [] [] [] []]; try reflexivity; discriminate. }
  destruct Hi' as (Hi1 & Hi2 & Hi3), Hf' as (Hf1 & Hf2 & Hf3 & Hf4), He' as (He1 & He2).
  assert (Hg' : sign_part g) by (destruct Hg as [[-> _]|[-> _]]; [left|right]; auto).
  repeat split; auto.
  assert (Hq : (q10 (dec_mant (parts_dec g i f e)) (dec_e10 (parts_dec g i f e)) ==
     (inject_Z ni + inject_Z nf / inject_Z (10 ^ Z.of_nat k)) * Qpower (10 # 1) x)%Q).
  { rewrite q10_pow. unfold dec_mant, dec_e10, parts_dec. cbn [d_int d_frac d_exp].
    rewrite digits_val_app, digits_val_acc, Hi3, Hf4, Hf3, He2.
    assert (Hp : 0 < 10 ^ Z.of_nat k) by (apply p10_pos; lia).
    assert (Hz : ~ (inject_Z (10 ^ Z.of_nat k) == 0)%Q).
    { intros E. unfold Qeq in E. cbn [Qnum Qden inject_Z] in E. lia. }
    rewrite inject_Z_plus, inject_Z_mult.
    assert (E10 : ~ (10 # 1 == 0)%Q) by discriminate.
    rewrite (Qpower_plus (10#1) x (- Z.of_nat k) E10), (Qpower_opp (10#1) (Z.of_nat k)).
    change (10#1)%Q with (inject_Z 10). rewrite <- (Zpower_Qpower 10 (Z.of_nat k) (Nat2Z.is_nonneg k)).
    field. exact Hz. }
  unfold dec_val. destruct Hg as [[-> ->]|[-> ->]]; cbn [parts_dec d_neg]; rewrite Hq; ring.
Qed.

Theorem denotes_parse s q : denotes s q ->
  json_number s = true /\ exists d, parse_dec s = Some d /\ (dec_val d == q)%Q.
Proof.
  intros (g & sg & i & ni & f & k & nf & e & x & -> & Hg & Hi & Hf & He & Hq).
  destruct (parts_value g sg i ni f k nf e x Hg Hi Hf He) as (H1 & H2 & H3 & H4 & H5).
  split; [apply parts_json_number; auto|]. exists (parts_dec g i f e).
  split; [apply parse_dec_parts; auto|]. rewrite H5, Hq. reflexivity.
Qed.

Theorem json_number_denotes s : json_number s = true -> exists q, denotes s q.
Proof.
  intros H. destruct (json_number_parts s H) as (g & i & f & e & Hg & Hi & Hf & He & ->).
  assert (Hg' : exists sg, sign_of g sg) by (destruct Hg as [-> | ->]; eexists; [left|right]; split; reflexivity).
  assert (Hi' : exists ni, int_of i ni).
  { destruct Hi as [-> |(H1 & H2 & H3)]; [exists 0; left; auto|].
    exists (digits_val 0 i). right. split.
    - apply digits_digit_string in H1. destruct i as [|c i]; [congruence|]. eexists. exact H1.
    - intros r ->. apply H3. reflexivity. }
  assert (Hf' : exists k nf, frac_of f k nf).
  { destruct Hf as [-> |(d & -> & H1 & H2)]; [exists O, 0; left; auto|].
    exists (String.length d), (digits_val 0 d). right. exists d. split; auto.
    split; [apply digits_digit_string; auto|]. destruct d; [congruence|discriminate]. }
  assert (He' : exists x, exp_of e x).
  { destruct He as [-> |(c & g' & d & -> & Hc & Hg2 & H1 & H2)]; [exists 0; left; auto|].
    apply digits_digit_string in H1. destruct d as [|c0 d]; [congruence|].
    assert (Hx : exists x, (g' = ""%string \/ g' = "+"%string) /\ x = digits_val 0 (String c0 d) \/
                           g' = "-"%string /\ x = - digits_val 0 (String c0 d)).
    { destruct Hg2 as [-> |[-> | ->]]; eexists; eauto. }
    destruct Hx as [x Hx]. exists x. right. exists c, g', (String c0 d), (String.length d), (digits_val 0 (String c0 d)).
    repeat split; auto. }
  destruct Hg' as [sg Hg'], Hi' as [ni Hi'], Hf' as (k & nf & Hf'), He' as [x He'].
  eexists. exists g, sg, i, ni, f, k, nf, e, x. split; [reflexivity|]. do 4 (split; [assumption|]). reflexivity.
Qed.

Lemma number_iff s : number s <-> json_number s = true.
Proof. split; [intros [q H]; apply denotes_parse in H; tauto|apply json_number_denotes]. Qed.

Theorem denotes_unique s q q' : denotes s q -> denotes s q' -> (q == q')%Q.
Proof.
  intros H H'. apply denotes_parse in H, H'. destruct H as (_ & d & E & H), H' as (_ & d' & E' & H').
  rewrite E in E'. injection E' as <-. rewrite <- H, <- H'. reflexivity.
Qed.

Lemma denotes_ext s q q' : denotes s q -> (q == q')%Q -> denotes s q'.
Proof.
  intros (g & sg & i & ni & f & k & nf & e & x & -> & Hg & Hi & Hf & He & Hq) E.
  exists g, sg, i, ni, f, k, nf, e, x. repeat split; auto. rewrite <- E. exact Hq.
Qed.

Lemma json_number_parse s : json_number s = true -> exists d, parse_dec s = Some d /\ denotes s (dec_val d).
Proof.
  intros H. destruct (json_number_denotes s H) as [q Hq]. destruct (denotes_parse s q Hq) as (_ & d & E & Hd).
  exists d. split; auto. eapply denotes_ext; eauto. symmetry. exact Hd.
Qed.
