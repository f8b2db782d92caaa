(** Decimals as lists of digits (ModelShow.v): the digits of an integer, cutting
    off, rounding up. *)
From Coq Require Import Lia.
From Verif Require Import ModelShow NumText.
Open Scope Z_scope.

Definition ofd (l : list Z) : Z := fold_left (fun a x => a * 10 + x) l 0.
Definition digs (l : list Z) : Prop := Forall (fun x => 0 <= x <= 9) l.
Notation len l := (Z.of_nat (length l)).

Lemma fold_ofd l : forall a, fold_left (fun a x => a * 10 + x) l a = a * 10 ^ len l + ofd l.
Proof.
  induction l as [|x l IH]; intros a; cbn [fold_left length]; [cbn; lia|]. unfold ofd. cbn [fold_left]. rewrite (IH (a * 10 + x)), (IH (0 * 10 + x)).
  rewrite Nat2Z.inj_succ, Z.pow_succ_r by lia. ring.
Qed.
Lemma ofd_app a b : ofd (a ++ b) = ofd a * 10 ^ len b + ofd b.
Proof. unfold ofd at 1. rewrite fold_left_app. apply fold_ofd. Qed.
Lemma ofd_cons x l : ofd (x :: l) = x * 10 ^ len l + ofd l.
Proof. apply (ofd_app [x] l). Qed.
Lemma ofd_snoc l x : ofd (l ++ [x]) = ofd l * 10 + x.
Proof. rewrite ofd_app. cbn. lia. Qed.
Lemma p10 k : 0 <= k -> 0 < 10 ^ k.
Proof. intros H. apply Z.pow_pos_nonneg; lia. Qed.
Lemma p10_S k : 0 <= k -> 10 ^ (k + 1) = 10 * 10 ^ k.
Proof. intros H. rewrite Z.pow_add_r by lia. change (10 ^ 1) with 10. ring. Qed.
Lemma ofd_bounds l : digs l -> 0 <= ofd l < 10 ^ len l.
Proof.
  induction l as [|x l IH]; intros H; [cbn; lia|]. inversion H as [|? ? H1 H2]; subst. specialize (IH H2). rewrite ofd_cons. cbn [length]. rewrite Nat2Z.inj_succ, Z.pow_succ_r by lia.
  pose proof (p10 (len l) ltac:(lia)). nia.
Qed.
Lemma ofd_zeros k : ofd (repeat 0 k) = 0.
Proof. induction k as [|k IH]; [reflexivity|]. cbn [repeat]. rewrite ofd_cons, IH. lia. Qed.

(** [norm]: no zero in front, and not empty. *)
Definition lead (l : list Z) : Prop := match l with x :: _ => x <> 0 | [] => False end.
Lemma lead_bounds l : digs l -> lead l -> 10 ^ (len l - 1) <= ofd l.
Proof.
  destruct l as [|x l]; intros H K; [destruct K|]. inversion H as [|? ? H1 H2]; subst. cbn [lead] in K. rewrite ofd_cons. cbn [length]. replace (Z.of_nat (S (length l)) - 1) with (len l) by lia.
  pose proof (p10 (len l) ltac:(lia)). pose proof (ofd_bounds l H2). nia.
Qed.

Lemma digits10_spec k : forall n acc, 0 <= n < 10 ^ Z.of_nat k -> exists l, digits10 k n acc = l ++ acc /\ digs l /\ ofd l = n /\ (0 < n -> lead l).
Proof.
  induction k as [|k IH]; intros n acc H; cbn [digits10].
  - exists []. cbn in *. split; auto. split; [constructor|]. split; [cbn; lia|lia].
  - destruct (Z.eqb_spec n 0) as [->|Hn]; [exists []; split; auto; split; [constructor|]; split; [reflexivity|lia]|].
    rewrite Nat2Z.inj_succ, Z.pow_succ_r in H by lia. pose proof (Z.div_mod n 10 ltac:(lia)) as D. pose proof (Z.mod_pos_bound n 10 ltac:(lia)) as B.
    destruct (IH (n / 10) (n mod 10 :: acc)) as (l & E & H1 & H2 & H3); [lia|]. exists (l ++ [n mod 10]).
    split; [rewrite E, <- app_assoc; reflexivity|]. split; [apply Forall_app; split; auto; constructor; [lia|constructor]|]. split; [rewrite ofd_snoc; lia|].
    intros _. destruct (Z.eq_dec (n / 10) 0) as [Z0|Z0].
    + rewrite Z0 in *. destruct l as [|x l]; [cbn; lia|]. pose proof (lead_bounds (x :: l) H1) as X. inversion H1 as [|? ? X1 X2]; subst. rewrite ofd_cons in H2. pose proof (ofd_bounds l X2). pose proof (p10 (len l) ltac:(lia)). assert (x = 0) by nia. subst x.
      (* the recursion stops at 0, so there is no digit in front *)
      exfalso. destruct k as [|k]; cbn [digits10] in E.
      * apply (f_equal (@length Z)) in E. rewrite app_length in E. cbn in E. lia.
      * rewrite Z.eqb_refl in E. apply (f_equal (@length Z)) in E. rewrite app_length in E. cbn in E. lia.
    + assert (P : 0 < n / 10) by lia. specialize (H3 P). destruct l as [|x l]; [destruct H3|]. exact H3.
Qed.
Lemma utoa_spec n : 0 < n -> digs (utoa n) /\ ofd (utoa n) = n /\ lead (utoa n).
Proof.
  intros H. unfold utoa. destruct (digits10_spec (S (Z.to_nat (Z.log2 n))) n []) as (l & E & H1 & H2 & H3).
  - split; [lia|]. rewrite Nat2Z.inj_succ, Z2Nat.id by apply Z.log2_nonneg. destruct (Z.log2_spec n H) as [_ L].
    eapply Z.lt_le_trans; [exact L|]. apply Z.pow_le_mono_l. lia.
  - rewrite app_nil_r in E. rewrite E. auto.
Qed.

(** trim. *)
Lemma drop_zeros_spec l : exists k, l = repeat 0 k ++ drop_zeros l /\ match drop_zeros l with x :: _ => x <> 0 | [] => True end.
Proof.
  induction l as [|x l (k & E & H)]; [exists O; split; [reflexivity|exact I]|]. destruct (Z.eq_dec x 0) as [->|Hx].
  - exists (S k). cbn [drop_zeros repeat app]. split; [f_equal; exact E|exact H].
  - exists O. destruct x; [congruence| |]; cbn; split; auto.
Qed.
Definition closed (l : list Z) : Prop := match rev l with x :: _ => x <> 0 | [] => True end.
Lemma trim_spec l : exists k, l = trim l ++ repeat 0 k /\ closed (trim l).
Proof.
  destruct (drop_zeros_spec (rev l)) as (k & E & H). exists k. unfold trim. split.
  - transitivity (rev (rev l)); [symmetry; apply rev_involutive|]. rewrite E at 1. rewrite rev_app_distr. f_equal. clear. induction k as [|k IH]; [reflexivity|]. cbn [repeat rev]. rewrite IH. symmetry. apply repeat_cons.
  - unfold closed. rewrite rev_involutive. exact H.
Qed.
Lemma trim_parts l : digs l -> lead l -> digs (trim l) /\ lead (trim l) /\ closed (trim l) /\ (length (trim l) <= length l)%nat /\ ofd l = ofd (trim l) * 10 ^ (len l - len (trim l)).
Proof.
  intros H K. destruct (trim_spec l) as (k & E & C).
  assert (D : digs (trim l)) by (rewrite E in H; apply Forall_app in H; apply H).
  assert (LL : length l = (length (trim l) + k)%nat) by (rewrite E at 1; rewrite app_length, repeat_length; reflexivity).
  split; auto. split; [|split; auto; split; [lia|]].
  - rewrite E in K. destruct (trim l) as [|x t]; [|exact K]. destruct k; [exact K|]. cbn in K. congruence.
  - rewrite E at 1. rewrite ofd_app, ofd_zeros, repeat_length. replace (len l - len (trim l)) with (Z.of_nat k) by lia. lia.
Qed.

(** ** [rep N d X]: d, moved N places, is the integer X *)
Definition rep (N : Z) (d : decimal) (X : Z) : Prop :=
  digs (dm d) /\ lead (dm d) /\ closed (dm d) /\ len (dm d) <= de d + N /\ X = ofd (dm d) * 10 ^ (de d + N - len (dm d)).
Lemma rep_bounds N d X : rep N d X -> 10 ^ (de d + N - 1) <= X < 10 ^ (de d + N) /\ 1 <= len (dm d).
Proof.
  intros (H1 & H2 & _ & H4 & ->). pose proof (lead_bounds _ H1 H2) as B1. pose proof (ofd_bounds _ H1) as B2.
  assert (1 <= len (dm d)) by (destruct (dm d); [destruct H2|cbn [length]; lia]). split; [|auto].
  set (k := de d + N - len (dm d)) in *. assert (E1 : 10 ^ (de d + N - 1) = 10 ^ (len (dm d) - 1) * 10 ^ k) by (rewrite <- Z.pow_add_r by lia; f_equal; lia).
  assert (E2 : 10 ^ (de d + N) = 10 ^ len (dm d) * 10 ^ k) by (rewrite <- Z.pow_add_r by lia; f_equal; lia). rewrite E1, E2.
  pose proof (p10 k ltac:(lia)). split; [apply Z.mul_le_mono_nonneg_r; lia|apply Z.mul_lt_mono_pos_r; lia].
Qed.
Lemma rep_pos N d X : rep N d X -> 0 < X.
Proof.
  intros H. pose proof (rep_bounds N d X H) as ((B & _) & L). destruct H as (_ & _ & _ & H4 & _). pose proof (p10 (de d + N - 1) ltac:(lia)). lia.
Qed.

Lemma init_rep m s N : 0 < m -> 0 <= N -> 0 <= N + s -> rep N (dec_init m s) (if 0 <=? s then m * 2 ^ s * 10 ^ N else m * 5 ^ (- s) * 10 ^ (N + s)).
Proof.
  intros Hm HN Hs. unfold dec_init. destruct (Z.eqb_spec m 0); [lia|]. destruct (Z.leb_spec 0 s) as [H|H].
  - assert (P : 0 < m * 2 ^ s) by (pose proof (Z.pow_pos_nonneg 2 s ltac:(lia) H); nia).
    destruct (utoa_spec _ P) as (H1 & H2 & H3). destruct (trim_parts _ H1 H3) as (T1 & T2 & T3 & T4 & T5). unfold rep. cbn [dm de].
    repeat (split; auto); [lia|]. rewrite <- H2, T5 at 1. rewrite <- Z.mul_assoc, <- Z.pow_add_r by lia. f_equal. f_equal. lia.
  - assert (P : 0 < m * 5 ^ (- s)) by (pose proof (Z.pow_pos_nonneg 5 (- s) ltac:(lia) ltac:(lia)); nia).
    destruct (utoa_spec _ P) as (H1 & H2 & H3). destruct (trim_parts _ H1 H3) as (T1 & T2 & T3 & T4 & T5). unfold rep. cbn [dm de].
    repeat (split; auto); [lia|]. rewrite <- H2, T5 at 1. rewrite <- Z.mul_assoc, <- Z.pow_add_r by lia. f_equal. f_equal. lia.
Qed.

Section Rep.
  Variables (N : Z) (d : decimal) (X : Z).
  Hypothesis R : rep N d X.
  Notation E := (de d + N).
  (** The first i digits. *)
  Definition pre (i : nat) : Z := X / 10 ^ (E - Z.of_nat i).
  Lemma pre_0 : pre 0 = 0.
  Proof. unfold pre. destruct (rep_bounds _ _ _ R) as [B _]. pose proof (rep_pos _ _ _ R). apply Z.div_small. replace (E - Z.of_nat 0) with E by lia. lia. Qed.
  Lemma pre_firstn i : (i <= length (dm d))%nat -> pre i = ofd (firstn i (dm d)).
  Proof.
    intros H. unfold pre. destruct R as (H1 & H2 & _ & H4 & ->). rewrite <- (firstn_skipn i (dm d)) at 1. rewrite ofd_app.
    assert (L : len (skipn i (dm d)) = len (dm d) - Z.of_nat i) by (rewrite skipn_length; lia).
    assert (B : 0 <= ofd (skipn i (dm d)) < 10 ^ len (skipn i (dm d))).
    { apply ofd_bounds. rewrite <- (firstn_skipn i (dm d)) in H1. apply Forall_app in H1. apply H1. }
    replace (E - Z.of_nat i) with (len (skipn i (dm d)) + (E - len (dm d))) by lia. rewrite Z.pow_add_r by lia.
    rewrite Z.div_mul_cancel_r; [|apply Z.pow_nonzero; lia|apply Z.pow_nonzero; lia].
    symmetry. apply (Z.div_unique _ _ _ (ofd (skipn i (dm d)))); lia.
  Qed.
  Lemma pre_over i : (length (dm d) <= i)%nat -> Z.of_nat i <= E -> X = pre i * 10 ^ (E - Z.of_nat i).
  Proof.
    intros H1 H2. unfold pre. destruct R as (_ & _ & _ & H4 & EX).
    assert (D : X = ofd (dm d) * 10 ^ (Z.of_nat i - len (dm d)) * 10 ^ (E - Z.of_nat i)) by (rewrite EX, <- Z.mul_assoc, <- Z.pow_add_r by lia; do 2 f_equal; lia).
    rewrite D at 2. rewrite Z.div_mul by (apply Z.pow_nonzero; lia). exact D.
  Qed.
  Lemma pre_le i : Z.of_nat i <= E -> pre i * 10 ^ (E - Z.of_nat i) <= X < (pre i + 1) * 10 ^ (E - Z.of_nat i).
  Proof.
    intros H. unfold pre. pose proof (p10 (E - Z.of_nat i) ltac:(lia)) as P. pose proof (Z.div_mod X (10 ^ (E - Z.of_nat i)) ltac:(lia)). pose proof (Z.mod_pos_bound X _ P). nia.
  Qed.
  Lemma pre_S i : Z.of_nat (S i) <= E -> pre (S i) = 10 * pre i + dec_at d i.
  Proof.
    intros H. unfold dec_at. destruct (Nat.lt_ge_cases i (length (dm d))) as [L|L].
    - rewrite !pre_firstn by lia. assert (F : firstn (S i) (dm d) = firstn i (dm d) ++ [nth i (dm d) 0]).
      { clear - L. revert i L. induction (dm d) as [|x l IH]; intros i L; [cbn in L; lia|]. destruct i as [|i]; [reflexivity|]. cbn [firstn app nth]. f_equal. apply IH. cbn in L. lia. }
      rewrite F, ofd_snoc. lia.
    - rewrite nth_overflow by lia. pose proof (pre_over i L ltac:(lia)) as A. pose proof (pre_over (S i) ltac:(lia) H) as B. rewrite A in B.
      replace (E - Z.of_nat i) with ((E - Z.of_nat (S i)) + 1) in B by lia. rewrite p10_S in B by lia. pose proof (p10 (E - Z.of_nat (S i)) ltac:(lia)). nia.
  Qed.
  Lemma at_range i : 0 <= dec_at d i <= 9.
  Proof.
    unfold dec_at. destruct R as (H1 & _). destruct (Nat.lt_ge_cases i (length (dm d))) as [L|L]; [|rewrite nth_overflow by lia; lia].
    unfold digs in H1. rewrite Forall_forall in H1. apply H1. apply nth_In. exact L.
  Qed.
  Lemma at_lead : 1 <= dec_at d 0.
  Proof. pose proof (at_range 0) as A. destruct R as (_ & H & _). unfold dec_at in *. destruct (dm d); cbn in *; [destruct H|lia]. Qed.
  (** A multiple of 10^(E-n) has at most n digits. *)
  Lemma rep_length n z : Z.of_nat n <= E -> X = z * 10 ^ (E - Z.of_nat n) -> (length (dm d) <= n)%nat.
  Proof.
    intros H HX. destruct (Nat.le_gt_cases (length (dm d)) n) as [L|L]; auto. exfalso. destruct R as (H1 & H2 & H3 & H4 & EX).
    unfold closed in H3. destruct (rev (dm d)) as [|x r] eqn:Er; [apply (f_equal (@length Z)) in Er; rewrite rev_length in Er; cbn in Er; lia|].
    apply (f_equal (@rev Z)) in Er. rewrite rev_involutive in Er. cbn [rev] in Er. rewrite EX in HX. rewrite Er in HX at 1. rewrite ofd_snoc in HX.
    assert (XD : 0 <= x <= 9). { unfold digs in H1. rewrite Forall_forall in H1. apply H1. rewrite Er. apply in_app_iff. right. left. reflexivity. }
    replace (E - Z.of_nat n) with ((len (dm d) - Z.of_nat n - 1) + 1 + (E - len (dm d))) in HX by lia.
    rewrite Z.pow_add_r, p10_S in HX by lia. pose proof (p10 (E - len (dm d)) ltac:(lia)) as P.
    set (k := 10 ^ (len (dm d) - Z.of_nat n - 1)) in *. assert (ofd (rev r) * 10 + x = z * (10 * k)) by nia. lia.
  Qed.

  (** Cutting off and rounding up. *)
  Lemma firstn_parts n : (1 <= n <= length (dm d))%nat -> digs (firstn n (dm d)) /\ lead (firstn n (dm d)) /\ length (firstn n (dm d)) = n.
  Proof.
    intros H. destruct R as (H1 & H2 & _). split; [|split].
    - rewrite <- (firstn_skipn n (dm d)) in H1. apply Forall_app in H1. apply H1.
    - destruct (dm d); [destruct H2|]. destruct n; [lia|]. exact H2.
    - apply firstn_length_le. lia.
  Qed.
  Lemma down_rep n : (1 <= n)%nat -> Z.of_nat n <= E -> rep N (round_down d n) (pre n * 10 ^ (E - Z.of_nat n)).
  Proof.
    intros H1 H2. unfold round_down. destruct (Nat.leb_spec (length (dm d)) n) as [L|L]; [rewrite <- pre_over by auto; exact R|].
    destruct (firstn_parts n ltac:(lia)) as (F1 & F2 & F3). destruct (trim_parts _ F1 F2) as (T1 & T2 & T3 & T4 & T5).
    assert (X0 : match trim (firstn n (dm d)) with [] => 0 | _ :: _ => de d end = de d) by (destruct (trim (firstn n (dm d))); [destruct T2|reflexivity]).
    unfold rep. cbn [dm de]. rewrite X0. repeat (split; auto); [lia|]. rewrite pre_firstn by lia. rewrite T5 at 1. rewrite <- Z.mul_assoc, <- Z.pow_add_r by lia. f_equal. f_equal. lia.
  Qed.
  Lemma bump_spec l : digs l -> match bump (rev l) with
    | None => ofd l + 1 = 10 ^ len l
    | Some r => digs (rev r) /\ closed (rev r) /\ (length r <= length l)%nat /\ r <> [] /\ ofd (rev r) * 10 ^ (len l - len r) = ofd l + 1 /\ (lead l -> lead (rev r)) end.
  Proof.
    induction l as [|x l IH] using rev_ind; intros H; [reflexivity|]. rewrite rev_unit. cbn [bump]. apply Forall_app in H. destruct H as [H1 H2]. inversion H2 as [|? ? Xr _]; subst.
    specialize (IH H1). rewrite app_length. cbn [length]. destruct (Z.leb_spec 9 x) as [L|L].
    - assert (x = 9) by lia. subst x. rewrite ofd_snoc. destruct (bump (rev l)) as [r|].
      + destruct IH as (A1 & A2 & A3 & A4 & A5 & A6). split; auto. split; auto. split; [lia|]. split; auto. split.
        * replace (Z.of_nat (length l + 1) - len r) with ((len l - len r) + 1) by lia. rewrite p10_S by lia. nia.
        * intros K. apply A6. destruct l as [|y l]; [|exact K]. exfalso. cbn in A3. destruct r; [congruence|cbn in A3; lia].
      + replace (Z.of_nat (length l + 1)) with (len l + 1) by lia. rewrite p10_S by lia. lia.
    - cbn [rev length]. rewrite rev_involutive, rev_length. split; [apply Forall_app; split; auto; constructor; [lia|constructor]|]. split; [unfold closed; rewrite rev_unit; lia|].
      split; [lia|]. split; [discriminate|]. split.
      + rewrite !ofd_snoc. replace (Z.of_nat (length l + 1) - Z.of_nat (S (length l))) with 0 by lia. lia.
      + intros K. destruct l; cbn in *; [lia|exact K].
  Qed.
  Lemma up_rep n : (1 <= n < length (dm d))%nat -> rep N (round_up d n) ((pre n + 1) * 10 ^ (E - Z.of_nat n)).
  Proof.
    intros H. unfold round_up. destruct (Nat.leb_spec (length (dm d)) n) as [L|L]; [lia|]. destruct (firstn_parts n ltac:(lia)) as (F1 & F2 & F3).
    pose proof (bump_spec _ F1) as B. pose proof R as (_ & _ & _ & H4 & _). rewrite pre_firstn by lia. rewrite F3 in B.
    destruct (bump (rev (firstn n (dm d)))) as [r|].
    - destruct B as (A1 & A2 & A3 & A4 & A5 & A6). unfold rep. cbn [dm de]. rewrite rev_length. split; auto. split; auto. split; auto. split; [lia|].
      rewrite <- A5, <- Z.mul_assoc, <- Z.pow_add_r by lia. f_equal. f_equal. lia.
    - unfold rep. cbn [dm de length]. split; [constructor; [lia|constructor]|]. split; [cbn; lia|]. split; [cbn; lia|]. split; [lia|]. rewrite B. change (ofd [1]) with 1.
      rewrite <- Z.pow_add_r by lia. rewrite Z.mul_1_l. f_equal. lia.
  Qed.
  Lemma up_over n : (length (dm d) <= n)%nat -> round_up d n = d.
  Proof. intros H. unfold round_up. apply Nat.leb_le in H. rewrite H. reflexivity. Qed.
  Lemma round_cases n : round_dec d n = round_down d n \/ round_dec d n = round_up d n.
  Proof.
    unfold round_dec. destruct (Nat.leb_spec (length (dm d)) n) as [L|L]; [left; unfold round_down; apply Nat.leb_le in L; rewrite L; reflexivity|]. destruct (should_round_up d n); auto.
  Qed.
End Rep.
