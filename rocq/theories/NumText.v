(** Decimal texts: digit strings, the value of a literal, and the scanner of
    encoding/json. *)
From Verif Require Export FloatFacts JsonDecode.
Open Scope Z_scope.

(** ** m * 10^e *)

Lemma q10_shift m e k : 0 <= k -> (q10 (m * 10 ^ k) e == q10 m (e + k))%Q.
Proof.
  intros Hk. unfold q10. destruct (Z.leb_spec 0 e), (Z.leb_spec 0 (e + k)); try lia; unfold Qeq; simpl.
  - rewrite Z.pow_add_r by lia. ring.
  - rewrite Z2Pos.id by (apply p10_pos; lia).
    replace k with ((e + k) + (- e)) at 1 by lia. rewrite Z.pow_add_r by lia. ring.
  - rewrite !Z2Pos.id by (apply p10_pos; lia).
    replace (- e) with (k + - (e + k)) by lia. rewrite Z.pow_add_r by lia. ring.
Qed.

Lemma q10_nonneg m e : 0 <= m -> (0 <= q10 m e)%Q.
Proof.
  intros Hm. unfold q10. destruct (Z.leb_spec 0 e); unfold Qle; simpl; [|lia].
  assert (0 < 10 ^ e) by (apply p10_pos; lia). nia.
Qed.

Lemma q10_0 e : (q10 0 e == 0)%Q.
Proof. unfold q10. destruct (0 <=? e); reflexivity. Qed.

(** ** Digit strings *)

Definition digits (s : string) : Prop := take_digits s = (s, ""%string).

Lemma digits_nil : digits "".
Proof. reflexivity. Qed.
Lemma digits_cons c s : digits (String c s) <-> is_digit c = true /\ digits s.
Proof.
  unfold digits. simpl. destruct (is_digit c); [|split; [discriminate|intros [? _]; discriminate]].
  destruct (take_digits s) as [d r]. split.
  - intros [= -> ->]. auto.
  - intros [_ [= -> ->]]. auto.
Qed.
Lemma digits_app a b : digits (append a b) <-> digits a /\ digits b.
Proof.
  induction a as [|c a IH]; simpl.
  - split; [intros; split; auto using digits_nil|tauto].
  - rewrite !digits_cons, IH. tauto.
Qed.

Lemma digits_val_acc s : forall acc, digits_val acc s = acc * 10 ^ Z.of_nat (String.length s) + digits_val 0 s.
Proof.
  induction s as [|c s IH]; intros acc; cbn [digits_val String.length].
  - change (Z.of_nat 0) with 0. simpl. ring.
  - rewrite IH, (IH (0 * 10 + digit_val c)). rewrite Nat2Z.inj_succ, Z.pow_succ_r by lia. ring.
Qed.
Lemma digits_val_app a b : forall acc, digits_val acc (append a b) = digits_val (digits_val acc a) b.
Proof. induction a as [|c a IH]; intros acc; simpl; auto. Qed.
Lemma length_append a b : String.length (append a b) = (String.length a + String.length b)%nat.
Proof. induction a; simpl; auto. Qed.

Lemma digit_val_nonneg c : is_digit c = true -> 0 <= digit_val c <= 9.
Proof.
  unfold is_digit, digit_val. rewrite andb_true_iff, !N.leb_le. intros [H1 H2]. lia.
Qed.
Lemma digits_val_nonneg s : digits s -> forall acc, 0 <= acc -> 0 <= digits_val acc s.
Proof.
  induction s as [|c s IH]; intros H acc Ha; simpl; auto.
  apply digits_cons in H. destruct H as [Hc H]. apply digit_val_nonneg in Hc. apply IH; auto. lia.
Qed.

Lemma zeros_digits k : digits (zeros k).
Proof. induction k; simpl; [apply digits_nil|]. apply digits_cons. auto. Qed.
Lemma zeros_val k : forall acc, digits_val acc (zeros k) = acc * 10 ^ Z.of_nat k.
Proof.
  induction k as [|k IH]; intros acc; cbn [zeros digits_val]; [simpl; lia|].
  change (digit_val "0") with 0. rewrite IH, Nat2Z.inj_succ, Z.pow_succ_r by lia. ring.
Qed.
Lemma zeros_length k : String.length (zeros k) = k.
Proof. induction k; simpl; auto. Qed.

Lemma pad_take_spec n : forall s, digits s ->
  digits (pad_take n s) /\ digits (drop n s) /\ String.length (pad_take n s) = n /\
  ((n <= String.length s)%nat -> append (pad_take n s) (drop n s) = s /\ String.length (drop n s) = (String.length s - n)%nat) /\
  ((String.length s <= n)%nat -> pad_take n s = append s (zeros (n - String.length s)) /\ drop n s = ""%string).
Proof.
  induction n as [|n IH]; intros [|c s] H; cbn [pad_take drop].
  - repeat split; auto using digits_nil.
  - repeat split; auto using digits_nil; simpl in *; intros; lia.
  - destruct (IH ""%string digits_nil) as (H1 & H2 & H3 & _ & H4).
    split; [apply digits_cons; auto|]. split; auto. split; [simpl; lia|]. split; [simpl; intros; lia|].
    intros _. destruct (H4 ltac:(simpl; lia)) as [E _]. split; auto. rewrite E. simpl. rewrite Nat.sub_0_r. reflexivity.
  - apply digits_cons in H. destruct H as [Hc H]. destruct (IH s H) as (H1 & H2 & H3 & H4 & H5).
    split; [apply digits_cons; auto|]. split; auto. split; [simpl; lia|]. split; intros Hl; simpl in Hl.
    + destruct (H4 ltac:(lia)) as [E1 E2]. split; [simpl; congruence|simpl; lia].
    + destruct (H5 ltac:(lia)) as [E1 E2]. split; [simpl; congruence|auto].
Qed.

Lemma digit_char_spec z : 0 <= z <= 9 -> is_digit (digit_char z) = true /\ digit_val (digit_char z) = z.
Proof.
  intros H. assert (z = 0 \/ z = 1 \/ z = 2 \/ z = 3 \/ z = 4 \/ z = 5 \/ z = 6 \/ z = 7 \/ z = 8 \/ z = 9) as D by lia.
  repeat (destruct D as [-> |D]; [split; reflexivity|]). subst. split; reflexivity.
Qed.

(** The decimal text of a natural number. *)
Definition head_nz (s : string) : Prop := match s with String c _ => c <> "0"%char | _ => True end.

Lemma z2s_loop_spec k : forall n acc, 0 <= n < 10 ^ Z.of_nat k -> (0 < k)%nat ->
  exists ds, z2s_loop k n acc = append ds acc /\ digits ds /\ digits_val 0 ds = n /\ ds <> ""%string /\
             (0 < n -> head_nz ds).
Proof.
  induction k as [|k IH]; intros n acc Hn Hk; [lia|]. cbn [z2s_loop].
  assert (Hdm := Z.div_mod n 10 ltac:(lia)). assert (Hmb := Z.mod_pos_bound n 10 ltac:(lia)).
  destruct (digit_char_spec (n mod 10) ltac:(lia)) as [D1 D2].
  destruct (Z.eqb_spec (n / 10) 0) as [E|E].
  - exists (String (digit_char (n mod 10)) ""). split; [reflexivity|].
    split; [apply digits_cons; split; auto using digits_nil|].
    split; [cbn [digits_val]; rewrite D2; lia|]. split; [discriminate|].
    intros Hp. simpl. intros E0. rewrite E0 in D2. change (digit_val "0") with 0 in D2. lia.
  - assert (Hq : 0 <= n / 10 < 10 ^ Z.of_nat k).
    { split; [apply Z.div_pos; lia|]. apply Z.div_lt_upper_bound; [lia|].
      rewrite Nat2Z.inj_succ, Z.pow_succ_r in Hn by lia. lia. }
    assert (Hk' : (0 < k)%nat). { destruct k; [simpl in Hq; lia|lia]. }
    destruct (IH (n / 10) (String (digit_char (n mod 10)) acc) Hq Hk') as (ds & E1 & H1 & H2 & H3 & H4).
    exists (append ds (String (digit_char (n mod 10)) "")). split.
    { rewrite E1, <- append_assoc. reflexivity. }
    split; [apply digits_app; split; auto; apply digits_cons; auto using digits_nil|].
    split; [rewrite digits_val_app, H2; cbn [digits_val]; rewrite D2; lia|].
    split; [destruct ds; discriminate|].
    intros _. assert (Hp : 0 < n / 10) by lia. specialize (H4 Hp). destruct ds; [congruence|exact H4].
Qed.

Lemma z2s_spec n : 0 <= n ->
  digits (z2s n) /\ digits_val 0 (z2s n) = n /\ z2s n <> ""%string /\ (0 < n -> head_nz (z2s n)).
Proof.
  intros Hn. unfold z2s.
  destruct (z2s_loop_spec (S (Z.to_nat (Z.log2 n))) n "") as (ds & E & H); [|lia|].
  - split; auto. rewrite Nat2Z.inj_succ, Z2Nat.id by apply Z.log2_nonneg.
    destruct (Z.eq_dec n 0) as [->|]; [reflexivity|].
    destruct (Z.log2_spec n ltac:(lia)) as [_ H]. eapply Z.lt_le_trans; [exact H|].
    apply Z.pow_le_mono_l. lia.
  - rewrite E, append_nil_r. exact H.
Qed.

(** ** Literals by parts *)

Definition sign_part (s : string) : Prop := s = ""%string \/ s = "-"%string.
Definition int_part (s : string) : Prop :=
  s = "0"%string \/ (digits s /\ s <> ""%string /\ head_nz s).
Definition frac_part (s : string) : Prop :=
  s = ""%string \/ exists d, s = String "." d /\ digits d /\ d <> ""%string.
Definition exp_part (s : string) : Prop :=
  s = ""%string \/ exists c sg d, s = String c (append sg d) /\ (c = "e"%char \/ c = "E"%char) /\
    (sg = ""%string \/ sg = "+"%string \/ sg = "-"%string) /\ digits d /\ d <> ""%string.

(** The text cannot continue a number. *)
Definition stops (r : string) : Prop :=
  match r with
  | String c _ => is_digit c = false /\ c <> "."%char /\ c <> "e"%char /\ c <> "E"%char
  | EmptyString => True
  end.

Lemma stops_digit r : stops r -> starts_digit r = false.
Proof. destruct r; simpl; tauto. Qed.

Lemma digit_not c x : is_digit c = true -> is_digit x = false -> c <> x.
Proof. congruence. Qed.
Lemma digit_sign c : is_digit c = true -> (Ascii.eqb c "+" || Ascii.eqb c "-")%bool = false.
Proof. destruct c as [[] [] [] [] [] [] [] []]; vm_compute; congruence. Qed.

Lemma scan_frac_none r : starts_digit r = false -> (forall s, r <> String "." s) -> scan_frac r = Some (""%string, r).
Proof.
  intros _ H. destruct r as [|c r]; auto. destruct (Ascii.eqb_spec c "."); [subst; exfalso; eapply H; eauto|].
  destruct c as [[] [] [] [] [] [] [] []]; try reflexivity. congruence.
Qed.
Lemma scan_exp_none r : stops r -> scan_exp r = Some (""%string, r).
Proof.
  destruct r as [|c r]; auto. simpl. intros (_ & _ & H1 & H2).
  destruct (Ascii.eqb_spec c "e"); [congruence|]. destruct (Ascii.eqb_spec c "E"); [congruence|]. reflexivity.
Qed.

Lemma scan_exp_part e r : exp_part e -> stops r -> scan_exp (append e r) = Some (e, r).
Proof.
  intros [-> |(c & sg & d & -> & Hc & Hsg & Hd & Hne)] Hr; [apply scan_exp_none; auto|].
  assert (Ec : (Ascii.eqb c "e" || Ascii.eqb c "E")%bool = true) by (destruct Hc as [-> | ->]; reflexivity).
  cbn [append scan_exp]. rewrite Ec. rewrite <- append_assoc.
  assert (Hstop : take_digits (append d r) = (d, r)) by (apply take_digits_stop; auto using stops_digit).
  destruct d as [|c0 d]; [congruence|].
  destruct Hsg as [-> |[-> | ->]]; cbn [append].
  - apply digits_cons in Hd. destruct Hd as [Hc0 _]. rewrite (digit_sign c0 Hc0). cbn [append] in Hstop. rewrite Hstop. reflexivity.
  - simpl (Ascii.eqb "+" "+" || _)%bool. cbn [append] in Hstop. rewrite Hstop. reflexivity.
  - simpl (Ascii.eqb "-" "+" || _)%bool. cbn [append] in Hstop. rewrite Hstop. reflexivity.
Qed.

Lemma exp_part_head e r : exp_part e -> stops r ->
  starts_digit (append e r) = false /\ forall s, append e r <> String "." s.
Proof.
  intros [-> |(c & sg & d & -> & [-> | ->] & _)] Hr; simpl.
  - split; [apply stops_digit; auto|]. intros s ->. simpl in Hr. tauto.
  - split; auto. discriminate.
  - split; auto. discriminate.
Qed.

Lemma scan_frac_part f r : frac_part f -> starts_digit r = false -> (forall s, r <> String "." s) ->
  scan_frac (append f r) = Some (f, r).
Proof.
  intros [-> |(d & -> & Hd & Hne)] H1 H2; [apply scan_frac_none; auto|].
  cbn [append scan_frac]. rewrite take_digits_stop by auto. destruct d; [congruence|reflexivity].
Qed.

Lemma scan_int_part i r : int_part i -> starts_digit r = false -> scan_int (append i r) = Some (i, r).
Proof.
  intros Hi Hr. apply scan_int_again. destruct Hi as [-> |(H1 & H2 & H3)]; auto. right. split; auto. split; auto.
  destruct i as [|c i]; [congruence|]. apply digits_cons in H1. exists c, i. simpl in H3. tauto.
Qed.

Lemma scan_sign_part g s : sign_part g -> (forall r, s <> String "-" r) -> scan_sign (append g s) = (g, s).
Proof.
  intros [-> | ->] H; [|reflexivity]. simpl. destruct s as [|c s]; auto.
  destruct (Ascii.eqb_spec c "-"); [subst; exfalso; eapply H; eauto|].
  destruct c as [[] [] [] [] [] [] [] []]; try reflexivity. congruence.
Qed.

Lemma int_part_head i s r : int_part i -> append i s <> String "-" r.
Proof.
  intros [-> |(H1 & H2 & H3)]; [discriminate|]. destruct i as [|c i]; [congruence|].
  apply digits_cons in H1. simpl. intros [= -> _]. destruct H1. discriminate.
Qed.

Lemma frac_part_head f s : frac_part f -> starts_digit s = false -> starts_digit (append f s) = false.
Proof. intros [-> |(d & -> & _)] H; auto. Qed.

Lemma scan_number_parts g i f e r : sign_part g -> int_part i -> frac_part f -> exp_part e -> stops r ->
  scan_number (append (append g (append i (append f e))) r) = Some (append g (append i (append f e)), r).
Proof.
  intros Hg Hi Hf He Hr. rewrite <- !append_assoc. unfold scan_number.
  destruct (exp_part_head e r He Hr) as [E1 E2].
  rewrite scan_sign_part; auto; [|intros r0; apply int_part_head; auto].
  rewrite scan_int_part; auto; [|apply frac_part_head; auto].
  rewrite scan_frac_part; auto. rewrite scan_exp_part; auto.
Qed.

(** Every JSON number consists of such parts. *)
Lemma json_number_parts s : json_number s = true -> exists g i f e,
  sign_part g /\ int_part i /\ frac_part f /\ exp_part e /\ s = append g (append i (append f e)).
Proof.
  unfold json_number. destruct (scan_number s) as [[lit r]|] eqn:E; [|discriminate].
  destruct r; [|discriminate]. intros _.
  pose proof (scan_number_again _ _ _ E) as [Hs _]. rewrite append_nil_r in Hs.
  unfold scan_number in E. destruct (scan_sign s) as [sg s1] eqn:Es.
  destruct (scan_int s1) as [[ip s2]|] eqn:Ei; [|discriminate].
  destruct (scan_frac s2) as [[fp s3]|] eqn:Ef; [|discriminate].
  destruct (scan_exp s3) as [[ep s4]|] eqn:Ee; [|discriminate].
  injection E as E1 E2. exists sg, ip, fp, ep.
  split.
  { destruct s as [|c s]; simpl in Es; [injection Es as E3 E4; left; auto|].
    destruct c as [[] [] [] [] [] [] [] []]; injection Es as E3 E4; subst; unfold sign_part; auto. }
  split.
  { destruct (scan_int_spec _ _ _ Ei) as [_ [-> |(H1 & H2 & c & i' & -> & H3 & H4)]]; [left; auto|].
    right. split; auto. split; [discriminate|]. exact H4. }
  split.
  { destruct (scan_frac_spec _ _ _ Ef) as [[-> _]|(d & d0 & -> & _ & H1 & H2 & _)]; [left; auto|].
    right. exists d. split; auto. split; auto. rewrite H2. discriminate. }
  split.
  { destruct s3 as [|c s3]; simpl in Ee; [injection Ee as E3 E4; left; auto|].
    destruct (_ || _)%bool eqn:Ec; [|injection Ee as E3 E4; left; auto].
    assert (Hc : c = "e"%char \/ c = "E"%char).
    { apply orb_true_iff in Ec. destruct Ec as [Ec|Ec]; apply Ascii.eqb_eq in Ec; auto. }
    destruct s3 as [|c2 s5]; [discriminate|].
    destruct (Ascii.eqb c2 "+" || Ascii.eqb c2 "-")%bool eqn:E2'.
    - destruct (take_digits s5) as [d r0] eqn:Ed. destruct d as [|d0 d]; [discriminate|].
      injection Ee as E3 E4. right. exists c, (String c2 ""), (String d0 d). split; [auto|]. split; auto.
      split; [|split; [apply (take_digits_app _ _ _ Ed)|discriminate]].
      apply orb_true_iff in E2'. destruct E2' as [E2'|E2']; apply Ascii.eqb_eq in E2'; subst; auto.
    - destruct (take_digits (String c2 s5)) as [d r0] eqn:Ed. destruct d as [|d0 d]; [discriminate|].
      injection Ee as E3 E4. right. exists c, ""%string, (String d0 d). split; [auto|]. split; auto.
      split; auto. split; [apply (take_digits_app _ _ _ Ed)|discriminate]. }
  congruence.
Qed.

Lemma parts_json_number g i f e : sign_part g -> int_part i -> frac_part f -> exp_part e ->
  json_number (append g (append i (append f e))) = true.
Proof.
  intros Hg Hi Hf He. unfold json_number.
  pose proof (scan_number_parts g i f e "" Hg Hi Hf He I) as H. rewrite append_nil_r in H. rewrite H. reflexivity.
Qed.

Lemma scan_number_stop s r : json_number s = true -> stops r -> scan_number (append s r) = Some (s, r).
Proof.
  intros H Hr. destruct (json_number_parts s H) as (g & i & f & e & Hg & Hi & Hf & He & ->).
  apply scan_number_parts; auto.
Qed.

(** The value of a literal given by parts. *)
Definition frac_digits (f : string) : string := match f with String _ d => d | _ => ""%string end.
Definition exp_value (e : string) : Z :=
  match e with
  | String _ (String "-" d) => - digits_val 0 d
  | String _ (String "+" d) => digits_val 0 d
  | String _ d => digits_val 0 d
  | EmptyString => 0
  end.
Definition parts_dec (g i f e : string) : dec :=
  Dec (match g with EmptyString => false | _ => true end) i (frac_digits f) (exp_value e).

Lemma take_exp_part e : exp_part e -> take_exp e = Some (exp_value e).
Proof.
  intros [-> |(c & sg & d & -> & Hc & Hsg & Hd & Hne)]; [reflexivity|].
  assert (Ec : (Ascii.eqb c "e" || Ascii.eqb c "E")%bool = true) by (destruct Hc as [-> | ->]; reflexivity).
  cbn [take_exp]. rewrite Ec. unfold digits in Hd. destruct d as [|c0 d]; [congruence|].
  destruct Hsg as [-> |[-> | ->]]; cbn [append].
  - assert (Hc0 : is_digit c0 = true) by (apply digits_cons in Hd; tauto).
    assert (Ets : take_sign (String c0 d) = (false, String c0 d)).
    { destruct c0 as [[] [] [] [] [] [] [] []]; try reflexivity; discriminate. }
    rewrite Ets, Hd. f_equal. destruct c0 as [[] [] [] [] [] [] [] []]; try reflexivity; discriminate.
  - cbn [take_sign]. rewrite Hd. reflexivity.
  - cbn [take_sign]. rewrite Hd. reflexivity.
Qed.

Lemma int_part_digits i : int_part i -> digits i /\ i <> ""%string.
Proof. intros [-> |H]; [split; [reflexivity|discriminate]|tauto]. Qed.

Lemma parse_dec_parts g i f e : sign_part g -> int_part i -> frac_part f -> exp_part e ->
  parse_dec (append g (append i (append f e))) = Some (parts_dec g i f e).
Proof.
  intros Hg Hi Hf He. unfold parse_dec, parts_dec.
  pose proof (int_part_digits i Hi) as [Hi1 Hi2].
  assert (Hsg : take_sign (append g (append i (append f e))) =
                (match g with EmptyString => false | _ => true end, append i (append f e))).
  { destruct Hg as [-> | ->]; [|reflexivity]. destruct i as [|c i]; [congruence|].
    apply digits_cons in Hi1. destruct Hi1 as [Hc _]. cbn [append].
    destruct c as [[] [] [] [] [] [] [] []]; try reflexivity; discriminate. }
  rewrite Hsg. destruct (exp_part_head e "" He I) as [E1 E2]. rewrite append_nil_r in E1, E2.
  rewrite take_digits_stop; auto; [|apply frac_part_head; auto].
  assert (Hfr : take_frac (append f e) = (frac_digits f, e)).
  { destruct Hf as [-> |(d & -> & Hd & Hne)].
    - cbn [append frac_digits]. destruct e as [|c e]; auto. 
      destruct (Ascii.eqb_spec c "."); [subst; exfalso; eapply E2; eauto|].
      destruct c as [[] [] [] [] [] [] [] []]; try reflexivity. congruence.
    - cbn [append take_frac frac_digits]. rewrite take_digits_stop; auto. }
  rewrite Hfr, take_exp_part by auto.
  destruct i as [|c i]; [congruence|]. reflexivity.
Qed.
