(** UTF-8 decoding of the model against the specification of UTF-8. *)
From Coq Require Import ZifyN.
From Verif Require Export SpecJson JsonText JsonDecode.
Open Scope N_scope.
Ltac Zify.zify_post_hook ::= Z.div_mod_to_equations.

Lemma byte_id n : n < 256 -> N_of_ascii (ascii_of_N n) = n.
Proof. apply N_ascii_embedding. Qed.
Lemma ascii_id a : ascii_of_N (N_of_ascii a) = a.
Proof. apply ascii_N_embedding. Qed.
Lemma ascii_lt a : N_of_ascii a < 256.
Proof. apply N_ascii_bounded. Qed.

Lemma byte_in_iff lo hi a : byte_in lo hi a = true <-> lo <= N_of_ascii a <= hi.
Proof. unfold byte_in. rewrite andb_true_iff, !N.leb_le. tauto. Qed.
Lemma byte_in_out lo hi a : byte_in lo hi a = false <-> ~ (lo <= N_of_ascii a <= hi).
Proof.
  rewrite <- byte_in_iff. destruct (byte_in lo hi a); split; congruence.
Qed.

(** The bytes of a chunk, and the chunks utf8.DecodeRune produces. *)
Definition cbytes (k : chunk) : string :=
  match k with
  | C1 a | CBad a => String a ""
  | C2 a b => String a (String b "")
  | C3 a b c => String a (String b (String c ""))
  | C4 a b c d => String a (String b (String c (String d "")))
  end.
Definition good (k : chunk) : Prop :=
  match k with
  | C1 a => byte_in 0 127 a = true
  | C2 a b => valid2 a b = true
  | C3 a b c => valid3 a b c = true
  | C4 a b c d => valid4 a b c d = true
  | CBad _ => False
  end.

Lemma chunks_bytes_n n : forall s, (String.length s <= n)%nat -> concat_str (map cbytes (chunks s)) = s.
Proof.
  induction n as [|n IH]; intros s Hl; destruct s as [|a r]; try reflexivity; simpl in Hl; try lia.
  assert (HB : append (cbytes (CBad a)) (concat_str (map cbytes (chunks r))) = String a r) by (rewrite IH by lia; reflexivity).
  cbn [chunks]. destruct (byte_in 0 127 a); [exact HB|].
  destruct r as [|b r1]; [exact HB|]. simpl in Hl.
  destruct (valid2 a b); [change (append (cbytes (C2 a b)) (concat_str (map cbytes (chunks r1))) = String a (String b r1)); rewrite IH by lia; reflexivity|].
  destruct r1 as [|c r2]; [exact HB|]. simpl in Hl.
  destruct (valid3 a b c); [change (append (cbytes (C3 a b c)) (concat_str (map cbytes (chunks r2))) = String a (String b (String c r2))); rewrite IH by lia; reflexivity|].
  destruct r2 as [|d r3]; [exact HB|]. simpl in Hl.
  destruct (valid4 a b c d); [|exact HB].
  change (append (cbytes (C4 a b c d)) (concat_str (map cbytes (chunks r3))) = String a (String b (String c (String d r3)))).
  rewrite IH by lia. reflexivity.
Qed.
Lemma chunks_bytes s : concat_str (map cbytes (chunks s)) = s.
Proof. apply (chunks_bytes_n (String.length s)). lia. Qed.

Lemma cont_iff a : cont a = true <-> 128 <= N_of_ascii a <= 191.
Proof. apply byte_in_iff. Qed.

Ltac bytes := rewrite ?orb_true_iff, ?andb_true_iff, ?orb_true_iff, ?byte_in_iff, ?cont_iff.

Lemma valid2_iff a b : valid2 a b = true <-> 194 <= N_of_ascii a <= 223 /\ 128 <= N_of_ascii b <= 191.
Proof. unfold valid2. bytes. tauto. Qed.
Lemma valid3_iff a b c : valid3 a b c = true <->
  224 <= N_of_ascii a <= 239 /\ 128 <= N_of_ascii b <= 191 /\ 128 <= N_of_ascii c <= 191 /\
  (N_of_ascii a = 224 -> 160 <= N_of_ascii b) /\ (N_of_ascii a = 237 -> N_of_ascii b <= 159).
Proof. unfold valid3. bytes. lia. Qed.
Lemma valid4_iff a b c d : valid4 a b c d = true <->
  240 <= N_of_ascii a <= 244 /\ 128 <= N_of_ascii b <= 191 /\ 128 <= N_of_ascii c <= 191 /\ 128 <= N_of_ascii d <= 191 /\
  (N_of_ascii a = 240 -> 144 <= N_of_ascii b) /\ (N_of_ascii a = 244 -> N_of_ascii b <= 143).
Proof. unfold valid4. bytes. lia. Qed.

Lemma not_true_false (b : bool) : b <> true -> b = false.
Proof. destruct b; congruence. Qed.

Lemma good_head k s : good k -> chunks (append (cbytes k) s) = k :: chunks s.
Proof.
  destruct k as [a|a b|a b c|a b c d|a]; simpl good; intros H; [| | | |destruct H]; cbn [cbytes append chunks].
  - rewrite H. reflexivity.
  - rewrite H. apply valid2_iff in H.
    rewrite (proj2 (byte_in_out 0 127 a)) by lia. reflexivity.
  - rewrite H. apply valid3_iff in H.
    rewrite (proj2 (byte_in_out 0 127 a)) by lia.
    rewrite (not_true_false (valid2 a b)) by (rewrite valid2_iff; lia). reflexivity.
  - rewrite H. apply valid4_iff in H.
    rewrite (proj2 (byte_in_out 0 127 a)) by lia.
    rewrite (not_true_false (valid2 a b)) by (rewrite valid2_iff; lia).
    rewrite (not_true_false (valid3 a b c)) by (rewrite valid3_iff; lia). reflexivity.
Qed.

(** Chunks are good or bad single bytes. *)
Lemma chunks_shape s : Forall (fun k => good k \/ exists a, k = CBad a) (chunks s).
Proof.
  assert (H : forall n s, (String.length s <= n)%nat -> Forall (fun k => good k \/ exists a, k = CBad a) (chunks s)).
  { clear s. induction n as [|n IH]; intros s Hl; destruct s as [|a r]; try constructor; simpl in Hl; try lia.
    assert (HB : Forall (fun k => good k \/ exists a, k = CBad a) (CBad a :: chunks r))
      by (constructor; [right; eauto|apply IH; lia]).
    cbn [chunks]. destruct (byte_in 0 127 a) eqn:E1; [constructor; [left; exact E1|apply IH; lia]|].
    destruct r as [|b r1]; [exact HB|]. simpl in Hl.
    destruct (valid2 a b) eqn:E2; [constructor; [left; exact E2|apply IH; lia]|].
    destruct r1 as [|c r2]; [exact HB|]. simpl in Hl.
    destruct (valid3 a b c) eqn:E3; [constructor; [left; exact E3|apply IH; lia]|].
    destruct r2 as [|d r3]; [exact HB|]. simpl in Hl.
    destruct (valid4 a b c d) eqn:E4; [constructor; [left; exact E4|apply IH; lia]|exact HB]. }
  apply (H (String.length s)). lia.
Qed.

(** Good chunks are the UTF-8 sequences. *)
Lemma utf8_good c b : utf8_of c b -> exists k, good k /\ cbytes k = b.
Proof.
  intros H. destruct H.
  - exists (C1 (ascii_of_N x)). split; [apply byte_in_iff; rewrite byte_id by lia; lia|reflexivity].
  - exists (C2 (ascii_of_N (192 + x)) (ascii_of_N (128 + y))). split; [|reflexivity].
    apply valid2_iff. rewrite !byte_id by lia. lia.
  - exists (C3 (ascii_of_N (224 + x)) (ascii_of_N (128 + y)) (ascii_of_N (128 + z))). split; [|reflexivity].
    apply valid3_iff. rewrite !byte_id by lia. lia.
  - exists (C4 (ascii_of_N (240 + x)) (ascii_of_N (128 + y)) (ascii_of_N (128 + z)) (ascii_of_N (128 + w))). split; [|reflexivity].
    apply valid4_iff. rewrite !byte_id by lia. lia.
Qed.

Lemma ascii_off base a : base <= N_of_ascii a -> a = ascii_of_N (base + (N_of_ascii a - base)).
Proof. intros H. replace (base + (N_of_ascii a - base)) with (N_of_ascii a) by lia. symmetry. apply ascii_id. Qed.

Lemma good_utf8 k : good k -> exists c, utf8_of c (cbytes k).
Proof.
  destruct k as [a|a b|a b c|a b c d|a]; simpl good; intros H; [| | | |destruct H]; cbn [cbytes].
  - apply byte_in_iff in H. exists (N_of_ascii a). rewrite <- (ascii_id a) at 2. constructor. lia.
  - apply valid2_iff in H.
    rewrite (ascii_off 192 a), (ascii_off 128 b) by lia.
    eexists. apply utf8_2; lia.
  - apply valid3_iff in H.
    rewrite (ascii_off 224 a), (ascii_off 128 b), (ascii_off 128 c) by lia.
    eexists. apply utf8_3; lia.
  - apply valid4_iff in H.
    rewrite (ascii_off 240 a), (ascii_off 128 b), (ascii_off 128 c), (ascii_off 128 d) by lia.
    eexists. apply utf8_4; lia.
Qed.

Lemma utf8_of_scalar c b : utf8_of c b -> scalar c.
Proof. intros H. unfold scalar. destruct H; lia. Qed.

(** EncodeRune writes the UTF-8 sequence of a scalar value. *)
Lemma utf8_encode_of c : scalar c -> utf8_of c (utf8_encode c).
Proof.
  intros [H1 H2]. unfold utf8_encode, byte.
  destruct (N.ltb_spec c 128); [constructor; auto|].
  destruct (N.ltb_spec c 2048).
  { assert (E : c = (c / 64 * 64 + c mod 64)) by lia. rewrite E at 1. apply utf8_2; lia. }
  destruct (N.ltb_spec c 65536).
  { assert (E : c = ((c / 4096 * 64 + (c / 64) mod 64) * 64 + c mod 64)) by lia. rewrite E at 1.
    apply utf8_3; lia. }
  assert (E : c = (((c / 262144 * 64 + (c / 4096) mod 64) * 64 + (c / 64) mod 64) * 64 + c mod 64)) by lia. rewrite E at 1.
  apply utf8_4; lia.
Qed.

(** Number of runes of a text. *)
Theorem text_chunks cps s : text cps s -> Forall good (chunks s) /\ length (chunks s) = length cps.
Proof.
  induction 1 as [|c cps b s Hu Ht [IH1 IH2]]; [split; [constructor|reflexivity]|].
  destruct (utf8_good c b Hu) as (k & Hk & <-). rewrite good_head by auto. split; [constructor; auto|simpl; congruence].
Qed.

Lemma chunks_text ks : Forall good ks -> utf8_text (concat_str (map cbytes ks)).
Proof.
  induction 1 as [|k ks Hk _ [cps IH]]; [exists []; constructor|].
  destruct (good_utf8 k Hk) as [c Hc]. exists (c :: cps). simpl. constructor; auto.
Qed.

Theorem utf8_text_iff s : utf8_text s <-> Forall good (chunks s).
Proof.
  split; [intros [cps H]; apply (text_chunks cps s H)|].
  intros H. rewrite <- (chunks_bytes s). apply chunks_text. exact H.
Qed.

Lemma utf8_text_app a b : utf8_text a -> utf8_text b -> utf8_text (append a b).
Proof.
  intros [ca Ha] Hb. induction Ha as [|c cps x s Hx Hs IH]; [exact Hb|].
  destruct IH as [cps' IH]. exists (c :: cps'). rewrite <- append_assoc. constructor; auto.
Qed.
Lemma utf8_text_one c : scalar c -> utf8_text (utf8_encode c).
Proof.
  intros H. exists [c]. rewrite <- (append_nil_r (utf8_encode c)). constructor; [apply utf8_encode_of; auto|constructor].
Qed.
Lemma utf8_text_good k : good k -> utf8_text (cbytes k).
Proof.
  intros H. destruct (good_utf8 k H) as [c Hc]. exists [c]. rewrite <- (append_nil_r (cbytes k)). constructor; [auto|constructor].
Qed.
