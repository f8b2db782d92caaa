(** JSON strings: the model's decoder against the grammar. *)
From Coq Require Import ZifyN.
From Verif Require Export Utf8 NumSpec.
Open Scope N_scope.
Ltac Zify.zify_post_hook ::= Z.div_mod_to_equations.

(** UTF-8 sequences are unique. *)
Lemma utf8_of_encode c b : utf8_of c b -> b = utf8_encode c.
Proof.
  intros H. unfold utf8_encode, byte. destruct H.
  - destruct (N.ltb_spec x 128); [reflexivity|lia].
  - destruct (N.ltb_spec (x * 64 + y) 128); [lia|]. destruct (N.ltb_spec (x * 64 + y) 2048); [|lia].
    replace ((x * 64 + y) / 64) with x by lia. replace ((x * 64 + y) mod 64) with y by lia. reflexivity.
  - set (c := (x * 64 + y) * 64 + z) in *.
    destruct (N.ltb_spec c 128); [lia|]. destruct (N.ltb_spec c 2048); [lia|]. destruct (N.ltb_spec c 65536); [|lia].
    replace (c / 4096) with x by lia. replace ((c / 64) mod 64) with y by lia. replace (c mod 64) with z by lia. reflexivity.
  - set (c := ((x * 64 + y) * 64 + z) * 64 + w) in *.
    destruct (N.ltb_spec c 128); [lia|]. destruct (N.ltb_spec c 2048); [lia|]. destruct (N.ltb_spec c 65536); [lia|].
    replace (c / 262144) with x by lia. replace ((c / 4096) mod 64) with y by lia.
    replace ((c / 64) mod 64) with z by lia. replace (c mod 64) with w by lia. reflexivity.
Qed.

Lemma some_pair {A B} (a a' : A) (b b' : B) : Some (a, b) = Some (a', b') -> a = a' /\ b = b'.
Proof. intros [= -> ->]. auto. Qed.

Lemma byte_neq a x : N_of_ascii a <> N_of_ascii x -> Ascii.eqb a x = false.
Proof. intros H. destruct (Ascii.eqb_spec a x); [congruence|reflexivity]. Qed.

(** One rune of raw contents. *)
Lemma raw_rune_good k s : good k -> exists a r, append (cbytes k) s = String a r /\ raw_rune a r = (cbytes k, s) /\
  (byte_in 0 127 a = false \/ k = C1 a).
Proof.
  destruct k as [a|a b|a b c|a b c d|a]; simpl good; intros H; [| | | |destruct H]; cbn [cbytes append];
    eexists _, _; (split; [reflexivity|]); unfold raw_rune.
  - rewrite H. auto.
  - rewrite H. apply valid2_iff in H. rewrite (proj2 (byte_in_out 0 127 a)) by lia. auto.
  - rewrite H. apply valid3_iff in H. rewrite (proj2 (byte_in_out 0 127 a)) by lia.
    rewrite (not_true_false (valid2 a b)) by (rewrite valid2_iff; lia). auto.
  - rewrite H. apply valid4_iff in H. rewrite (proj2 (byte_in_out 0 127 a)) by lia.
    rewrite (not_true_false (valid2 a b)) by (rewrite valid2_iff; lia).
    rewrite (not_true_false (valid3 a b c)) by (rewrite valid3_iff; lia). auto.
Qed.

Definition prefix_res (b : string) (x : option (string * string)) : option (string * string) :=
  match x with Some (t, r) => Some (append b t, r) | None => None end.

Lemma parse_raw c b k x : utf8_of c b -> 32 <= c -> c <> 34 -> c <> 92 ->
  parse_str (S k) (append b x) = prefix_res b (parse_str k x).
Proof.
  intros H H1 H2 H3. destruct (utf8_good c b H) as (ch & Hg & <-).
  destruct (raw_rune_good ch x Hg) as (a & r & E & Er & Ha). rewrite E. cbn [parse_str].
  assert (Hc : 32 <= N_of_ascii a /\ N_of_ascii a <> 34 /\ N_of_ascii a <> 92).
  { destruct Ha as [Ha| ->].
    - apply byte_in_out in Ha. lia.
    - simpl in H. inversion H; subst. rewrite byte_id by lia. lia. }
  rewrite (byte_neq a """") by (change (N_of_ascii """") with 34; lia).
  rewrite (byte_neq a "\") by (change (N_of_ascii "\") with 92; lia).
  rewrite (proj2 (byte_in_out 0 31 a)) by lia. rewrite Er. reflexivity.
Qed.

(** Escapes. *)
Lemma hex_char_val c n : hex_char c n -> hex_val c = Some n.
Proof.
  unfold hex_val.
  intros [[H ->]|[H [-> | ->]]]; rewrite !byte_id by lia.
  - rewrite (proj2 (byte_in_iff 48 57 _)) by (rewrite byte_id; lia). f_equal. lia.
  - rewrite (proj2 (byte_in_out 48 57 _)) by (rewrite byte_id; lia).
    rewrite (proj2 (byte_in_iff 97 102 _)) by (rewrite byte_id; lia). f_equal. lia.
  - rewrite (proj2 (byte_in_out 48 57 _)) by (rewrite byte_id; lia).
    rewrite (proj2 (byte_in_out 97 102 _)) by (rewrite byte_id; lia).
    rewrite (proj2 (byte_in_iff 65 70 _)) by (rewrite byte_id; lia). f_equal. lia.
Qed.
Lemma hex_val_char c n : hex_val c = Some n -> hex_char c n.
Proof.
  unfold hex_val, hex_char. pose proof (ascii_id c) as Hc.
  destruct (byte_in 48 57 c) eqn:E1; [|destruct (byte_in 97 102 c) eqn:E2; [|destruct (byte_in 65 70 c) eqn:E3; [|discriminate]]];
    intros [= <-].
  - apply byte_in_iff in E1. left. split; [lia|]. rewrite <- Hc at 1. f_equal. lia.
  - apply byte_in_iff in E2. right. split; [lia|]. left. rewrite <- Hc at 1. f_equal. lia.
  - apply byte_in_iff in E3. right. split; [lia|]. right. rewrite <- Hc at 1. f_equal. lia.
Qed.
Lemma hex_char_lt c n : hex_char c n -> n < 16.
Proof. intros [[H _]|[H _]]; lia. Qed.

Lemma hex4_quad h n s : hex_quad h n -> hex4 (append h s) = Some (n, s).
Proof.
  intros (a & b & c & d & x & y & z & w & -> & Ha & Hb & Hc & Hd & ->). cbn [append hex4].
  rewrite (hex_char_val _ _ Ha), (hex_char_val _ _ Hb), (hex_char_val _ _ Hc), (hex_char_val _ _ Hd).
  do 2 f_equal. lia.
Qed.
Lemma hex4_inv s n r : hex4 s = Some (n, r) -> exists h, hex_quad h n /\ s = append h r.
Proof.
  destruct s as [|a [|b [|c [|d s]]]]; try discriminate. cbn [hex4].
  destruct (hex_val a) eqn:Ea, (hex_val b) eqn:Eb, (hex_val c) eqn:Ec, (hex_val d) eqn:Ed; try discriminate.
  intros [= <- <-]. exists (String a (String b (String c (String d "")))). split; [|reflexivity].
  do 8 eexists. split; [reflexivity|].
  repeat (split; [apply hex_val_char; eassumption|]). lia.
Qed.
Lemma hex_quad_lt h n : hex_quad h n -> n < 65536.
Proof.
  intros (a & b & c & d & x & y & z & w & -> & Ha & Hb & Hc & Hd & ->).
  apply hex_char_lt in Ha, Hb, Hc, Hd. lia.
Qed.

Lemma hex_char_small c n : hex_char c n -> N_of_ascii c < 128 /\ c <> """"%char.
Proof.
  intros [[H ->]|[H [-> | ->]]]; (split; [rewrite byte_id; lia|]);
    intros E; apply (f_equal N_of_ascii) in E; rewrite byte_id in E by lia; change (N_of_ascii """") with 34 in E; lia.
Qed.

(** Four hex digits found before a quote that follows s lie in s. *)
Lemma quad_before h n r s rest : hex_quad h n -> append h r = append s (String """" rest) ->
  exists s', s = append h s'.
Proof.
  intros (a & b & c & d & x & y & z & w & -> & Ha & Hb & Hc & Hd & _).
  apply hex_char_small in Ha, Hb, Hc, Hd. destruct Ha as [_ Ha], Hb as [_ Hb], Hc as [_ Hc], Hd as [_ Hd].
  cbn [append]. destruct s as [|a' s]; cbn [append]; intros E; [injection E; congruence|]. injection E as <- E.
  destruct s as [|a' s]; cbn [append] in E; [injection E; congruence|]. injection E as <- E.
  destruct s as [|a' s]; cbn [append] in E; [injection E; congruence|]. injection E as <- E.
  destruct s as [|a' s]; cbn [append] in E; [injection E; congruence|]. injection E as <- E.
  exists s. reflexivity.
Qed.

Lemma is_surrogate_iff n : is_surrogate n = true <-> high_surrogate n \/ low_surrogate n.
Proof. unfold is_surrogate, high_surrogate, low_surrogate. rewrite andb_true_iff, N.leb_le, N.ltb_lt. lia. Qed.
Lemma is_high_iff n : is_high n = true <-> high_surrogate n.
Proof. unfold is_high, high_surrogate. rewrite andb_true_iff, N.leb_le, N.ltb_lt. lia. Qed.
Lemma is_low_iff n : is_low n = true <-> low_surrogate n.
Proof. unfold is_low, low_surrogate. rewrite andb_true_iff, N.leb_le, N.ltb_lt. lia. Qed.

Lemma pair_scalar n1 n2 : high_surrogate n1 -> low_surrogate n2 -> scalar (65536 + (n1 - 55296) * 1024 + (n2 - 56320)).
Proof. unfold scalar, high_surrogate, low_surrogate. lia. Qed.
Lemma quad_scalar n : n < 65536 -> is_surrogate n = false -> scalar n.
Proof.
  intros H E. assert (Hns : ~ (high_surrogate n \/ low_surrogate n)) by (rewrite <- is_surrogate_iff; congruence).
  unfold scalar, high_surrogate, low_surrogate in *. lia.
Qed.

Lemma replacement_fffd : replacement = fffd.
Proof. reflexivity. Qed.

Lemma unescape_u_scalar h n b x : hex_quad h n -> utf8_of n b -> unescape_u (append h x) = Some (b, x).
Proof.
  intros H Hb. unfold unescape_u. rewrite (hex4_quad _ _ _ H).
  rewrite (not_true_false (is_surrogate n)), (utf8_of_encode _ _ Hb); auto.
  rewrite is_surrogate_iff. apply utf8_of_scalar in Hb. unfold scalar, high_surrogate, low_surrogate in *. lia.
Qed.
Lemma unescape_u_pair h1 n1 h2 n2 b x : hex_quad h1 n1 -> high_surrogate n1 -> hex_quad h2 n2 -> low_surrogate n2 ->
  utf8_of (65536 + (n1 - 55296) * 1024 + (n2 - 56320)) b ->
  unescape_u (append h1 (String "\" (String "u" (append h2 x)))) = Some (b, x).
Proof.
  intros H1 Hh H2 Hl Hb. unfold unescape_u. rewrite (hex4_quad _ _ _ H1).
  rewrite (proj2 (is_surrogate_iff n1)) by auto. rewrite (hex4_quad _ _ _ H2).
  rewrite (proj2 (is_high_iff n1)), (proj2 (is_low_iff n2)) by auto. cbn [andb].
  rewrite (utf8_of_encode _ _ Hb). reflexivity.
Qed.

Definition starts_bsu (s : string) : option string :=
  match s with String "\" (String "u" r) => Some r | _ => None end.
Lemma starts_bsu_some s r : starts_bsu s = Some r -> s = String "\" (String "u" r).
Proof.
  destruct s as [|a [|b s]]; try discriminate; unfold starts_bsu.
  - destruct a as [[] [] [] [] [] [] [] []]; discriminate.
  - destruct a as [[] [] [] [] [] [] [] []]; try discriminate.
    destruct b as [[] [] [] [] [] [] [] []]; try discriminate. intros [= ->]. reflexivity.
Qed.
Lemma unescape_u_eq s : unescape_u s =
  match hex4 s with
  | None => None
  | Some (n, r) =>
      if is_surrogate n then
        match starts_bsu r with
        | Some r2 =>
            match hex4 r2 with
            | Some (n2, r3) =>
                if (is_high n && is_low n2)%bool
                then Some (utf8_encode (65536 + (n - 55296) * 1024 + (n2 - 56320)), r3)
                else Some (replacement, r)
            | None => Some (replacement, r)
            end
        | None => Some (replacement, r)
        end
      else Some (utf8_encode n, r)
  end.
Proof.
  unfold unescape_u. destruct (hex4 s) as [[n r]|]; auto. destruct (is_surrogate n); auto.
  destruct r as [|a [|b r]]; auto; unfold starts_bsu.
  - destruct a as [[] [] [] [] [] [] [] []]; reflexivity.
  - destruct a as [[] [] [] [] [] [] [] []]; try reflexivity.
    destruct b as [[] [] [] [] [] [] [] []]; reflexivity.
Qed.

Lemma unescape_u_lone h n s rest : hex_quad h n -> high_surrogate n \/ low_surrogate n ->
  (high_surrogate n -> forall h2 n2 s2, s = String "\" (String "u" (append h2 s2)) -> hex_quad h2 n2 -> ~ low_surrogate n2) ->
  unescape_u (append h (append s (String """" rest))) = Some (fffd, append s (String """" rest)).
Proof.
  intros H Hs Hp. rewrite unescape_u_eq, (hex4_quad _ _ _ H), (proj2 (is_surrogate_iff n)) by auto.
  destruct (starts_bsu _) as [r2|] eqn:Eb; [|reflexivity]. apply starts_bsu_some in Eb.
  destruct (hex4 r2) as [[n2 r3]|] eqn:E4; [|reflexivity].
  destruct (is_high n && is_low n2)%bool eqn:Ehl; [|reflexivity]. exfalso.
  apply andb_true_iff in Ehl. destruct Ehl as [Eh El]. apply is_high_iff in Eh. apply is_low_iff in El.
  destruct (hex4_inv _ _ _ E4) as (h2 & Hq & ->).
  destruct s as [|a [|b s]]; cbn [append] in Eb; try discriminate. injection Eb as -> -> Eb.
  destruct (quad_before h2 n2 r3 s rest Hq (eq_sym Eb)) as [s' ->].
  eapply Hp; eauto.
Qed.

Lemma parse_esc k e y r piece : unescape e y = Some (piece, r) ->
  parse_str (S k) (String "\" (String e y)) = prefix_res piece (parse_str k r).
Proof. intros H. cbn [parse_str]. simpl (Ascii.eqb "\" _). cbv iota. rewrite H. reflexivity. Qed.

Lemma utf8_of_nonempty c b : utf8_of c b -> (1 <= String.length b)%nat.
Proof. intros []; simpl; lia. Qed.

(** Completeness: a JSON string is read as the text it stands for. *)
Theorem parse_chars s t : chars s t -> forall k rest, (String.length s < k)%nat ->
  parse_str k (append s (String """" rest)) = Some (t, rest).
Proof.
  induction 1 as [|c b s t Hu H1 H2 H3 Hc IH|e x s t He Hc IH|h n b s t Hh Hu Hc IH
                 |h1 n1 h2 n2 b s t Hh1 Hn1 Hh2 Hn2 Hu Hc IH|h n s t Hh Hn Hp Hc IH]; intros k rest Hk;
    (destruct k as [|k]; [lia|]).
  - reflexivity.
  - rewrite <- append_assoc, (parse_raw c) by auto. pose proof (utf8_of_nonempty _ _ Hu). rewrite length_append in Hk.
    rewrite IH by lia. reflexivity.
  - simpl in Hk. cbn [append]. rewrite (parse_esc k e _ (append s (String """" rest)) (String x "")).
    + rewrite IH by lia. reflexivity.
    + simpl in He. repeat destruct He as [He|He]; try (injection He as <- <-; reflexivity). destruct He.
  - cbn [append]. rewrite <- append_assoc. cbn [String.length] in Hk. rewrite length_append in Hk.
    rewrite (parse_esc k "u" _ (append s (String """" rest)) b).
    + rewrite IH by lia. reflexivity.
    + apply (unescape_u_scalar h n b); auto.
  - cbn [append]. rewrite <- append_assoc. cbn [append]. rewrite <- append_assoc. cbn [String.length] in Hk. rewrite length_append in Hk.
    cbn [String.length] in Hk. rewrite length_append in Hk.
    rewrite (parse_esc k "u" _ (append s (String """" rest)) b).
    + rewrite IH by lia. reflexivity.
    + apply (unescape_u_pair h1 n1 h2 n2 b); auto.
  - cbn [append]. rewrite <- append_assoc. cbn [String.length] in Hk. rewrite length_append in Hk.
    rewrite (parse_esc k "u" _ (append s (String """" rest)) fffd).
    + rewrite IH by lia. reflexivity.
    + apply (unescape_u_lone h n s rest); auto.
Qed.

Lemma parse_string_chars s t rest : chars s t -> parse_string (append s (String """" rest)) = Some (t, rest).
Proof.
  intros H. apply parse_chars; auto. rewrite length_append. simpl. lia.
Qed.

(** ** Soundness *)

Lemma utf8_text_ascii a r : byte_in 0 127 a = true -> utf8_text (String a r) -> utf8_text r.
Proof.
  rewrite !utf8_text_iff. intros Ha. pose proof (good_head (C1 a) r Ha) as E. cbn [cbytes append] in E. rewrite E.
  intros H. inversion H; auto.
Qed.
Lemma utf8_text_small a r : N_of_ascii a < 128 -> utf8_text (String a r) -> utf8_text r.
Proof. intros H. apply utf8_text_ascii. apply byte_in_iff. lia. Qed.

Lemma bad_not_good a l : Forall good (CBad a :: l) -> False.
Proof. intros H. apply Forall_inv in H. exact H. Qed.

Lemma raw_rune_text a r : utf8_text (String a r) -> exists c b x,
  raw_rune a r = (b, x) /\ String a r = append b x /\ utf8_of c b /\ utf8_text x /\
  (c = N_of_ascii a \/ 128 <= c).
Proof.
  rewrite utf8_text_iff. intros H.
  assert (HE : exists k x, good k /\ String a r = append (cbytes k) x /\ Forall good (chunks x)).
  { cbn [chunks] in H. destruct (byte_in 0 127 a) eqn:E1; [inversion H; subst; exists (C1 a), r; auto|].
    destruct r as [|b r1]; [destruct (bad_not_good _ _ H)|].
    destruct (valid2 a b) eqn:E2; [inversion H; subst; exists (C2 a b), r1; auto|].
    destruct r1 as [|c r2]; [destruct (bad_not_good _ _ H)|].
    destruct (valid3 a b c) eqn:E3; [inversion H; subst; exists (C3 a b c), r2; auto|].
    destruct r2 as [|d r3]; [destruct (bad_not_good _ _ H)|].
    destruct (valid4 a b c d) eqn:E4; [inversion H; subst; exists (C4 a b c d), r3; auto|destruct (bad_not_good _ _ H)]. }
  destruct HE as (k & x & Hk & E & Hx). destruct (good_utf8 k Hk) as [c Hc].
  destruct (raw_rune_good k x Hk) as (a' & r' & E' & Er & Ha). rewrite E in *. 
  rewrite E' in *. injection E as -> ->. exists c, (cbytes k), x. repeat split; auto.
  - apply utf8_text_iff. auto.
  - destruct Ha as [Ha| ->].
    + right. destruct k as [a0|a0 b|a0 b c0|a0 b c0 d|a0]; cbn [cbytes append] in *; injection E' as -> _; simpl in Hk; [congruence| | | |destruct Hk];
        inversion Hc; subst; lia.
    + left. simpl in Hc. inversion Hc; subst. rewrite byte_id by lia. reflexivity.
Qed.

Lemma quad_text h n r : hex_quad h n -> utf8_text (append h r) -> utf8_text r.
Proof.
  intros (a & b & c & d & x & y & z & w & -> & Ha & Hb & Hc & Hd & _). cbn [append]. intros H.
  apply hex_char_small in Ha, Hb, Hc, Hd.
  do 4 (apply utf8_text_small in H; [|tauto]). exact H.
Qed.

(** An escape: either it stands for its own bytes, or it is a lone surrogate. *)
Lemma unescape_sound e y piece r : utf8_text y -> unescape e y = Some (piece, r) ->
  utf8_text r /\ exists p, String e y = append p r /\ (String.length r < String.length (String e y))%nat /\
  forall s rest t, r = append s (String """" rest) -> chars s t -> chars (String "\" (append p s)) (append piece t).
Proof.
  intros Hy. unfold unescape.
  assert (HS : forall x, In (e, x) escape_table -> Some (String x "", y) = Some (piece, r) ->
    utf8_text r /\ exists p, String e y = append p r /\ (String.length r < String.length (String e y))%nat /\
    forall s rest t, r = append s (String """" rest) -> chars s t -> chars (String "\" (append p s)) (append piece t)).
  { intros x Hx [= <- <-]. split; auto. exists (String e ""). split; [reflexivity|]. split; [simpl; lia|].
    intros s rest t _ Hs. cbn [append]. apply chars_esc; auto. }
  destruct (Ascii.eqb_spec e """"); [subst; apply HS; unfold escape_table; auto 10 with datatypes; simpl; tauto|].
  destruct (Ascii.eqb_spec e "\"); [subst; apply HS; simpl; tauto|].
  destruct (Ascii.eqb_spec e "/"); [subst; apply HS; simpl; tauto|].
  destruct (Ascii.eqb_spec e "b"); [subst; apply HS; simpl; tauto|].
  destruct (Ascii.eqb_spec e "f"); [subst; apply HS; simpl; tauto|].
  destruct (Ascii.eqb_spec e "n"); [subst; apply HS; simpl; tauto|].
  destruct (Ascii.eqb_spec e "r"); [subst; apply HS; simpl; tauto|].
  destruct (Ascii.eqb_spec e "t"); [subst; apply HS; simpl; tauto|].
  destruct (Ascii.eqb_spec e "u"); [subst; clear HS; repeat match goal with H : "u"%char <> _ |- _ => clear H end|discriminate].
  rewrite unescape_u_eq. destruct (hex4 y) as [[n r0]|] eqn:E4; [|discriminate].
  destruct (hex4_inv _ _ _ E4) as (h & Hh & ->). pose proof (quad_text _ _ _ Hh Hy) as Hr0.
  assert (Hlen : String.length h = 4%nat) by (destruct Hh as (? & ? & ? & ? & ? & ? & ? & ? & -> & _); reflexivity).
  destruct (is_surrogate n) eqn:Es.
  - apply is_surrogate_iff in Es.
    assert (HL : (forall n2 r2 r3, starts_bsu r0 = Some r2 -> hex4 r2 = Some (n2, r3) -> (is_high n && is_low n2)%bool = false) ->
      Some (replacement, r0) = Some (piece, r) ->
      utf8_text r /\ exists p, String "u" (append h r0) = append p r /\ (String.length r < String.length (String "u" (append h r0)))%nat /\
      forall s rest t, r = append s (String """" rest) -> chars s t -> chars (String "\" (append p s)) (append piece t)).
    { intros HP [= <- <-]. split; auto. exists (String "u" h). split; [reflexivity|].
      split; [simpl; rewrite length_append; lia|]. intros s rest t -> Hs. rewrite replacement_fffd. cbn [append].
      apply chars_lone with n; auto. intros Hhi h2 n2 s2 -> Hq Hlo.
      assert (Hf : (is_high n && is_low n2)%bool = false).
      { eapply HP; [reflexivity|]. rewrite <- append_assoc. apply hex4_quad. exact Hq. }
      rewrite (proj2 (is_high_iff n) Hhi), (proj2 (is_low_iff n2) Hlo) in Hf. discriminate. }
    destruct (starts_bsu r0) as [r2|] eqn:Eb; [|apply HL; discriminate].
    destruct (hex4 r2) as [[n2 r3]|] eqn:E5.
    2:{ apply HL. intros n3 r4 r5 [= <-] E6. congruence. }
    destruct (is_high n && is_low n2)%bool eqn:Ehl.
    2:{ apply HL. intros n3 r4 r5 [= <-] E6. rewrite E5 in E6. injection E6 as <- <-. exact Ehl. }
    intros E. apply some_pair in E. destruct E as [<- <-]. apply starts_bsu_some in Eb. subst r0.
    destruct (hex4_inv _ _ _ E5) as (h2 & Hh2 & ->).
    assert (Hr3 : utf8_text r3).
    { apply utf8_text_small in Hr0; [|reflexivity]. apply utf8_text_small in Hr0; [|reflexivity]. eapply quad_text; eauto. }
    split; auto. exists (String "u" (append h (String "\" (String "u" h2)))).
    split; [cbn [append]; rewrite <- append_assoc; reflexivity|].
    split; [cbn [String.length]; rewrite length_append; cbn [String.length]; rewrite length_append; lia|].
    intros s rest t _ Hs. cbn [append]. rewrite <- append_assoc. cbn [append].
    apply andb_true_iff in Ehl. destruct Ehl as [Eh El]. apply is_high_iff in Eh. apply is_low_iff in El.
    apply chars_pair with n n2; auto. apply utf8_encode_of. apply pair_scalar; auto.
  - intros [= <- <-]. split; auto. exists (String "u" h). split; [reflexivity|].
    split; [simpl; rewrite length_append; lia|]. intros s rest t _ Hs. cbn [append].
    apply chars_u with n; auto. apply utf8_encode_of. apply quad_scalar; auto. eapply hex_quad_lt; eauto.
Qed.

Theorem parse_str_sound k : forall x t rest, utf8_text x -> parse_str k x = Some (t, rest) ->
  utf8_text rest /\ exists s, x = append s (String """" rest) /\ chars s t.
Proof.
  induction k as [|k IH]; intros x t rest Hx; [discriminate|]. cbn [parse_str].
  destruct x as [|a r]; [discriminate|].
  destruct (Ascii.eqb_spec a """").
  { subst. intros [= <- <-]. split; [eapply utf8_text_small; eauto; reflexivity|]. exists ""%string. split; [reflexivity|constructor]. }
  destruct (Ascii.eqb_spec a "\").
  { subst. destruct r as [|e y]; [discriminate|]. apply utf8_text_small in Hx; [|reflexivity].
    destruct (unescape e y) as [[piece r2]|] eqn:Eu; [|discriminate].
    destruct (parse_str k r2) as [[t' r3]|] eqn:Ep; [|discriminate]. intros [= <- <-].
    assert (Hy : utf8_text y).
    { destruct (N.lt_ge_cases (N_of_ascii e) 128); [eapply utf8_text_small; eauto|exfalso].
      unfold unescape in Eu.
      repeat match type of Eu with
             | (if Ascii.eqb e ?c then _ else _) = _ =>
                 destruct (Ascii.eqb_spec e c); [subst; vm_compute in H; congruence|]
             end. discriminate. }
    destruct (unescape_sound e y piece r2 Hy Eu) as (H1 & p & Ep2 & _ & HC).
    destruct (IH _ _ _ H1 Ep) as (H2 & s & -> & Hs). split; auto.
    exists (String "\" (append p s)). split; [cbn [append]; rewrite Ep2, <- append_assoc; reflexivity|].
    eapply HC; eauto. }
  destruct (byte_in 0 31 a) eqn:Ectl; [discriminate|]. apply byte_in_out in Ectl.
  destruct (raw_rune_text a r Hx) as (c & b & y & Er & Ey & Hu & Hy & Hc). rewrite Er, Ey.
  destruct (parse_str k y) as [[t' r3]|] eqn:Ep; [|discriminate]. intros [= <- <-].
  destruct (IH _ _ _ Hy Ep) as (H2 & s & -> & Hs). split; auto.
  exists (append b s). split; [rewrite <- append_assoc; reflexivity|].
  apply chars_raw with c; auto.
  - destruct Hc as [-> |]; lia.
  - destruct Hc as [-> |]; [|lia]. intros E. apply n. rewrite <- (ascii_id a), E. reflexivity.
  - destruct Hc as [-> |]; [|lia]. intros E. apply n0. rewrite <- (ascii_id a), E. reflexivity.
Qed.

Lemma parse_string_sound x t rest : utf8_text x -> parse_string x = Some (t, rest) ->
  utf8_text rest /\ exists s, x = append s (String """" rest) /\ chars s t.
Proof. apply parse_str_sound. Qed.

(** What a string stands for is a text. *)
Lemma chars_text s t : chars s t -> utf8_text t.
Proof.
  induction 1 as [|c b s t Hu H1 H2 H3 Hc IH|e x s t He Hc IH|h n b s t Hh Hu Hc IH
                 |h1 n1 h2 n2 b s t Hh1 Hn1 Hh2 Hn2 Hu Hc IH|h n s t Hh Hn Hp Hc IH].
  - exists []. constructor.
  - apply utf8_text_app; auto. rewrite (utf8_of_encode _ _ Hu). apply utf8_text_one. eapply utf8_of_scalar; eauto.
  - change (String x t) with (append (String x "") t). apply utf8_text_app; auto. apply (utf8_text_good (C1 x)).
    simpl in He. repeat destruct He as [He|He]; try (injection He as <- <-; reflexivity). destruct He.
  - apply utf8_text_app; auto. rewrite (utf8_of_encode _ _ Hu). apply utf8_text_one. eapply utf8_of_scalar; eauto.
  - apply utf8_text_app; auto. rewrite (utf8_of_encode _ _ Hu). apply utf8_text_one. eapply utf8_of_scalar; eauto.
  - apply utf8_text_app; auto. rewrite <- replacement_fffd. apply utf8_text_one. unfold scalar. lia.
Qed.

(** Whatever the source, decoded strings are UTF-8 texts. *)
Lemma raw_rune_piece a r : utf8_text (fst (raw_rune a r)).
Proof.
  assert (HR : utf8_text replacement) by (apply utf8_text_one; unfold scalar; lia).
  unfold raw_rune. destruct (byte_in 0 127 a) eqn:E1; [apply (utf8_text_good (C1 a)); auto|].
  destruct r as [|b r1]; [exact HR|]. destruct (valid2 a b) eqn:E2; [apply (utf8_text_good (C2 a b)); auto|].
  destruct r1 as [|c r2]; [exact HR|]. destruct (valid3 a b c) eqn:E3; [apply (utf8_text_good (C3 a b c)); auto|].
  destruct r2 as [|d r3]; [exact HR|]. destruct (valid4 a b c d) eqn:E4; [apply (utf8_text_good (C4 a b c d)); auto|exact HR].
Qed.
Lemma hex4_lt s n r : hex4 s = Some (n, r) -> n < 65536.
Proof. intros H. apply hex4_inv in H. destruct H as (h & Hh & _). eapply hex_quad_lt; eauto. Qed.
Lemma unescape_piece e y piece r : unescape e y = Some (piece, r) -> utf8_text piece.
Proof.
  assert (HR : utf8_text replacement) by (apply utf8_text_one; unfold scalar; lia).
  unfold unescape.
  repeat match goal with
         | |- (if Ascii.eqb e ?c then Some _ else _) = _ -> _ =>
             destruct (Ascii.eqb e c);
             [intros [= <- <-]; match goal with |- utf8_text (String ?x "") => apply (utf8_text_good (C1 x)); reflexivity end|]
         end.
  destruct (Ascii.eqb e "u"); [|discriminate].
  rewrite unescape_u_eq. destruct (hex4 y) as [[n r0]|] eqn:E4; [|discriminate]. apply hex4_lt in E4.
  destruct (is_surrogate n) eqn:Es.
  - destruct (starts_bsu r0) as [r2|]; [|intros [= <- <-]; auto].
    destruct (hex4 r2) as [[n2 r3]|] eqn:E5; [|intros [= <- <-]; auto].
    destruct (is_high n && is_low n2)%bool eqn:Ehl; [|intros [= <- <-]; auto].
    intros E. apply some_pair in E. destruct E as [<- <-]. apply andb_true_iff in Ehl. destruct Ehl as [Eh El]. apply is_high_iff in Eh. apply is_low_iff in El.
    apply utf8_text_one. apply pair_scalar; auto.
  - intros [= <- <-]. apply utf8_text_one. apply quad_scalar; auto.
Qed.
Lemma parse_str_text k : forall x t rest, parse_str k x = Some (t, rest) -> utf8_text t.
Proof.
  induction k as [|k IH]; intros x t rest; [discriminate|]. cbn [parse_str].
  destruct x as [|a r]; [discriminate|].
  destruct (Ascii.eqb a """"); [intros [= <- <-]; exists []; constructor|].
  destruct (Ascii.eqb a "\").
  { destruct r as [|e y]; [discriminate|]. destruct (unescape e y) as [[piece r2]|] eqn:Eu; [|discriminate].
    destruct (parse_str k r2) as [[t' r3]|] eqn:Ep; [|discriminate]. intros [= <- <-].
    apply utf8_text_app; eauto using unescape_piece. }
  destruct (byte_in 0 31 a); [discriminate|]. pose proof (raw_rune_piece a r) as Hp.
  destruct (raw_rune a r) as [b y]. destruct (parse_str k y) as [[t' r3]|] eqn:Ep; [|discriminate]. intros [= <- <-].
  apply utf8_text_app; eauto.
Qed.
