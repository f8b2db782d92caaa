(** time.Parse, as used by the date, time and date-time checkers, against the
    grammar of RFC 3339. *)
From Verif Require Import Base ModelFormat SpecFormat FormatRegex.
From Coq Require Import Lia Bool.
Open Scope string_scope.
Open Scope list_scope.
Open Scope nat_scope.

Arguments digit_val : simpl never.
Arguments is_digit : simpl never.
Arguments digit : simpl never.
Arguments two : simpl never.
Arguments four : simpl never.

(** ** Numbers *)
Lemma digit_of : forall c, is_digit c = true -> digit_val c <= 9 /\ String c "" = digit (digit_val c).
Proof.
  intros c H.
  assert (B : (negb (is_digit c) || (Nat.leb (digit_val c) 9 && String.eqb (String c "") (digit (digit_val c))))%bool = true)
    by (clear H; destruct c as [[] [] [] [] [] [] [] []]; vm_compute; reflexivity).
  rewrite H in B. cbn [negb orb] in B. apply andb_true_iff in B. destruct B as [B1 B2].
  apply Nat.leb_le in B1. apply String.eqb_eq in B2. auto.
Qed.
Lemma digit_is : forall n, n <= 9 -> exists c, digit n = String c "" /\ is_digit c = true /\ digit_val c = n.
Proof. intros n H. do 10 (destruct n as [|n]; [eexists; repeat split|]). lia. Qed.
Lemma digit_app : forall c s, is_digit c = true -> String c s = (digit (digit_val c) ++ s)%string.
Proof. intros c s H. destruct (digit_of c H) as [_ E]. now rewrite <- E. Qed.
Lemma two_of : forall a b, b <= 9 -> two (a * 10 + b) = (digit a ++ digit b)%string.
Proof.
  intros a b H. unfold two.
  replace ((a * 10 + b) / 10) with a by (apply (Nat.div_unique (a * 10 + b) 10 a b); lia).
  replace ((a * 10 + b) mod 10) with b by (apply (Nat.mod_unique (a * 10 + b) 10 a b); lia). reflexivity.
Qed.
Lemma two_is : forall n, n <= 99 -> exists a b, n = a * 10 + b /\ a <= 9 /\ b <= 9.
Proof.
  intros n H. exists (n / 10), (n mod 10). pose proof (Nat.div_mod n 10). pose proof (Nat.mod_upper_bound n 10). lia.
Qed.
Lemma four_of : forall a b c d, b <= 9 -> c <= 9 -> d <= 9 ->
  four (a * 1000 + b * 100 + c * 10 + d) = (digit a ++ digit b ++ digit c ++ digit d)%string.
Proof.
  intros a b c d B C D. unfold four. set (n := a * 1000 + b * 100 + c * 10 + d).
  replace (n / 100) with (a * 10 + b) by (apply (Nat.div_unique n 100 _ (c * 10 + d)); subst n; lia).
  replace (n mod 100) with (c * 10 + d) by (apply (Nat.mod_unique n 100 (a * 10 + b)); subst n; lia).
  rewrite !two_of by assumption. now rewrite app_assoc_s.
Qed.
Lemma four_is : forall n, n < 100 * 100 -> exists a b c d, n = a * 1000 + b * 100 + c * 10 + d /\ a <= 9 /\ b <= 9 /\ c <= 9 /\ d <= 9.
Proof.
  intros n H.
  assert (n / 100 <= 99) by (apply Nat.lt_succ_r, Nat.div_lt_upper_bound; lia).
  assert (n mod 100 <= 99) by (apply Nat.lt_succ_r, Nat.mod_upper_bound; lia).
  destruct (two_is _ H0) as [a [b [E1 [A B]]]]. destruct (two_is _ H1) as [c [d [E2 [C D]]]].
  exists a, b, c, d. pose proof (Nat.div_mod n 100). repeat split; try assumption. lia.
Qed.
(** The text does not start with a digit. *)
Definition undigit (s : string) : Prop := forall c, get 0 s = Some c -> is_digit c = false.
Lemma getnum_fixed : forall s n r, getnum true s = Some (n, r) <-> n <= 99 /\ s = (two n ++ r)%string.
Proof.
  intros s n r. split.
  - destruct s as [|a [|b s]]; cbn; try discriminate; destruct (is_digit a) eqn:A; try discriminate.
    destruct (is_digit b) eqn:B; try discriminate. intros H.
    destruct (digit_of a A) as [La Ea]. destruct (digit_of b B) as [Lb Eb]. injection H as <- <-.
    split; [lia|]. rewrite two_of by exact Lb. rewrite <- Ea, <- Eb. reflexivity.
  - intros [L ->]. destruct (two_is n L) as [a [b [-> [A B]]]]. rewrite two_of by exact B.
    destruct (digit_is a A) as [c [-> [C Vc]]]. destruct (digit_is b B) as [d [-> [D Vd]]]. cbn. rewrite C, D, Vc, Vd. reflexivity.
Qed.
Lemma getnum_loose : forall s n r, getnum false s = Some (n, r) <->
  (n <= 99 /\ s = (two n ++ r)%string) \/ (n <= 9 /\ s = (digit n ++ r)%string /\ undigit r).
Proof.
  intros s n r. split.
  - destruct s as [|a [|b s]]; cbn; try discriminate; destruct (is_digit a) eqn:A; try discriminate; destruct (digit_of a A) as [La Ea].
    + intros H. injection H as <- <-. right. rewrite <- Ea. repeat split; [exact La|]. intros c E. discriminate E.
    + destruct (is_digit b) eqn:B; intros H; injection H as <- <-.
      * left. destruct (digit_of b B) as [Lb Eb]. split; [lia|]. rewrite two_of by exact Lb. rewrite <- Ea, <- Eb. reflexivity.
      * right. rewrite <- Ea. repeat split; [exact La|]. intros c E. cbn in E. now injection E as <-.
  - intros [[L ->] | [L [-> U]]].
    + destruct (two_is n L) as [a [b [-> [A B]]]]. rewrite two_of by exact B.
      destruct (digit_is a A) as [c [-> [C Vc]]]. destruct (digit_is b B) as [d [-> [D Vd]]]. cbn. rewrite C, D, Vc, Vd. reflexivity.
    + destruct (digit_is n L) as [c [-> [C Vc]]]. cbn. rewrite C. destruct r as [|d r]; [now rewrite Vc|].
      rewrite (U d eq_refl), Vc. reflexivity.
Qed.

(** ** Fractions and zones *)
Definition lax_point (p : ascii) : Prop := p = "."%char \/ p = ","%char.
Definition unfrac (s : string) : Prop := forall c, get 0 s = Some c -> is_digit c = false /\ c <> "."%char /\ c <> ","%char.
Lemma unfrac_nil : unfrac "".
Proof. intros c E. discriminate E. Qed.
Lemma skip_digits_app : forall d r, all (among DIGITS) d -> undigit r -> skip_digits (d ++ r) = r.
Proof.
  induction d; intros r A U.
  - destruct r as [|c r]; [reflexivity|]. cbn. now rewrite (U c eq_refl).
  - apply all_cons in A. destruct A as [A1 A2]. cbn. apply digit_char in A1. rewrite A1. now apply IHd.
Qed.
Lemma skip_digits_is : forall s, exists d, all (among DIGITS) d /\ s = (d ++ skip_digits s)%string.
Proof.
  induction s; [exists ""; split; [apply all_nil | reflexivity]|]. cbn. destruct (is_digit a) eqn:A.
  - destruct IHs as [d [D E]]. exists (String a d). split; [apply all_cons; split; [now apply digit_char | exact D]|]. cbn. congruence.
  - exists "". split; [apply all_nil | reflexivity].
Qed.
Lemma point_b : forall c, (Ascii.eqb c "." || Ascii.eqb c ",")%bool = true <-> lax_point c.
Proof. intros. rewrite orb_true_iff, !Ascii.eqb_eq. reflexivity. Qed.
Lemma skip_frac_is : forall s, exists f, secfrac lax_point f /\ s = (f ++ skip_frac s)%string.
Proof.
  intros s. unfold skip_frac.
  destruct s as [|c [|d s]]; [exists ""; split; [now left | reflexivity] | exists ""; split; [now left | reflexivity] |].
  destruct ((Ascii.eqb c "." || Ascii.eqb c ",") && is_digit d)%bool eqn:E; [|exists ""; split; [now left | reflexivity]].
  apply andb_true_iff in E. destruct E as [P D]. apply point_b in P. destruct (skip_digits_is s) as [ds [A E]].
  exists (String c (String d ds)). split.
  - right. exists c, (String d ds). repeat split; auto; [discriminate|]. apply all_cons. split; [now apply digit_char | exact A].
  - cbn. congruence.
Qed.
Lemma skip_frac_app : forall f r, secfrac lax_point f -> unfrac r -> skip_frac (f ++ r) = r.
Proof.
  intros f r H U. destruct H as [-> | [p [ds [-> [P [N A]]]]]].
  - destruct r as [|c [|d r]]; try reflexivity. cbn. destruct (U c eq_refl) as [_ [U1 U2]].
    apply Ascii.eqb_neq in U1, U2. rewrite U1, U2. reflexivity.
  - destruct ds as [|d ds]; [congruence|]. apply all_cons in A. destruct A as [A1 A2]. cbn. apply digit_char in A1. rewrite A1.
    apply point_b in P. rewrite P. cbn. apply skip_digits_app; [exact A2|]. intros c E. apply (U c E).
Qed.
Lemma zone_app : forall z r, lax_offset z -> skip_zone (z ++ r) = Some r.
Proof.
  intros z r [-> | [g [a [b [-> [G [A B]]]]]]]; [reflexivity|].
  destruct (two_is a) as [a1 [a2 [-> [A1 A2]]]]; [lia|]. destruct (two_is b) as [b1 [b2 [-> [B1 B2]]]]; [lia|].
  rewrite !two_of by assumption.
  destruct (digit_is a1 A1) as [c1 [-> [C1 V1]]]. destruct (digit_is a2 A2) as [c2 [-> [C2 V2]]].
  destruct (digit_is b1 B1) as [c3 [-> [C3 V3]]]. destruct (digit_is b2 B2) as [c4 [-> [C4 V4]]].
  apply Nat.leb_le in A, B.
  destruct G as [-> | ->]; cbn -[Nat.leb Nat.mul]; rewrite C1, C2, C3, C4; cbn -[Nat.leb Nat.mul]; rewrite V1, V2, V3, V4, A, B; reflexivity.
Qed.
Lemma zone_is : forall s r, skip_zone s = Some r -> exists z, lax_offset z /\ s = (z ++ r)%string.
Proof.
  intros s r. destruct s as [|g s]; [discriminate|].
  destruct (Ascii.ascii_dec g "Z"%char) as [->|N].
  - cbn. intros H. injection H as <-. exists "Z". split; [now left | reflexivity].
  - intros H.
    assert (E : match s with
                | String a (String b (String c (String d (String e s')))) =>
                    if ((Ascii.eqb g "+" || Ascii.eqb g "-") && is_digit a && is_digit b && Ascii.eqb c ":" && is_digit d && is_digit e)%bool then
                      if (Nat.leb (digit_val a * 10 + digit_val b) 24 && Nat.leb (digit_val d * 10 + digit_val e) 60)%bool then Some s' else None
                    else None
                | _ => None end = Some r)
      by (rewrite <- H; unfold skip_zone; destruct g as [[] [] [] [] [] [] [] []]; try reflexivity; congruence).
    clear H. destruct s as [|a [|b [|c [|d [|e s]]]]]; try discriminate E.
    destruct ((Ascii.eqb g "+" || Ascii.eqb g "-") && is_digit a && is_digit b && Ascii.eqb c ":" && is_digit d && is_digit e)%bool eqn:B; [|discriminate E].
    destruct (Nat.leb (digit_val a * 10 + digit_val b) 24 && Nat.leb (digit_val d * 10 + digit_val e) 60)%bool eqn:L; [|discriminate E].
    injection E as <-. rewrite !andb_true_iff in B. destruct B as [[[[[G A] B] C] D] F]. apply andb_true_iff in L. destruct L as [L1 L2].
    apply Nat.leb_le in L1, L2. apply Ascii.eqb_eq in C. subst c.
    destruct (digit_of a A) as [_ Ea], (digit_of b B) as [Lb Eb], (digit_of d D) as [_ Ed], (digit_of e F) as [Le Ee].
    exists (String g "" ++ two (digit_val a * 10 + digit_val b) ++ ":" ++ two (digit_val d * 10 + digit_val e))%string. split.
    + right. exists (String g ""), (digit_val a * 10 + digit_val b), (digit_val d * 10 + digit_val e). repeat split; try assumption.
      apply orb_true_iff in G. rewrite !Ascii.eqb_eq in G. destruct G as [-> | ->]; auto.
    + rewrite !two_of by assumption. rewrite <- Ea, <- Eb, <- Ed, <- Ee. reflexivity.
Qed.
Lemma zone_unfrac : forall z r, lax_offset z -> unfrac (z ++ r).
Proof.
  intros z r [-> | [g [a [b [-> [[-> | ->] _]]]]]] c E; cbn in E; injection E as <-; repeat split; discriminate.
Qed.

(** ** Dates *)
Lemma leap_right : forall y, is_leap y = true <-> leap y.
Proof.
  intros y. unfold is_leap, leap. rewrite andb_true_iff, orb_true_iff, negb_true_iff, !Nat.eqb_eq, Nat.eqb_neq.
  rewrite !Nat.mod_divide by discriminate. split; [|intros [?|H]; [tauto|]].
  - intros [H [H'|H']]; auto.
  - split; [|auto]. destruct H as [k ->]. exists (k * 100). lia.
Qed.
Lemma days_right : forall y m d, 1 <= m <= 12 -> ((exists e, last_day y m e /\ 1 <= d <= e) <-> 1 <= d <= daysIn m y).
Proof.
  intros y m d H.
  assert (L : forall e, last_day y m e <-> e = daysIn m y).
  { intros e. destruct (Nat.eq_dec m 2) as [->|N].
    2: { do 2 (destruct m as [|m]; [try lia; try reflexivity|]). destruct m as [|m]; [congruence|].
         do 10 (destruct m as [|m]; [reflexivity|]). lia. }
    cbn [last_day]. unfold daysIn. cbn [Nat.eqb]. pose proof (leap_right y) as R. destruct (is_leap y).
    - assert (leap y) by (now apply R). tauto.
    - assert (~ leap y) by (intros X; apply R in X; discriminate X). tauto. }
  split; [intros [e [E D]]; apply L in E; lia | intros D; exists (daysIn m y); split; [now apply L | exact D]].
Qed.
Definition undated (l : list chunk) : bool := forallb (fun k => match k with KYear | KMonth | KDay => false | _ => true end) l.
Lemma undated_parse : forall l y m d s, undated l = true ->
  (tparse l y m d s = true <-> 1 <= d <= daysIn m y /\ tparse l 0 1 1 s = true).
Proof.
  induction l as [|k l IH]; intros y m d s U.
  - cbn -[daysIn Nat.leb]. destruct s; [|split; [discriminate | intros [_ D]; discriminate D]].
    rewrite andb_true_iff, !Nat.leb_le. split; [intros H; split; [exact H | reflexivity] | tauto].
  - cbn [undated forallb] in U. apply andb_true_iff in U. destruct U as [Uk U].
    assert (FF : false = true <-> 1 <= d <= daysIn m y /\ false = true) by (split; [discriminate | intros [_ D]; discriminate D]).
    destruct k; try discriminate Uk; cbn [tparse].
    + destruct s; [exact FF|]. destruct (Ascii.eqb a c); [now apply IH | exact FF].
    + destruct (getnum false s) as [[n r]|]; [|exact FF]. destruct (Nat.ltb n 24); [now apply IH | exact FF].
    + destruct (getnum true s) as [[n r]|]; [|exact FF]. destruct (Nat.ltb n 60); [now apply IH | exact FF].
    + destruct (getnum true s) as [[n r]|]; [|exact FF]. destruct (Nat.ltb n 60); [now apply IH | exact FF].
    + now apply IH.
    + destruct (skip_zone s); [now apply IH | exact FF].
Qed.
Lemma lit_parse : forall c l y m d s, tparse (KLit c :: l) y m d s = true <-> exists r, s = String c r /\ tparse l y m d r = true.
Proof.
  intros. cbn [tparse]. destruct s as [|a s]; [split; [discriminate | intros [r [E _]]; discriminate E]|].
  destruct (Ascii.eqb a c) eqn:E.
  - apply Ascii.eqb_eq in E. subst a. split; [eauto | intros [r [E H]]; now injection E as ->].
  - split; [discriminate | intros [r [E' _]]; injection E' as -> _; rewrite Ascii.eqb_refl in E; discriminate E].
Qed.
Lemma year_parse : forall l y m d s, tparse (KYear :: l) y m d s = true <->
  exists n r, s = (four n ++ r)%string /\ n < 100 * 100 /\ tparse l n m d r = true.
Proof.
  intros. split.
  - cbn [tparse]. destruct s as [|a [|b [|c [|e s]]]]; try discriminate.
    destruct (is_digit a && is_digit b && is_digit c && is_digit e)%bool eqn:D; [|discriminate]. intros H.
    rewrite !andb_true_iff in D. destruct D as [[[A B] C] E].
    destruct (digit_of a A) as [La Ea], (digit_of b B) as [Lb Eb], (digit_of c C) as [Lc Ec], (digit_of e E) as [Le Ee].
    eexists _, s. split; [|split; [|exact H]]; [|lia]. rewrite four_of by assumption. rewrite <- Ea, <- Eb, <- Ec, <- Ee. reflexivity.
  - intros [n [r [-> [L H]]]]. destruct (four_is n L) as [a [b [c [e [-> [A [B [C E]]]]]]]]. rewrite four_of by assumption.
    destruct (digit_is a A) as [c1 [-> [C1 V1]]]. destruct (digit_is b B) as [c2 [-> [C2 V2]]].
    destruct (digit_is c C) as [c3 [-> [C3 V3]]]. destruct (digit_is e E) as [c4 [-> [C4 V4]]].
    cbn [append tparse]. rewrite C1, C2, C3, C4. cbn [andb]. now rewrite V1, V2, V3, V4.
Qed.
Lemma month_parse : forall l y m d s, tparse (KMonth :: l) y m d s = true <->
  exists n r, s = (two n ++ r)%string /\ 1 <= n <= 12 /\ tparse l y n d r = true.
Proof.
  intros. cbn [tparse]. split.
  - destruct (getnum true s) as [[n r]|] eqn:G; [|discriminate]. apply getnum_fixed in G. destruct G as [_ ->].
    destruct (Nat.leb 1 n && Nat.leb n 12)%bool eqn:B; [|discriminate]. apply andb_true_iff in B. rewrite !Nat.leb_le in B. eauto.
  - intros [n [r [-> [L H]]]]. rewrite (proj2 (getnum_fixed _ n r)) by (split; [lia | reflexivity]).
    destruct L as [L1 L2]. apply Nat.leb_le in L1, L2. now rewrite L1, L2.
Qed.
Lemma day_parse : forall l y m d s, tparse (KDay :: l) y m d s = true <->
  exists n r, s = (two n ++ r)%string /\ n <= 99 /\ tparse l y m n r = true.
Proof.
  intros. cbn [tparse]. split.
  - destruct (getnum true s) as [[n r]|] eqn:G; [|discriminate]. apply getnum_fixed in G. destruct G as [L ->]. eauto.
  - intros [n [r [-> [L H]]]]. now rewrite (proj2 (getnum_fixed _ n r)) by (split; [lia | reflexivity]).
Qed.
Lemma days_in_99 : forall m y d, d <= daysIn m y -> d <= 99.
Proof. intros m y d. unfold daysIn. destruct (Nat.eqb m 2); [destruct (is_leap y)|destruct (_ || _)%bool]; lia. Qed.
Lemma date_parse : forall l s, undated l = true ->
  (tparse (DATE ++ l) 0 1 1 s = true <-> followed full_date (fun r => tparse l 0 1 1 r = true) s).
Proof.
  intros l s U. change (DATE ++ l) with (KYear :: KLit "-" :: KMonth :: KLit "-" :: KDay :: l). unfold followed, full_date. rewrite year_parse. split.
  - intros [y [r1 [-> [Y H]]]]. apply lit_parse in H. destruct H as [r2 [-> H]]. apply month_parse in H. destruct H as [m [r3 [-> [M H]]]].
    apply lit_parse in H. destruct H as [r4 [-> H]]. apply day_parse in H. destruct H as [d [r5 [-> [D H]]]].
    apply undated_parse in H; [|exact U]. destruct H as [R H].
    exists (four y ++ "-" ++ two m ++ "-" ++ two d)%string, r5. split; [now rewrite !app_assoc_s|]. split; [|exact H].
    apply days_right in R; [|exact M]. destruct R as [e [E R]]. exists y, m, d, e. auto 10.
  - intros [a [r [-> [[y [m [d [e [-> [Y [M [E R]]]]]]]] H]]]].
    assert (D : 1 <= d <= daysIn m y) by (apply days_right; eauto).
    exists y. eexists. rewrite !app_assoc_s. split; [reflexivity|]. split; [exact Y|]. apply lit_parse. eexists. split; [reflexivity|].
    apply month_parse. exists m. eexists. split; [reflexivity|]. split; [exact M|]. apply lit_parse. eexists. split; [reflexivity|].
    apply day_parse. exists d, r. split; [reflexivity|]. split; [exact (days_in_99 _ _ _ (proj2 D))|]. apply undated_parse; auto.
Qed.

(** ** Times *)
Lemma minute_parse : forall l y m d s, tparse (KMinute :: l) y m d s = true <->
  exists n r, s = (two n ++ r)%string /\ n <= 59 /\ tparse l y m d r = true.
Proof.
  intros. cbn [tparse]. split.
  - destruct (getnum true s) as [[n r]|] eqn:G; [|discriminate]. apply getnum_fixed in G. destruct G as [_ ->].
    destruct (Nat.ltb n 60) eqn:B; [|discriminate]. apply Nat.ltb_lt in B. exists n, r. repeat split; [lia | assumption].
  - intros [n [r [-> [L H]]]]. rewrite (proj2 (getnum_fixed _ n r)) by (split; [lia | reflexivity]).
    assert (B : Nat.ltb n 60 = true) by (apply Nat.ltb_lt; lia). now rewrite B.
Qed.
Lemma second_parse : forall l y m d s, tparse (KSecond :: l) y m d s = true <->
  exists n r, s = (two n ++ r)%string /\ n <= 59 /\ tparse l y m d (match next_std l with Some KFrac => r | _ => skip_frac r end) = true.
Proof.
  intros. cbn [tparse]. split.
  - destruct (getnum true s) as [[n r]|] eqn:G; [|discriminate]. apply getnum_fixed in G. destruct G as [_ ->].
    destruct (Nat.ltb n 60) eqn:B; [|discriminate]. apply Nat.ltb_lt in B. exists n, r. repeat split; [lia | assumption].
  - intros [n [r [-> [L H]]]]. rewrite (proj2 (getnum_fixed _ n r)) by (split; [lia | reflexivity]).
    assert (B : Nat.ltb n 60 = true) by (apply Nat.ltb_lt; lia). now rewrite B.
Qed.
Lemma hour_parse : forall l y m d s, tparse (KHour :: KLit ":" :: l) y m d s = true <->
  exists h x r, s = (x ++ ":" ++ r)%string /\ (x = two h \/ (h <= 9 /\ x = digit h)) /\ h <= 23 /\ tparse l y m d r = true.
Proof.
  intros. cbn [tparse]. fold (tparse (KLit ":" :: l) y m d). split.
  - destruct (getnum false s) as [[h r]|] eqn:G; [|discriminate]. apply getnum_loose in G.
    destruct (Nat.ltb h 24) eqn:B; [|discriminate]. apply Nat.ltb_lt in B. intros H. apply (lit_parse ":" l y m d r) in H. destruct H as [r' [-> H]].
    destruct G as [[_ ->] | [L [-> _]]]; exists h; eexists; exists r'; (split; [reflexivity|]); repeat split; auto; lia.
  - intros [h [x [r [-> [X [L H]]]]]].
    assert (G : getnum false (x ++ ":" ++ r) = Some (h, ":" ++ r)%string).
    { apply getnum_loose. destruct X as [-> | [X ->]]; [left; split; [lia | reflexivity] | right; repeat split; [exact X|]].
      intros c E. cbn in E. now injection E as <-. }
    rewrite G. assert (B : Nat.ltb h 24 = true) by (apply Nat.ltb_lt; lia). rewrite B. apply (lit_parse ":" l y m d). cbn. eauto.
Qed.
(** The clock, then what follows its fraction. *)
Lemma clock_parse : forall l s,
  (forall r, tparse l 0 1 1 (match next_std l with Some KFrac => r | _ => skip_frac r end) = true <->
             exists f t, r = (f ++ t)%string /\ secfrac lax_point f /\ unfrac t /\ tparse l 0 1 1 t = true) ->
  (tparse (CLOCK ++ l) 0 1 1 s = true <-> exists a t, s = (a ++ t)%string /\ lax_clock a /\ unfrac t /\ tparse l 0 1 1 t = true).
Proof.
  intros l s F. change (CLOCK ++ l) with (KHour :: KLit ":" :: KMinute :: KLit ":" :: KSecond :: l). rewrite hour_parse. split.
  - intros [h [x [r1 [-> [X [L H]]]]]]. apply minute_parse in H. destruct H as [m [r2 [-> [M H]]]]. apply lit_parse in H. destruct H as [r3 [-> H]].
    apply second_parse in H. destruct H as [n [r4 [-> [N H]]]]. apply F in H. destruct H as [f [t [-> [Ff [U H]]]]].
    exists (x ++ ":" ++ two m ++ ":" ++ two n ++ f)%string, t. split; [now rewrite !app_assoc_s|]. split; [|auto].
    exists h, x, m, n, f. auto 10.
  - intros [a [t [-> [[h [x [m [n [f [-> [X [L [M [N Ff]]]]]]]]]] [U H]]]]].
    exists h, x. eexists. rewrite !app_assoc_s. split; [reflexivity|]. split; [exact X|]. split; [exact L|].
    apply minute_parse. exists m. eexists. split; [reflexivity|]. split; [exact M|]. apply lit_parse. eexists. split; [reflexivity|].
    apply second_parse. exists n, (f ++ t)%string. split; [reflexivity|]. split; [exact N|]. apply F. exists f, t. auto.
Qed.
Lemma end_parse : forall s, tparse [] 0 1 1 s = true <-> s = "".
Proof. intros []; cbn; split; try reflexivity; discriminate. Qed.
Lemma zone_parse : forall s, tparse [KZone] 0 1 1 s = true <-> lax_offset s.
Proof.
  intros s. cbn [tparse]. split.
  - destruct (skip_zone s) as [r|] eqn:Z; [|discriminate]. apply zone_is in Z. destruct Z as [z [H ->]].
    destruct r; [|discriminate]. intros _. now rewrite app_nil_r_s.
  - intros H. rewrite <- (app_nil_r_s s), (zone_app s "" H). reflexivity.
Qed.
Lemma frac_zone_parse : forall s, tparse [KFrac; KZone] 0 1 1 s = true <-> exists f t, s = (f ++ t)%string /\ secfrac lax_point f /\ lax_offset t.
Proof.
  intros s. change (tparse [KFrac; KZone] 0 1 1 s) with (tparse [KZone] 0 1 1 (skip_frac s)). rewrite zone_parse. split.
  - intros H. destruct (skip_frac_is s) as [f [F E]]. exists f, (skip_frac s). auto.
  - intros [f [t [-> [F Z]]]]. rewrite skip_frac_app; [exact Z | exact F|]. rewrite <- (app_nil_r_s t). now apply zone_unfrac.
Qed.
Theorem clock_right : forall s, time_Parse CLOCK s = true <-> lax_clock s.
Proof.
  intros s. unfold time_Parse. change CLOCK with (CLOCK ++ []). rewrite clock_parse.
  - split.
    + intros [a [t [-> [A [_ T]]]]]. apply end_parse in T. subst t. now rewrite app_nil_r_s.
    + intros H. exists s, "". rewrite app_nil_r_s. auto using unfrac_nil.
  - intros r. cbn [next_std]. rewrite end_parse. split.
    + intros H. destruct (skip_frac_is r) as [f [F E]]. rewrite H in E. exists f, "". auto using unfrac_nil.
    + intros [f [t [-> [F [U T]]]]]. apply end_parse in T. subst t. apply skip_frac_app; assumption.
Qed.
Lemma zoned_parse : forall s, tparse (CLOCK ++ [KZone]) 0 1 1 s = true <-> followed lax_clock lax_offset s.
Proof.
  intros s. rewrite clock_parse.
  - unfold followed. split.
    + intros [a [t [-> [A [_ T]]]]]. apply zone_parse in T. eauto.
    + intros [a [t [-> [A T]]]]. exists a, t. split; [reflexivity|]. split; [exact A|]. split; [|now apply zone_parse]. rewrite <- (app_nil_r_s t). now apply zone_unfrac.
  - intros r. cbn [next_std]. rewrite zone_parse. split.
    + intros H. destruct (skip_frac_is r) as [f [F E]]. exists f, (skip_frac r). split; [exact E|]. split; [exact F|]. split; [|now apply zone_parse].
      rewrite <- (app_nil_r_s (skip_frac r)). now apply zone_unfrac.
    + intros [f [t [-> [F [U T]]]]]. apply zone_parse in T. now rewrite skip_frac_app.
Qed.
Lemma nano_parse : forall s, tparse (CLOCK ++ [KFrac; KZone]) 0 1 1 s = true <-> followed lax_clock lax_offset s.
Proof.
  intros s. rewrite <- zoned_parse. reflexivity.
Qed.
Theorem zoned_right : forall s, time_Parse (CLOCK ++ [KZone]) s = true <-> followed lax_clock lax_offset s.
Proof. exact zoned_parse. Qed.
Theorem date_right : forall s, time_Parse DATE s = true <-> full_date s.
Proof.
  intros s. unfold time_Parse. change DATE with (DATE ++ []). rewrite date_parse by reflexivity. split.
  - intros [a [r [-> [A H]]]]. apply end_parse in H. subst r. now rewrite app_nil_r_s.
  - intros H. exists s, "". rewrite app_nil_r_s. auto.
Qed.
Definition lax_date_time : string -> Prop := followed full_date (followed (fun t => t = "T") (followed lax_clock lax_offset)).
Lemma after_t : forall l s, (tparse (KLit "T" :: l) 0 1 1 s = true <-> followed (fun t => t = "T") (fun r => tparse l 0 1 1 r = true) s).
Proof.
  intros l s. rewrite lit_parse. split.
  - intros [r [-> H]]. exists "T", r. auto.
  - intros [a [r [-> [-> H]]]]. exists r. auto.
Qed.
Lemma followed_iff : forall (A B A' B' : string -> Prop) s, (forall t, A t <-> A' t) -> (forall t, B t <-> B' t) -> (followed A B s <-> followed A' B' s).
Proof. intros A B A' B' s HA HB. split; intros [a [b [-> [H1 H2]]]]; exists a, b; split; auto; split; (apply HA || apply HB); assumption. Qed.
Theorem rfc3339_right : forall s, (time_Parse RFC3339 s = true <-> lax_date_time s) /\ (time_Parse RFC3339Nano s = true <-> lax_date_time s).
Proof.
  intros s. unfold time_Parse, RFC3339, RFC3339Nano, lax_date_time. split; rewrite date_parse by reflexivity; apply followed_iff; intros t; try tauto;
    rewrite after_t; apply followed_iff; intros u; try tauto; [apply zoned_parse | apply nano_parse].
Qed.

(** ** RFC 3339 within what is accepted *)
Lemma rfc_lax_clock : forall s, rfc_clock s -> lax_clock s.
Proof.
  intros s [h [x [m [n [f [-> [-> [H [M [N F]]]]]]]]]]. exists h, (two h), m, n, f. repeat split; auto.
  destruct F as [->|[p [ds [-> [-> D]]]]]; [now left | right; exists "."%char, ds; auto].
Qed.
Definition upper (c : ascii) : Prop := c <> "z"%char /\ c <> "t"%char.
Lemma rfc_lax_offset : forall s, all upper s -> offset (fun z => z = "Z" \/ z = "z") 23 59 s -> lax_offset s.
Proof.
  intros s U [[-> | ->] | [g [a [b [-> [G [A B]]]]]]]; [now left | exfalso; destruct (U 0 _ eq_refl); congruence |].
  right. exists g, a, b. repeat split; auto; lia.
Qed.
Theorem full_time_accepted : forall s, all upper s -> full_time s -> followed lax_clock lax_offset s.
Proof.
  intros s U [a [b [-> [A B]]]]. apply all_app in U. exists a, b. repeat split; [now apply rfc_lax_clock | now apply rfc_lax_offset].
Qed.
Theorem date_time_accepted : forall s, all upper s -> date_time s -> lax_date_time s.
Proof.
  intros s U [a [b [-> [A [t [r [-> [T R]]]]]]]]. rewrite !all_app in U. destruct U as [_ [Ut Ur]].
  exists a, (t ++ r)%string. repeat split; [exact A|]. exists t, r. repeat split; [|now apply full_time_accepted].
  destruct T as [-> | ->]; [reflexivity|]. exfalso. destruct (Ut 0 _ eq_refl). congruence.
Qed.
(** Lengths. *)
Lemma two_len : forall n, String.length (two n) = 2.
Proof. reflexivity. Qed.
Lemma rfc_clock_colon : forall s r, rfc_clock s -> get 2 (s ++ r) = Some ":"%char.
Proof. intros s r [h [x [m [n [f [-> [-> _]]]]]]]. rewrite app_assoc_s. exact (get_right (two h) _ 0). Qed.
Lemma full_date_len : forall s, full_date s -> String.length s = 10.
Proof. intros s [y [m [d [e [-> _]]]]]. rewrite !len_app. reflexivity. Qed.
Lemma date_time_t : forall s, date_time s -> 10 < String.length s.
Proof. intros s [a [b [-> [A [t [r [-> [[-> | ->] _]]]]]]]]; rewrite len_app, (full_date_len _ A); cbn; lia. Qed.
