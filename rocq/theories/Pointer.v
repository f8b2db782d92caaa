(** gojsonpointer follows RFC 6901. *)
From Verif Require Export SpecLocate NumSpec.
From Coq Require Import Lia.
Open Scope string_scope.
Open Scope list_scope.
Open Scope nat_scope.

Lemma unescape_escaped t : unescape_token (escaped t) = t.
Proof.
  induction t as [|c t IH]; [reflexivity|]. cbn [escaped].
  destruct (Ascii.eqb_spec c "~"); [subst; cbn [unescape_token]; rewrite IH; auto|].
  destruct (Ascii.eqb_spec c "/"); [subst; cbn [unescape_token]; rewrite IH; auto|].
  assert (E : forall s, c <> "~"%char -> unescape_token (String c s) = String c (unescape_token s)).
  { intros s H. destruct c as [[] [] [] [] [] [] [] []]; try reflexivity. destruct (H eq_refl). }
  rewrite E, IH; auto.
Qed.

Fixpoint no_slash (s : string) : Prop := match s with EmptyString => True | String c s' => c <> "/"%char /\ no_slash s' end.
Lemma escaped_no_slash t : no_slash (escaped t).
Proof.
  induction t as [|c t IH]; [exact I|]. cbn [escaped].
  destruct (Ascii.eqb_spec c "~"); [cbn; repeat split; auto; discriminate|].
  destruct (Ascii.eqb_spec c "/"); cbn; repeat split; auto; discriminate.
Qed.
Lemma split_no_slash e rest : no_slash e -> split_slash (append e (String "/" rest)) = (e, fst (split_slash rest) :: snd (split_slash rest)).
Proof.
  induction e as [|c e IH]; intros H; cbn [append split_slash].
  - destruct (split_slash rest). reflexivity.
  - destruct H as [Hc H]. rewrite IH by auto. destruct (Ascii.eqb_spec c "/"); [congruence|]. reflexivity.
Qed.
Lemma split_no_slash_end e : no_slash e -> split_slash e = (e, []).
Proof.
  induction e as [|c e IH]; intros H; cbn [split_slash]; [reflexivity|]. destruct H as [Hc H]. rewrite IH by auto.
  destruct (Ascii.eqb_spec c "/"); [congruence|]. reflexivity.
Qed.
Lemma append_empty s : append s "" = s.
Proof. induction s as [|c s IH]; simpl; congruence. Qed.

Theorem pointer_tokens_text ts : pointer_tokens (pointer_text ts) = map escaped ts.
Proof.
  destruct ts as [|t ts]; [reflexivity|]. cbn [pointer_text pointer_tokens map]. revert t.
  assert (G : forall ts t, split_slash (append (escaped t) (pointer_text ts)) = (escaped t, map escaped ts)).
  { clear. induction ts as [|u ts IH]; intros t.
    - cbn [pointer_text]. rewrite append_empty. apply split_no_slash_end, escaped_no_slash.
    - cbn [pointer_text]. rewrite split_no_slash by apply escaped_no_slash. rewrite IH. reflexivity. }
  intros t. rewrite G. reflexivity.
Qed.

Lemma digits_escaped s : digits s -> escaped s = s.
Proof.
  induction s as [|c s IH]; intros H; [reflexivity|]. apply digits_cons in H. destruct H as [Hc Hs]. cbn [escaped].
  destruct (Ascii.eqb_spec c "~"); [subst; discriminate Hc|]. destruct (Ascii.eqb_spec c "/"); [subst; discriminate Hc|]. rewrite IH; auto.
Qed.
Lemma take_digits_all s : digits s -> take_digits s = (s, "").
Proof.
  induction s as [|c s IH]; intros H; [reflexivity|]. apply digits_cons in H. destruct H as [Hc Hs].
  cbn [take_digits]. rewrite Hc, IH by auto. reflexivity.
Qed.
Lemma take_sign_digit c s : is_digit c = true -> take_sign (String c s) = (false, String c s).
Proof. intros H. destruct c as [[] [] [] [] [] [] [] []]; try reflexivity; discriminate H. Qed.
Lemma atoi_index t n : int_of t (Z.of_nat n) -> (Z.of_nat n < 2 ^ 63)%Z -> escaped t = t /\ atoi t = Some (Z.of_nat n).
Proof.
  intros H B.
  assert (Hd : digits t /\ digits_val 0 t = Z.of_nat n /\ t <> "").
  { destruct H as [[-> ->]|[[k H] _]]; [repeat split; auto; discriminate|]. apply digit_string_digits in H. destruct H as (H1 & H2 & H3).
    repeat split; auto. intros ->. discriminate. }
  destruct Hd as (H1 & H2 & H3). split; [apply digits_escaped; auto|]. unfold atoi, parse_int64. destruct t as [|c t]; [congruence|].
  pose proof (proj1 (digits_cons _ _) H1) as [Hc _]. rewrite take_sign_digit by auto. rewrite take_digits_all by auto. rewrite H2.
  destruct (Z.leb_spec (- 2 ^ 63) (Z.of_nat n)); [|lia]. destruct (Z.ltb_spec (Z.of_nat n) (2 ^ 63)); [|lia]. reflexivity.
Qed.

Theorem pointer_get_points ts v x : points ts v x -> pointer_get (map escaped ts) v = Some x.
Proof.
  induction 1 as [v|t ts m x y E P IH|t ts l n x y Hi B E P IH]; cbn [map pointer_get]; auto.
  - rewrite unescape_escaped, E. auto.
  - destruct (atoi_index t n Hi B) as [-> ->]. destruct (Z.ltb_spec (Z.of_nat n) 0); [lia|]. rewrite Nat2Z.id, E. auto.
Qed.
Corollary pointer_follows ts v x f : f = pointer_text ts -> points ts v x -> pointer_get (pointer_tokens f) v = Some x.
Proof. intros -> P. rewrite pointer_tokens_text. apply pointer_get_points. auto. Qed.

(** Conversely, without the index texts that strconv.Atoi also reads. *)
Definition index_text (t : string) : Prop := forall i, atoi t = Some i -> (0 <= i)%Z -> int_of t i.
Theorem points_pointer_get ts : forall v x, Forall index_text ts -> pointer_get (map escaped ts) v = Some x -> points ts v x.
Proof.
  induction ts as [|t ts IH]; intros v x F E; cbn [map pointer_get] in E; [injection E as <-; constructor|].
  inversion F as [|? ? Ft F']; subst. destruct v as [| | | | |l|m|]; try discriminate.
  - destruct (atoi (escaped t)) as [i|] eqn:Ei; [|discriminate]. destruct (Z.ltb_spec i 0); [discriminate|]. destruct (nth_error l _) as [y|] eqn:En; [|discriminate].
    assert (Hd : escaped t = t).
    { unfold atoi, parse_int64 in Ei. destruct (take_sign (escaped t)) as [neg s1] eqn:Et. destruct (take_digits s1) as [ds r] eqn:Ed.
      destruct ds as [|c ds]; [discriminate|]. destruct r; [|discriminate]. clear - Et Ed.
      assert (G : forall s a, take_digits s = (a, "") -> forall c, In c (list_ascii_of_string s) -> is_digit c = true).
      { clear. induction s as [|c s IH]; intros a E c' Hc; [destruct Hc|]. cbn [take_digits] in E. destruct (is_digit c) eqn:Ec; [|discriminate].
        destruct (take_digits s) as [a' b'] eqn:E'. injection E as <- ->. destruct Hc as [<-|Hc]; auto. eapply IH; eauto. }
      assert (S : forall c, In c (list_ascii_of_string (escaped t)) -> is_digit c = true \/ c = "-"%char \/ c = "+"%char).
      { intros c' Hc'. destruct (escaped t) as [|a u]; [destruct Hc'|].
        assert (D : (take_sign (String a u) = (neg, s1) -> (s1 = u /\ (a = "-"%char \/ a = "+"%char)) \/ s1 = String a u)).
        { clear. unfold take_sign. destruct a as [[] [] [] [] [] [] [] []]; intros [= <- <-]; auto. }
        destruct (D Et) as [[-> Ha]| ->].
        - destruct Hc' as [<-|Hc']; [auto|]. left. eapply G; eauto.
        - left. eapply G; eauto. }
      clear Et Ed G. revert S. clear. induction t as [|c t IH]; intros S; [reflexivity|]. cbn [escaped] in *.
      destruct (Ascii.eqb_spec c "~") as [->|N1].
      { destruct (S "~"%char) as [H|[H|H]]; [left; auto|discriminate..]. }
      destruct (Ascii.eqb_spec c "/") as [->|N2].
      { destruct (S "~"%char) as [H|[H|H]]; [left; auto|discriminate..]. }
      f_equal. apply IH. intros c' Hc'. apply S. right. auto. }
    rewrite Hd in Ei. assert (B : (i < 2 ^ 63)%Z).
    { unfold atoi, parse_int64 in Ei. destruct (take_sign t) as [neg s1]. destruct (take_digits s1) as [ds r]. destruct ds; [discriminate|]. destruct r; [|discriminate].
      destruct ((_ && _)%bool) eqn:Eb; [|discriminate]. injection Ei as <-. apply andb_prop in Eb. destruct Eb as [_ Eb]. apply Z.ltb_lt in Eb. exact Eb. }
    eapply points_element with (n := Z.to_nat i); rewrite ?Z2Nat.id by auto; eauto.
  - rewrite unescape_escaped in E. destruct (assoc t m) as [y|] eqn:Ea; [|discriminate]. econstructor; eauto.
Qed.
