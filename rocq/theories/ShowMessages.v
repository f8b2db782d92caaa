(** The bounds in the messages. *)
From Coq Require Import Lia Qabs.
From Verif Require Import ModelTemplate ModelShow NumText NumSpec NumExact FloatNearest FloatText ShowProps SpecWhy WhyProps Run SpecShow.
Open Scope Z_scope.

Lemma denotes_same s q q' : denotes s q -> denotes s q' -> (q == q')%Q.
Proof.
  intros H H'. destruct (denotes_parse _ _ H) as (_ & d & E & Hd). destruct (denotes_parse _ _ H') as (_ & d' & E' & Hd').
  rewrite E in E'. injection E' as <-. rewrite <- Hd. exact Hd'.
Qed.
Lemma shown q : shows (show_rat q) q.
Proof.
  destruct (show_near q) as (q' & D & N). exists q'. split; [exact D|]. split; [exact N|]. split.
  - intros z E. eapply denotes_same; [exact D|]. eapply show_integer; eauto.
  - intros c k Hc E. eapply denotes_same; [exact D|]. eapply show_short; eauto.
Qed.
Lemma itoa_text n : 0 <= n -> is_text n 0 (z2s n).
Proof.
  intros H. destruct (z2s_spec n H) as (H1 & H2 & H3 & H4). exists (z2s n), ""%string, ""%string. split.
  - destruct (Z.eq_dec n 0) as [->|]; [left; reflexivity|]. right. split; auto. split; auto. apply H4. lia.
  - split; [left; reflexivity|]. split; [left; reflexivity|]. split; [rewrite append_nil_r; reflexivity|]. unfold parts_dec, dec_mant, dec_e10. cbn [d_int d_frac d_exp frac_digits exp_value]. rewrite ?append_nil_r, H2. reflexivity.
Qed.
Lemma itoa_denotes n : denotes (itoa n) (inject_Z n).
Proof.
  unfold itoa. destruct (Z.ltb_spec n 0).
  - destruct (text_denotes _ _ _ (itoa_text (- n) ltac:(lia))) as [_ D]. eapply denotes_ext; [exact D|]. unfold q10. cbn [Z.leb]. unfold Qeq. cbn. lia.
  - destruct (text_denotes _ _ _ (itoa_text n ltac:(lia))) as [D _]. eapply denotes_ext; [exact D|]. unfold q10. cbn [Z.leb]. unfold Qeq. cbn. lia.
Qed.

Lemma own_bound env h id v c e t text f : own env h id v c e -> In (t, text, f) bound_messages -> r_type e = t ->
  exists n q, nth_error h id = Some n /\ f n = Some q /\ description go_show e = (text ++ show_rat q)%string.
Proof.
  intros (n & Hn & _ & H) Hin Et.
  assert (B : broken env h n v c (r_details e) t).
  { cbn [bound_messages In] in Hin. destruct H as [(_ & H & _)|[(_ & _ & _ & H)|(_ & _ & H & _)]]; [|rewrite Et in H; exact H|];
      (exfalso; rewrite Et in H; subst t; decompose [or] Hin; try contradiction; congruence). }
  exists n. cbn [bound_messages In] in Hin. unfold description. rewrite Et.
  decompose [or] Hin; clear Hin; try contradiction;
    match goal with X : _ = _ |- _ => injection X as <- <- <- end; destruct B as (q & Hq & D & _); exists q; (split; [exact Hn|]); (split; [exact Hq|]);
    unfold detail in D; unfold render; cbn [default_format]; match goal with |- context [template ?s] => let x := eval vm_compute in (template s) in change (template s) with x end;
    cbn [map concat_str fold_right append]; rewrite D; rewrite append_nil_r; reflexivity.
Qed.
Lemma own_count env h id v c e t pre post f : own env h id v c e -> In (t, pre, post, f) count_messages -> r_type e = t ->
  exists n k, nth_error h id = Some n /\ f n = Some k /\ description go_show e = (pre ++ itoa k ++ post)%string.
Proof.
  intros (n & Hn & _ & H) Hin Et.
  assert (B : broken env h n v c (r_details e) t).
  { cbn [count_messages In] in Hin. destruct H as [(_ & H & _)|[(_ & _ & _ & H)|(_ & _ & H & _)]]; [|rewrite Et in H; exact H|];
      (exfalso; rewrite Et in H; subst t; decompose [or] Hin; try contradiction; congruence). }
  exists n. cbn [count_messages In] in Hin. unfold description. rewrite Et.
  decompose [or] Hin; clear Hin; try contradiction;
    match goal with X : _ = _ |- _ => injection X as <- <- <- <- end; destruct B as (l & k & _ & Hk & _ & D); exists k; (split; [exact Hn|]); (split; [exact Hk|]);
    unfold detail in D; unfold render; cbn [default_format]; match goal with |- context [template ?s] => let x := eval vm_compute in (template s) in change (template s) with x end;
    cbn [map concat_str fold_right append]; rewrite D; cbn [go_show]; rewrite ?append_nil_r; reflexivity.
Qed.

Theorem bounds_shown env h root o v r : fair o -> returns env h root o v r ->
  Forall (fun e => forall text f, In (r_type e, text, f) bound_messages ->
    exists n q s, In n h /\ f n = Some q /\ shows s q /\ description go_show e = (text ++ s)%string) (errors r).
Proof.
  intros F (k & E). pose proof (errors_have_reasons env h k o root v _ F r E) as W. rewrite Forall_forall in *. intros e He text f Hin.
  destruct (W e He) as (id & v' & c' & _ & O). destruct (own_bound _ _ _ _ _ _ _ _ _ O Hin eq_refl) as (n & q & Hn & Hq & D).
  exists n, q, (show_rat q). split; [eapply nth_error_In; eauto|]. split; auto. split; [apply shown|exact D].
Qed.
Theorem counts_shown env h root o v r : fair o -> returns env h root o v r ->
  Forall (fun e => forall pre post f, In (r_type e, pre, post, f) count_messages ->
    exists n k s, In n h /\ f n = Some k /\ denotes s (inject_Z k) /\ description go_show e = (pre ++ s ++ post)%string) (errors r).
Proof.
  intros F (k & E). pose proof (errors_have_reasons env h k o root v _ F r E) as W. rewrite Forall_forall in *. intros e He pre post f Hin.
  destruct (W e He) as (id & v' & c' & _ & O). destruct (own_count _ _ _ _ _ _ _ _ _ _ O Hin eq_refl) as (n & z & Hn & Hz & D).
  exists n, z, (itoa z). split; [eapply nth_error_In; eauto|]. split; auto. split; [apply itoa_denotes|exact D].
Qed.
