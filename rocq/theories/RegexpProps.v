(** The model of package regexp against the portable notation. *)
From Coq Require Import Lia.
From Verif Require Export ModelRegexp.
From Verif Require SpecRegexp.
From Coq Require Import NArith Arith.
Import SpecRegexp(Nothing, Chars, Seq, Alt, Rep, Start, Finish, Edge, Interior, pat, iter, matches, found, load, at_most).
Open Scope N_scope.
Open Scope list_scope.

Lemma in_nub l (i : nat) : In i (nub l) <-> In i l.
Proof. apply nodup_In. Qed.
Lemma in_spread f l (j : nat) : In j (spread f l) <-> exists k, In k l /\ In j (f k).
Proof. unfold spread. rewrite in_nub, in_flat_map. tauto. Qed.
Lemma in_one s f i j : In j (one s f i) <-> j = S i /\ exists c, nth_error s i = Some c /\ f c = true.
Proof.
  unfold one, at_. destruct (nth_error s i) as [c|]; [destruct (f c) eqn:E|]; cbn.
  - split; [intros [<-|[]]; eauto|intros [-> _]; auto].
  - split; [tauto|]. intros [_ (d & [= <-] & H)]. congruence.
  - split; [tauto|]. intros [_ (d & [=] & H)].
Qed.
Lemma in_here b i j : In j (here b i) <-> i = j /\ b = true.
Proof. unfold here. destruct b; cbn; intuition congruence. Qed.

Definition rel (f : nat -> list nat) : nat -> nat -> Prop := fun i j => In j (f i).
Lemma in_times n f : forall l j, In j (times n f l) <-> exists i, In i l /\ iter n (rel f) i j.
Proof.
  induction n as [|n IH]; intros l j; cbn [times iter].
  - split; [eauto|]. intros (i & H & ->). exact H.
  - rewrite IH. split.
    + intros (k & H & Hi). apply in_spread in H. destruct H as (i & Hl & Hk). exists i. split; auto. exists k. auto.
    + intros (i & Hl & k & Hk & Hi). exists k. split; auto. apply in_spread. eauto.
Qed.
Lemma in_upto n f : forall l j, In j (upto_times n f l) <-> exists k i, (k <= n)%nat /\ In i l /\ iter k (rel f) i j.
Proof.
  induction n as [|n IH]; intros l j; cbn [upto_times].
  - split.
    + intros H. exists O, j. cbn. auto.
    + intros (k & i & Hk & Hl & Hi). assert (k = O) as -> by lia. cbn in Hi. subst. exact Hl.
  - rewrite in_nub, in_app_iff, IH. split.
    + intros [H|(k & i & Hk & Hl & Hi)].
      * exists O, j. cbn. split; [lia|auto].
      * apply in_spread in Hl. destruct Hl as (i' & Hl & Hr). exists (S k), i'. split; [lia|]. split; auto. exists i. auto.
    + intros (k & i & Hk & Hl & Hi). destruct k as [|k]; cbn in Hi; [subst; auto|].
      right. destruct Hi as (m & Hm & Hi). exists k, m. split; [lia|]. split; auto. apply in_spread. eauto.
Qed.
Lemma iter_ext n (R S : nat -> nat -> Prop) (P : nat -> Prop) :
  (forall i j, P i -> (R i j <-> S i j)) -> (forall i j, P i -> S i j -> P j) -> forall i j, P i -> (iter n R i j <-> iter n S i j).
Proof.
  intros HR HP. induction n as [|n IH]; intros i j Hi; cbn [iter]; [tauto|].
  split; intros (k & H1 & H2).
  - exists k. apply HR in H1; auto. split; auto. apply IH; eauto.
  - exists k. split; [apply HR; auto|]. apply IH; eauto.
Qed.
Lemma iter_add a b R : forall i j, iter (a + b) R i j <-> exists k, iter a R i k /\ iter b R k j.
Proof.
  induction a as [|a IH]; intros i j; cbn [iter plus].
  - split; [eauto|]. intros (k & -> & H). exact H.
  - split.
    + intros (k & H & Hi). apply IH in Hi. destruct Hi as (m & H1 & H2). exists m. split; eauto.
    + intros (m & (k & H1 & H2) & H3). exists k. split; auto. apply IH. eauto.
Qed.
Lemma iter_short (R : nat -> nat -> Prop) len : (forall i j, (i <= len)%nat -> R i j -> (i <= j <= len)%nat) ->
  forall n i j, (i <= len)%nat -> iter n R i j -> (i <= j <= len)%nat /\ exists m, (m <= n)%nat /\ (m <= j - i)%nat /\ iter m R i j.
Proof.
  intros HR. induction n as [|n IH]; intros i j Hi; cbn [iter].
  - intros <-. split; [lia|]. exists O. cbn. split; [|split]; lia.
  - intros (k & H1 & H2). destruct (HR _ _ Hi H1) as [Ha Hb]. destruct (IH k j Hb H2) as [Hc (m & Hm0 & Hm & Hit)].
    split; [lia|]. destruct (Nat.eq_dec k i) as [->|Hne].
    + exists m. split; [|split]; auto; lia.
    + exists (S m). split; [lia|]. split; [lia|]. exists k. auto.
Qed.

(** ** Matching *)
(** x is the tree that the parser makes of r. *)
Fixpoint like (r : pat) (x : rexp) : Prop :=
  match r with
  | Nothing => x = XEmpty
  | Chars P => (exists c, x = XLit false c /\ forall y, P y <-> c = y) \/
               (exists f, x = XClass f /\ forall y, P y <-> f y = true) \/
               (x = XAnyNotNL /\ forall y, P y <-> y <> 10)
  | Seq a b => exists u v, x = XCat u v /\ like a u /\ like b v
  | Alt a b => exists u v, x = XAlt u v /\ like a u /\ like b v
  | Rep min max a => at_most min max /\ exists u, like a u /\
      (x = XRepeat min max u \/ (x = XStar u /\ min = 0%nat /\ max = None) \/ (x = XPlus u /\ min = 1%nat /\ max = None) \/
       (x = XQuest u /\ min = 0%nat /\ max = Some 1%nat))
  | Start => x = XBeginText
  | Finish => x = XEndText
  | Edge => x = XWordB
  | Interior => x = XNoWordB
  end.

Lemma matches_span s r : forall i j, (i <= length s)%nat -> matches s r i j -> (i <= j <= length s)%nat.
Proof.
  induction r as [|P|a IHa b IHb|a IHa b IHb|n m a IHa| | | |]; intros i j Hi; cbn [matches].
  - intros <-. lia.
  - intros [-> (c & Hc & _)]. assert (i < length s)%nat by (apply nth_error_Some; congruence). lia.
  - intros (k & H1 & H2). destruct (IHa _ _ Hi H1). destruct (IHb k j); auto. lia.
  - intros [H|H]; eauto.
  - intros (k & _ & _ & H). apply (iter_short _ (length s)) in H; auto. tauto.
  - intros [<- ->]. lia.
  - intros [<- ->]. lia.
  - intros [<- _]. lia.
  - intros [<- _]. lia.
Qed.

Lemma perl_w_iff c : perl_w c = true <-> SpecRegexp.wordly c.
Proof.
  unfold perl_w, is_alnum_rune, is_dec, in_rng, SpecRegexp.wordly, SpecRegexp.letter, SpecRegexp.digit.
  rewrite !orb_true_iff, !andb_true_iff, !N.leb_le, N.eqb_eq. lia.
Qed.
Lemma word_left_iff s i : is_word (before s i) = true <-> SpecRegexp.word_left s i.
Proof.
  unfold is_word, before, SpecRegexp.word_left, at_. destruct i as [|i].
  - split; [discriminate|]. intros (j & c & [=] & _).
  - destruct (nth_error s i) as [c|] eqn:E.
    + rewrite perl_w_iff. split; [eauto|]. intros (j & d & [= <-] & Hd & Hw). congruence.
    + split; [discriminate|]. intros (j & d & [= <-] & Hd & Hw). congruence.
Qed.
Lemma word_right_iff s i : is_word (at_ s i) = true <-> SpecRegexp.word_right s i.
Proof.
  unfold is_word, SpecRegexp.word_right, at_. destruct (nth_error s i) as [c|].
  - rewrite perl_w_iff. split; [eauto|]. intros (d & [= <-] & Hw). auto.
  - split; [discriminate|]. intros (d & [=] & Hw).
Qed.
Lemma boundary_iff s i : boundary s i = true <-> SpecRegexp.edge s i.
Proof.
  unfold boundary, SpecRegexp.edge. rewrite <- word_left_iff, <- word_right_iff.
  destruct (is_word (before s i)), (is_word (at_ s i)); cbn; intuition congruence.
Qed.

Section Unicode.
Variable ud : unidata.

Lemma like_ends s r : forall x i j, like r x -> (i <= length s)%nat -> (In j (ends ud x s i) <-> matches s r i j).
Proof.
  induction r as [|P|a IHa b IHb|a IHa b IHb|n m a IHa| | | |]; intros x i j Hl Hi; cbn [like matches] in *.
  - subst x. cbn. intuition.
  - destruct Hl as [(c & -> & H)|[(f & -> & H)|[-> H]]]; cbn [ends]; rewrite in_one.
    + split; intros [Hj (d & Hd & He)]; split; auto; exists d; split; auto.
      * apply H. apply N.eqb_eq in He. exact He.
      * apply N.eqb_eq. apply H. exact He.
    + split; intros [Hj (d & Hd & He)]; split; auto; exists d; split; auto; apply H; exact He.
    + split; intros [Hj (d & Hd & He)]; split; auto; exists d; split; auto.
      * apply H. intros ->. discriminate.
      * apply H in He. apply negb_true_iff, N.eqb_neq. exact He.
  - destruct Hl as (u & v & -> & Hu & Hv). cbn [ends]. rewrite in_spread. split; intros (k & H1 & H2); exists k.
    + apply (IHa u) in H1; auto. split; auto. apply (IHb v); auto. apply (matches_span s a i k); auto.
    + split; [apply (IHa u); auto|]. apply (IHb v); auto. apply (matches_span s a i k); auto.
  - destruct Hl as (u & v & -> & Hu & Hv). cbn [ends]. rewrite in_nub, in_app_iff, (IHa u), (IHb v); tauto.
  - destruct Hl as (Hmn & u & Hu & Hx).
    assert (HI : forall k p q, (p <= length s)%nat -> (iter k (rel (ends ud u s)) p q <-> iter k (matches s a) p q)).
    { intros k p q Hp. apply (iter_ext k _ _ (fun z => (z <= length s)%nat)); auto.
      - intros z y Hz. apply IHa; auto.
      - intros z y Hz Hm. apply (matches_span s a z y); auto. }
    assert (HS : forall k p q, (p <= length s)%nat -> iter k (matches s a) p q -> exists k', (k' <= length s)%nat /\ iter k' (matches s a) p q).
    { intros k p q Hp Hk. destruct (iter_short (matches s a) (length s) (fun z y => matches_span s a z y) k p q Hp Hk) as [Hr (k' & _ & Hk' & Hit)].
      exists k'. split; auto. lia. }
    assert (HP : forall k p q, (p <= length s)%nat -> iter k (matches s a) p q -> (q <= length s)%nat).
    { intros k p q Hp Hk. apply (iter_short (matches s a) (length s) (fun z y => matches_span s a z y) k p q Hp) in Hk. lia. }
    destruct Hx as [->|[(-> & -> & ->)|[(-> & -> & ->)|(-> & -> & ->)]]]; cbn [ends].
    + destruct m as [m|]; cbn [at_most] in *; rewrite in_upto; split.
      * intros (k & p & Hk & Hp & Hit). apply in_times in Hp. destruct Hp as (i' & [<-|[]] & Hp).
        apply HI in Hp; auto. apply HI in Hit; [|eauto]. exists (n + k)%nat. split; [lia|]. split; [lia|]. apply iter_add. eauto.
      * intros (k & H1 & H2 & Hit). replace k with (n + (k - n))%nat in Hit by lia. apply iter_add in Hit.
        destruct Hit as (p & Hp & Hit). exists (k - n)%nat, p. split; [lia|]. split.
        -- apply in_times. exists i. split; [cbn; auto|]. apply HI; auto.
        -- apply HI; eauto.
      * intros (k & p & Hk & Hp & Hit). apply in_times in Hp. destruct Hp as (i' & [<-|[]] & Hp).
        apply HI in Hp; auto. apply HI in Hit; [|eauto]. exists (n + k)%nat. split; [lia|]. split; auto. apply iter_add. eauto.
      * intros (k & H1 & H2 & Hit). replace k with (n + (k - n))%nat in Hit by lia. apply iter_add in Hit.
        destruct Hit as (p & Hp & Hit). destruct (HS _ p j (HP _ _ _ Hi Hp) Hit) as (k' & Hk' & Hit').
        exists k', p. split; auto. split.
        -- apply in_times. exists i. split; [cbn; auto|]. apply HI; auto.
        -- apply HI; eauto.
    + rewrite in_upto. split.
      * intros (k & p & Hk & [<-|[]] & Hit). apply HI in Hit; auto. exists k. split; [lia|]. cbn. auto.
      * intros (k & _ & _ & Hit). destruct (HS _ i j Hi Hit) as (k' & Hk' & Hit'). exists k', i. split; auto. split; [cbn; auto|]. apply HI; auto.
    + rewrite in_upto. split.
      * intros (k & p & Hk & Hp & Hit). apply (IHa u) in Hp; auto.
        apply HI in Hit; [|apply (matches_span s a i p); auto]. exists (S k). split; [lia|]. split; [cbn; auto|]. exists p. auto.
      * intros (k & H1 & _ & Hit). destruct k as [|k]; [lia|]. destruct Hit as (p & Hp & Hit).
        assert (Hps : (p <= length s)%nat) by (apply (matches_span s a i p); auto).
        destruct (HS _ p j Hps Hit) as (k' & Hk' & Hit'). exists k', p. split; auto. split; [apply (IHa u); auto|]. apply HI; auto.
    + rewrite in_nub. cbn [In]. rewrite (IHa u); auto. split.
      * intros [<-|H]; [exists 0%nat|exists 1%nat]; cbn; (split; [lia|split; [lia|]]); auto. exists j. auto.
      * intros (k & _ & Hk & Hit). cbn in Hk. destruct k as [|[|k]]; [cbn in Hit; auto| |lia].
        destruct Hit as (p & Hp & Hit). cbn in Hit. subst p. auto.
  - subst x. cbn [ends]. rewrite in_here, Nat.eqb_eq. tauto.
  - subst x. cbn [ends]. rewrite in_here, Nat.eqb_eq. tauto.
  - subst x. cbn [ends]. rewrite in_here, boundary_iff. tauto.
  - subst x. cbn [ends]. rewrite in_here, negb_true_iff, <- boundary_iff. destruct (boundary s i); intuition congruence.
Qed.

Theorem somewhere_iff r x s : like r x -> (somewhere ud x s = true <-> found r s).
Proof.
  intros H. unfold somewhere, found. rewrite existsb_exists. split.
  - intros (i & Hi & He). apply in_seq in Hi. destruct (ends ud x s i) as [|j l] eqn:E; [discriminate|].
    exists i, j. split; [lia|]. apply (like_ends s r x i j); auto; [lia|]. rewrite E. cbn. auto.
  - intros (i & j & Hi & Hm). exists i. split; [apply in_seq; lia|]. apply (like_ends s r x i j) in Hm; auto.
    destruct (ends ud x s i); [destruct Hm|reflexivity].
Qed.
End Unicode.
