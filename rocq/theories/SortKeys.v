(** Sorting keys: the order in which members are stored is immaterial to json.Marshal. *)
From Verif Require Export JsonText.

Lemma ascii_compare_trans a b c : Ascii.compare a b <> Gt -> Ascii.compare b c <> Gt ->
  Ascii.compare a c <> Gt /\ (Ascii.compare a c = Eq -> a = b /\ b = c).
Proof.
  unfold Ascii.compare. intros H1 H2.
  change (N_of_ascii a <= N_of_ascii b)%N in H1. change (N_of_ascii b <= N_of_ascii c)%N in H2. split.
  - change (N_of_ascii a <= N_of_ascii c)%N. lia.
  - intros E. apply N.compare_eq in E.
    assert (N_of_ascii a = N_of_ascii b) by lia.
    assert (N_of_ascii b = N_of_ascii c) by lia.
    split; [rewrite <- (ascii_N_embedding a), <- (ascii_N_embedding b)
           |rewrite <- (ascii_N_embedding b), <- (ascii_N_embedding c)]; congruence.
Qed.

Lemma ascii_compare_refl a : Ascii.compare a a = Eq.
Proof. apply N.compare_refl. Qed.

Lemma str_compare_trans a : forall b c, String.compare a b <> Gt -> String.compare b c <> Gt ->
  String.compare a c <> Gt.
Proof.
  induction a as [|x a IH]; intros [|y b] [|z c]; simpl; try congruence.
  destruct (Ascii.compare x y) eqn:E1; destruct (Ascii.compare y z) eqn:E2; try congruence; intros H1 H2.
  - apply Ascii.compare_eq_iff in E1, E2. subst. rewrite ascii_compare_refl. eauto.
  - apply Ascii.compare_eq_iff in E1. subst. rewrite E2. congruence.
  - apply Ascii.compare_eq_iff in E2. subst. rewrite E1. congruence.
  - destruct (ascii_compare_trans x y z) as [H3 H4]; try congruence.
    destruct (Ascii.compare x z) eqn:E3; try congruence.
    destruct (H4 eq_refl) as [-> ->]. rewrite ascii_compare_refl in E1. congruence.
Qed.

Lemma str_leb_trans a b c : String.leb a b = true -> String.leb b c = true -> String.leb a c = true.
Proof.
  unfold String.leb. intros H1 H2.
  assert (H : String.compare a c <> Gt).
  { apply str_compare_trans with b; [destruct (String.compare a b)|destruct (String.compare b c)]; congruence. }
  destruct (String.compare a c); congruence.
Qed.

Section Sort.
  Context {A : Type}.


  Lemma insert_comm (a b : string * A) l : fst a <> fst b -> insert_key a (insert_key b l) = insert_key b (insert_key a l).
  Proof.
    intros Hab. induction l as [|x l IH]; simpl.
    - destruct (String.leb (fst a) (fst b)) eqn:E1; destruct (String.leb (fst b) (fst a)) eqn:E2; auto.
      + exfalso. apply Hab, String.leb_antisym; auto.
      + destruct (String.leb_total (fst a) (fst b)); congruence.
    - destruct (String.leb (fst b) (fst x)) eqn:Eb; destruct (String.leb (fst a) (fst x)) eqn:Ea; simpl;
        rewrite ?Eb, ?Ea.
      + destruct (String.leb (fst a) (fst b)) eqn:E1; destruct (String.leb (fst b) (fst a)) eqn:E2; auto.
        * exfalso. apply Hab, String.leb_antisym; auto.
        * destruct (String.leb_total (fst a) (fst b)); congruence.
      + destruct (String.leb (fst a) (fst b)) eqn:E1; auto.
        rewrite (str_leb_trans _ _ _ E1 Eb) in Ea. discriminate.
      + destruct (String.leb (fst b) (fst a)) eqn:E1; auto.
        rewrite (str_leb_trans _ _ _ E1 Ea) in Eb. discriminate.
      + f_equal. exact IH.
  Qed.

  Lemma sort_keys_perm (l l' : list (string * A)) :
    NoDup (map fst l) -> Permutation l l' -> sort_keys l = sort_keys l'.
  Proof.
    intros Hn HP. unfold sort_keys. induction HP; simpl in *; auto.
    - inversion Hn; subst. rewrite IHHP; auto.
    - inversion Hn; subst. inversion H2; subst. apply insert_comm. intros E. apply H1. left. auto.
    - rewrite IHHP1; auto. apply IHHP2. eapply Permutation_NoDup; [apply Permutation_map; eauto|auto].
  Qed.

  Lemma insert_key_perm (e : string * A) l : Permutation (e :: l) (insert_key e l).
  Proof.
    induction l as [|x l IH]; simpl; auto. destruct (String.leb _ _); auto.
    etransitivity; [apply perm_swap|]. constructor. auto.
  Qed.

  Lemma sort_keys_permutation (l : list (string * A)) : Permutation l (sort_keys l).
  Proof.
    induction l as [|e l IH]; simpl; auto.
    etransitivity; [|apply insert_key_perm]. constructor; auto.
  Qed.
End Sort.
