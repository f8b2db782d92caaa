(** What marshalWithoutNumber compares is structural equality at float64
    precision. *)
From Verif Require Export SpecEqual Codec ValidateOrder.
Open Scope nat_scope.

Lemma f64_ok_binary64 f : f64_ok f = true <-> binary64 f.
Proof. rewrite f64_ok_mag, binary64_mag. tauto. Qed.

Lemma same_assoc_perm {A} (m m' : list (string * A)) :
  NoDup (map fst m) -> NoDup (map fst m') -> (forall k, assoc k m = assoc k m') -> Permutation m m'.
Proof.
  intros N N' H. apply NoDup_Permutation.
  - eapply NoDup_map_inv; eauto.
  - eapply NoDup_map_inv; eauto.
  - intros [k x]. split; intros Hi.
    + apply assoc_In. rewrite <- H. apply In_assoc; auto.
    + apply assoc_In. rewrite H. apply In_assoc; auto.
Qed.

(** canon on the members of a map. *)
Definition canon_entry (e : string * value) : option (string * value) :=
  match canon (snd e) with Some w => Some (fst e, w) | None => None end.
Lemma canon_entries m m' : Forall2 (fun x y => canon_entry x = Some y) m m' ->
  map fst m = map fst m' /\
  (forall k, match assoc k m, assoc k m' with
             | Some x, Some y => canon x = Some y
             | None, None => True
             | _, _ => False
             end).
Proof.
  induction 1 as [|[k x] y m m' E H [I1 I2]]; [split; auto; intros k; exact I|].
  unfold canon_entry in E. simpl in E. destruct (canon x) as [w|] eqn:Ex; [|discriminate]. injection E as <-.
  split; [simpl; congruence|]. intros k'. simpl. destruct (String.eqb k' k); auto. apply I2.
Qed.

Lemma float_of_num s f : json_number s = true -> (float_of (VNum s) f <-> parse_float s = Some f).
Proof.
  intros H. rewrite (parse_float_reads s f H). split.
  - intros [(s' & E & R)|[E _]]; [injection E as <-; auto|discriminate].
  - intros R. left. exists s. auto.
Qed.
Lemma float_of_float g f : f64_ok g = true -> (float_of (VFloat g) f <-> g = f).
Proof.
  intros H. split.
  - intros [(s' & E & R)|[E _]]; [discriminate|]. congruence.
  - intros <-. right. split; auto. apply f64_ok_binary64. auto.
Qed.

(** The float64 of a number. *)
Definition numlike (v : value) : bool := match v with VNum _ | VFloat _ => true | _ => false end.
Lemma canon_num v c f : std v -> canon v = Some c -> (float_of v f <-> c = VFloat f).
Proof.
  intros Hs Hc. inversion Hs; subst; cbn [canon] in Hc.
  - injection Hc as <-. split; [intros [(s & E & _)|[E _]]; discriminate|discriminate].
  - injection Hc as <-. split; [intros [(s & E & _)|[E _]]; discriminate|discriminate].
  - rewrite float_of_num by auto. destruct (parse_float s) as [g|]; [|discriminate]. injection Hc as <-. split; congruence.
  - rewrite float_of_float by auto. injection Hc as <-. split; congruence.
  - injection Hc as <-. split; [intros [(s' & E & _)|[E _]]; discriminate|discriminate].
  - destruct (opt_all _); [|discriminate]. injection Hc as <-. split; [intros [(s & E & _)|[E _]]; discriminate|discriminate].
  - destruct (opt_all _); [|discriminate]. injection Hc as <-. split; [intros [(s & E & _)|[E _]]; discriminate|discriminate].
Qed.

Lemma canon_equal_num v w c d : std v -> std w -> canon v = Some c -> canon w = Some d ->
  (same_float v w <-> c = d /\ numlike c = true).
Proof.
  intros Hv Hw Cv Cw. split.
  - intros (f & Fv & Fw). apply (canon_num v c f Hv Cv) in Fv. apply (canon_num w d f Hw Cw) in Fw. subst. auto.
  - intros [<- N]. destruct c; try discriminate.
    + exfalso. destruct v; cbn [canon] in Cv; try discriminate.
      * destruct (parse_float _); discriminate.
      * destruct (opt_all _); discriminate.
      * destruct (opt_all _); discriminate.
    + exists f. split; [apply (canon_num v (VFloat f)); auto|apply (canon_num w (VFloat f)); auto].
Qed.

Ltac canon_num_case HN :=
  let H := fresh "H" in
  split; [intros H; exfalso; subst | intros H; inversion H; subst; auto; try (apply HN; assumption)].

Theorem canon_equal v : forall w c d, std v -> std w -> canon v = Some c -> canon w = Some d ->
  (c = d <-> equal same_float v w).
Proof.
  induction v using value_ind'; intros w c d Hs Hw Hc Hd;
    pose proof (canon_equal_num _ w c d Hs Hw Hc Hd) as HN.
  1-5: (split; [|intros E; inversion E; subst; try (apply HN; assumption); congruence]).
  - cbn [canon] in Hc. injection Hc as <-. intros <-. inversion Hw; subst; cbn [canon] in Hd; try discriminate.
    + constructor.
    + destruct (parse_float _); discriminate.
    + destruct (opt_all _); discriminate.
    + destruct (opt_all _); discriminate.
  - cbn [canon] in Hc. injection Hc as <-. intros <-. inversion Hw; subst; cbn [canon] in Hd; try discriminate.
    + injection Hd as <-. constructor.
    + destruct (parse_float _); discriminate.
    + destruct (opt_all _); discriminate.
    + destruct (opt_all _); discriminate.
  - intros <-. apply equal_num, HN. split; auto. cbn [canon] in Hc. destruct (parse_float s); [|discriminate]. injection Hc as <-. reflexivity.
  - intros <-. apply equal_num, HN. split; auto. cbn [canon] in Hc. injection Hc as <-. reflexivity.
  - cbn [canon] in Hc. injection Hc as <-. intros <-. inversion Hw; subst; cbn [canon] in Hd; try discriminate.
    + destruct (parse_float _); discriminate.
    + injection Hd as <-. constructor.
    + destruct (opt_all _); discriminate.
    + destruct (opt_all _); discriminate.
  - inversion Hs as [| | | | |? Hl|]; subst. cbn [canon] in Hc. destruct (opt_all (map canon l)) as [l1|] eqn:El; [|discriminate]. injection Hc as <-.
    apply opt_all_Forall2 in El. split.
    + intros <-. inversion Hw as [| | | | |l' Hl'|]; subst; cbn [canon] in Hd; try discriminate; [destruct (parse_float _); discriminate| |destruct (opt_all _); discriminate].
      destruct (opt_all (map canon l')) as [l2|] eqn:El'; [|discriminate]. injection Hd as ->. apply opt_all_Forall2 in El'.
      apply equal_arr. clear HN Hs Hw. revert l' Hl' El'. induction El as [|x y l l1 Exy El IH]; intros l' Hl' El'; inversion El'; subst; [constructor|].
      inversion H as [|? ? HX HR]; subst. inversion Hl; subst. inversion Hl'; subst. constructor.
      * eapply HX; eauto.
      * apply IH; auto.
    + intros E. inversion E as [| | |x y Hxy|l0 l' HF|]; subst; [apply HN; auto|].
      inversion Hw as [| | | | |? Hl'|]; subst. cbn [canon] in Hd. destruct (opt_all (map canon l')) as [l2|] eqn:El'; [|discriminate]. injection Hd as <-.
      apply opt_all_Forall2 in El'. f_equal. clear HN Hs Hw E. revert l1 l2 El El'. induction HF as [|x y l l' Hxy HF IH]; intros l1 l2 El El'; inversion El; subst; inversion El'; subst; auto.
      inversion H as [|? ? HX HR]; subst. inversion Hl; subst. inversion Hl'; subst. f_equal; [eapply HX; eauto|auto].
  - inversion Hs as [| | | | | |? Nm Hm]; subst. cbn [canon] in Hc.
    change (fun e : string * value => match canon (snd e) with Some w => Some (fst e, w) | None => None end) with canon_entry in Hc.
    destruct (opt_all (map canon_entry m)) as [m1|] eqn:Em; [|discriminate]. injection Hc as <-.
    apply opt_all_Forall2, canon_entries in Em. destruct Em as [K1 A1].
    assert (HX : forall k x, assoc k m = Some x -> forall w c d, std w -> canon x = Some c -> canon w = Some d -> (c = d <-> equal same_float x w)).
    { intros k x Ek w0 c0 d0 Sw Cx Cw. apply assoc_In in Ek. rewrite Forall_forall in H, Hm. apply (H _ Ek); auto. apply (Hm _ Ek). }
    split.
    + intros <-. inversion Hw as [| | | | | |m' Nm' Hm']; subst; cbn [canon] in Hd; try discriminate; [destruct (parse_float _); discriminate|destruct (opt_all _); discriminate|].
      change (fun e : string * value => match canon (snd e) with Some w => Some (fst e, w) | None => None end) with canon_entry in Hd.
      destruct (opt_all (map canon_entry m')) as [m2|] eqn:Em'; [|discriminate]. injection Hd as E12.
      apply opt_all_Forall2, canon_entries in Em'. destruct Em' as [K2 A2].
      assert (HP : Permutation m1 m2).
      { etransitivity; [apply sort_keys_permutation|]. rewrite <- E12. symmetry. apply sort_keys_permutation. }
      assert (HA : forall k, assoc k m1 = assoc k m2) by (intros k; apply assoc_perm; [congruence|auto]).
      apply equal_obj.
      * intros k. specialize (A1 k). specialize (A2 k). specialize (HA k).
        destruct (assoc k m), (assoc k m'), (assoc k m1), (assoc k m2); try tauto; try discriminate; split; discriminate.
      * intros k x y Ex Ey. specialize (A1 k). specialize (A2 k). specialize (HA k). rewrite Ex in A1. rewrite Ey in A2.
        destruct (assoc k m1) as [c1|]; [|tauto]. destruct (assoc k m2) as [c2|]; [|tauto].
        apply (HX k x Ex y c1 c2); auto; [|congruence]. apply assoc_In in Ey. rewrite Forall_forall in Hm'. apply (Hm' _ Ey).
    + intros E. inversion E as [| | |x y Hxy| |m0 m' HK HV]; subst; [apply HN; auto|].
      inversion Hw as [| | | | | |? Nm' Hm']; subst. cbn [canon] in Hd.
      change (fun e : string * value => match canon (snd e) with Some w => Some (fst e, w) | None => None end) with canon_entry in Hd.
      destruct (opt_all (map canon_entry m')) as [m2|] eqn:Em'; [|discriminate]. injection Hd as <-.
      apply opt_all_Forall2, canon_entries in Em'. destruct Em' as [K2 A2].
      f_equal. apply sort_keys_perm; [congruence|]. apply same_assoc_perm; [congruence|congruence|].
      intros k. specialize (A1 k). specialize (A2 k). specialize (HK k).
      destruct (assoc k m) as [x|] eqn:Ex, (assoc k m') as [y|] eqn:Ey, (assoc k m1) as [c1|], (assoc k m2) as [c2|]; try tauto.
      * f_equal. apply (HX k x Ex y c1 c2); auto; [|eapply HV; eauto]. apply assoc_In in Ey. rewrite Forall_forall in Hm'. apply (Hm' _ Ey).
      * destruct HK as [_ HK]. discriminate HK; auto.
      * destruct HK as [HK _]. discriminate HK; auto.
  - inversion Hs.
Qed.

(** Numbers within range: nothing is lost but precision. *)
Lemma canon_some v : std v -> (exists c, canon v = Some c) <-> in_float_range v.
Proof.
  unfold in_float_range. induction v using value_ind'; intros Hs.
  - split; [constructor|intros _; eexists; reflexivity].
  - split; [constructor|intros _; eexists; reflexivity].
  - cbn [canon]. inversion Hs as [| |? Hj| | | |]; subst. destruct (json_number_denotes s Hj) as [q Hq].
    pose proof (parse_float_none s q Hq) as HP. split.
    + intros [c E]. constructor. exists q. split; auto. apply Qnot_le_lt. intros L. apply HP in L. rewrite L in E. discriminate.
    + intros E. inversion E as [| | |? (q' & Hq' & L)| | |]; subst. destruct (parse_float s); [eexists; reflexivity|].
      exfalso. apply (Qlt_not_le _ _ L). rewrite (denotes_unique s q' q); auto. apply HP. reflexivity.
  - split; [constructor|intros _; eexists; reflexivity].
  - split; [constructor|intros _; eexists; reflexivity].
  - inversion Hs as [| | | | |? Hl|]; subst. cbn [canon]. split.
    + intros [c E]. destruct (opt_all (map canon l)) as [l1|] eqn:El; [|discriminate]. apply opt_all_Forall2 in El.
      constructor. clear E Hs. induction El; [constructor|]. inversion H as [|? ? HX HR]; subst. inversion Hl; subst. constructor; auto. apply HX; eauto.
    + intros E. inversion E as [| | | | |? Hr|]; subst.
      assert (exists l1, opt_all (map canon l) = Some l1) as [l1 ->]; [|eexists; reflexivity].
      clear E Hs. induction l as [|x l IH]; [eexists; reflexivity|]. inversion H as [|? ? HX HR]; subst. inversion Hl; subst. inversion Hr; subst.
      simpl. destruct (proj2 (HX ltac:(assumption)) ltac:(assumption)) as [c ->]. destruct IH as [l1 ->]; auto. eexists; reflexivity.
  - inversion Hs as [| | | | | |? Nm Hm]; subst. cbn [canon]. clear Hs Nm. split.
    + intros [c E]. destruct (opt_all _) as [l1|] eqn:El in E; [|discriminate]. apply opt_all_Forall2 in El.
      constructor. clear E. induction El; [constructor|]. inversion H as [|? ? HX HR]; subst. inversion Hm as [|? ? [_ Sx] ?]; subst. constructor; auto.
      destruct (canon (snd x)); [|discriminate]. apply HX; eauto.
    + intros E. inversion E as [| | | | | |? Hr]; subst.
      assert (exists l1, opt_all (map canon_entry m) = Some l1) as [l1 E1].
      { clear E. induction m as [|x l IH]; [eexists; reflexivity|]. inversion H as [|? ? HX HR]; subst. inversion Hm as [|? ? [_ Sx] ?]; subst. inversion Hr; subst.
        simpl. unfold canon_entry at 1. destruct (proj2 (HX Sx) ltac:(assumption)) as [c ->]. destruct IH as [l1 ->]; auto. eexists; reflexivity. }
      unfold canon_entry in E1. rewrite E1. eexists; reflexivity.
  - inversion Hs.
Qed.

(** Two values in float64 range have the same text exactly when they are equal
    at float64 precision. *)
Theorem mwn_equal v w : std v -> std w -> in_float_range v -> in_float_range w ->
  (marshalWithoutNumber v = marshalWithoutNumber w <-> equal same_float v w).
Proof.
  intros Hv Hw Rv Rw. apply canon_some in Rv; auto. apply canon_some in Rw; auto.
  destruct Rv as [c Cv], Rw as [d Cw]. rewrite (mwn_eq v w c d); auto. apply canon_equal; auto.
Qed.

Lemma mwn_some v : std v -> in_float_range v -> exists t, marshalWithoutNumber v = Some t.
Proof.
  intros Hv Rv. apply canon_some in Rv; auto. destruct Rv as [c Cv].
  destruct (mwn_canon v c Hv Cv) as (-> & t & -> & _). eauto.
Qed.
