(** What the JSON decoder produces. *)
From Verif Require Export ValidateSem ValidateBranch.

(** Every number literal in the value satisfies P. *)
Fixpoint nums_all (P : string -> Prop) (v : value) : Prop :=
  match v with
  | VNum s => P s
  | VArr l => fold_right (fun x Q => nums_all P x /\ Q) True l
  | VMap m => fold_right (fun e Q => nums_all P (snd e) /\ Q) True m
  | VIMap m => fold_right (fun e Q => nums_all P (snd e) /\ Q) True m
  | _ => True
  end.

Lemma nums_all_arr P l : nums_all P (VArr l) <-> Forall (nums_all P) l.
Proof. simpl. induction l; simpl; [split; auto|]. rewrite Forall_cons_iff, IHl. tauto. Qed.
Lemma nums_all_map P m : nums_all P (VMap m) <-> Forall (fun e => nums_all P (snd e)) m.
Proof. simpl. induction m; simpl; [split; auto|]. rewrite Forall_cons_iff, IHm. tauto. Qed.
Lemma nums_all_imap P m : nums_all P (VIMap m) <-> Forall (fun e => nums_all P (snd e)) m.
Proof. simpl. induction m; simpl; [split; auto|]. rewrite Forall_cons_iff, IHm. tauto. Qed.

Lemma aset_keys_in {B} k (v : B) m x : In x (map fst (aset k v m)) <-> x = k \/ In x (map fst m).
Proof.
  induction m as [|[k' v'] m IH]; simpl.
  - split; intros [H|H]; auto.
  - destruct (String.eqb_spec k k'); simpl.
    + subst. intuition.
    + rewrite IH. intuition.
Qed.
Lemma aset_NoDup {B} k (v : B) m : NoDup (map fst m) -> NoDup (map fst (aset k v m)).
Proof.
  induction m as [|[k' v'] m IH]; simpl; intros H; [repeat constructor; simpl; auto|].
  inversion H; subst. destruct (String.eqb_spec k k'); simpl.
  - subst. auto.
  - constructor; auto. rewrite aset_keys_in. intuition congruence.
Qed.
Lemma aset_Forall {B} (P : string * B -> Prop) k v m : P (k, v) -> Forall P m -> Forall P (aset k v m).
Proof.
  intros Hk. induction 1 as [|[k' v'] m Hx Hm IH]; simpl; [constructor; auto|].
  destruct (String.eqb_spec k k'); constructor; auto.
Qed.

(** A value the decoder in UseNumber mode may return. *)
Definition decoded (v : value) : Prop :=
  wf_value v /\ plain v = true /\ nums_all (fun s => json_number s = true) v.

(** Everything below a scanned number prefix is the number itself. *)
Lemma take_digits_app s : forall d r, take_digits s = (d, r) -> s = append d r /\ take_digits d = (d, "").
Proof.
  induction s as [|c s IH]; intros d r; simpl; [intros [= <- <-]; auto|].
  destruct (is_digit c) eqn:Ec.
  - destruct (take_digits s) as [d1 r1]. intros [= <- <-]. destruct (IH d1 r1 eq_refl) as [-> H].
    simpl. rewrite Ec, H. auto.
  - intros [= <- <-]. auto.
Qed.
Lemma append_nil_r s : append s "" = s.
Proof. induction s; simpl; congruence. Qed.
Lemma append_assoc a b c : append a (append b c) = append (append a b) c.
Proof. induction a; simpl; congruence. Qed.

Lemma scan_exp_app s e r : scan_exp s = Some (e, r) -> s = append e r /\ scan_exp e = Some (e, "").
Proof.
  destruct s as [|c s]; simpl; [intros [= <- <-]; auto|].
  destruct (_ || _)%bool eqn:Ec; [|intros [= <- <-]; auto].
  destruct s as [|c2 s2]; [discriminate|].
  destruct (Ascii.eqb c2 "+" || Ascii.eqb c2 "-")%bool eqn:E2.
  - destruct (take_digits s2) as [d r0] eqn:Ed. destruct d as [|d0 d]; [discriminate|].
    intros [= <- <-]. destruct (take_digits_app _ _ _ Ed) as [-> H]. split; auto.
    cbn [append scan_exp]. rewrite Ec, E2, H. reflexivity.
  - destruct (take_digits (String c2 s2)) as [d r0] eqn:Ed. destruct d as [|d0 d]; [discriminate|].
    intros [= <- <-]. destruct (take_digits_app _ _ _ Ed) as [H0 H]. injection H0 as <- ->. split; auto.
    cbn [append scan_exp]. rewrite Ec, E2, H. reflexivity.
Qed.

(** Does the text start with something that would continue a digit string? *)
Definition starts_digit (s : string) : bool :=
  match s with String c _ => is_digit c | _ => false end.
Lemma take_digits_stop d r : take_digits d = (d, "") -> starts_digit r = false -> take_digits (append d r) = (d, r).
Proof.
  induction d as [|c d IH]; simpl; intros H Hr.
  - destruct r as [|c r]; auto. simpl in *. rewrite Hr. auto.
  - destruct (is_digit c) eqn:Ec; [|discriminate]. destruct (take_digits d) as [d1 r1].
    injection H as -> ->. rewrite (IH eq_refl Hr). auto.
Qed.
Lemma take_digits_rest s d r : take_digits s = (d, r) -> starts_digit r = false.
Proof.
  revert d r. induction s as [|c s IH]; intros d r; simpl; [intros [= <- <-]; auto|].
  destruct (is_digit c) eqn:Ec.
  - destruct (take_digits s). intros [= <- <-]. eauto.
  - intros [= <- <-]. auto.
Qed.

Lemma scan_exp_head s e r : scan_exp s = Some (e, r) ->
  e = "" \/ exists c e', e = String c e' /\ (c = "e"%char \/ c = "E"%char).
Proof.
  destruct s as [|c s]; simpl; [intros [= <- <-]; auto|].
  destruct (_ || _)%bool eqn:Ec; [|intros [= <- <-]; auto].
  assert (Hc : c = "e"%char \/ c = "E"%char).
  { apply orb_true_iff in Ec. destruct Ec as [E|E]; apply Ascii.eqb_eq in E; auto. }
  destruct s as [|c2 s2]; [discriminate|].
  destruct (Ascii.eqb c2 "+" || Ascii.eqb c2 "-")%bool.
  - destruct (take_digits s2) as [[|d0 d] r0]; [discriminate|]. intros [= <- <-]. eauto.
  - destruct (take_digits (String c2 s2)) as [[|d0 d] r0]; [discriminate|]. intros [= <- <-]. eauto.
Qed.

Lemma scan_frac_spec s f r : scan_frac s = Some (f, r) ->
  (f = "" /\ s = r) \/ (exists d d0, f = String "." d /\ s = append f r /\ take_digits d = (d, "") /\
                        d = String d0 (drop 1 d) /\ starts_digit r = false).
Proof.
  destruct s as [|c s]; simpl; [intros [= <- <-]; auto|].
  destruct (Ascii.eqb_spec c ".").
  - subst. destruct (take_digits s) as [d r0] eqn:Ed. destruct d as [|d0 d]; [discriminate|].
    intros [= <- <-]. right. destruct (take_digits_app _ _ _ Ed) as [-> H].
    exists (String d0 d), d0. repeat split; auto. eapply take_digits_rest; eauto.
  - intros H. left. destruct c as [[] [] [] [] [] [] [] []]; try (injection H as <- <-; auto); congruence.
Qed.

Lemma scan_int_spec s i r : scan_int s = Some (i, r) ->
  s = append i r /\ ((i = "0") \/ (take_digits i = (i, "") /\ starts_digit r = false /\
                      exists c i', i = String c i' /\ is_digit c = true /\ c <> "0"%char)).
Proof.
  destruct s as [|c s]; [discriminate|]. destruct (Ascii.eqb_spec c "0").
  - subst. simpl. intros [= <- <-]. auto.
  - intros H. assert (H' : (if is_digit c then Some (take_digits (String c s)) else None) = Some (i, r)).
    { unfold scan_int in H. destruct c as [[] [] [] [] [] [] [] []]; try exact H; congruence. }
    destruct (is_digit c) eqn:Ec; [|discriminate].
    assert (H2 : take_digits (String c s) = (i, r)) by congruence. clear H'. rename H2 into H'.
    pose proof (take_digits_app _ _ _ H') as [E1 E2]. split; auto. right. split; auto.
    split; [eapply take_digits_rest; eauto|]. simpl in H'. rewrite Ec in H'.
    destruct (take_digits s). injection H' as <- <-. eauto.
Qed.

Lemma scan_int_again i r : (i = "0" \/ (take_digits i = (i, "") /\ starts_digit r = false /\
                      exists c i', i = String c i' /\ is_digit c = true /\ c <> "0"%char)) ->
  scan_int (append i r) = Some (i, r).
Proof.
  intros [-> | (H1 & H2 & c & i' & -> & Hc & H0)]; [reflexivity|].
  assert (E : take_digits (append (String c i') r) = (String c i', r)) by (apply take_digits_stop; auto).
  simpl append in *. unfold scan_int. 
  destruct c as [[] [] [] [] [] [] [] []]; try (exfalso; apply H0; reflexivity); rewrite ?Hc; rewrite ?E; auto.
Qed.

Lemma scan_number_again s lit r : scan_number s = Some (lit, r) ->
  s = append lit r /\ json_number lit = true.
Proof.
  unfold scan_number, json_number. destruct (scan_sign s) as [sg s1] eqn:Es.
  destruct (scan_int s1) as [[ip s2]|] eqn:Ei; [|discriminate].
  destruct (scan_frac s2) as [[fp s3]|] eqn:Ef; [|discriminate].
  destruct (scan_exp s3) as [[ep s4]|] eqn:Ee; [|discriminate].
  intros [= <- <-].
  destruct (scan_int_spec _ _ _ Ei) as [-> Hi].
  destruct (scan_exp_app _ _ _ Ee) as [-> He].
  assert (Hs2 : s2 = append fp (append ep s4)).
  { destruct (scan_frac_spec _ _ _ Ef) as [[-> ->]|(d & d0 & -> & -> & _)]; reflexivity. }
  split.
  - rewrite <- !append_assoc, <- Hs2.
    assert (Hsg : s = append sg (append ip s2)); [|exact Hsg].
    destruct s as [|c s]; simpl in Es; [injection Es as E1 E2; subst sg; exact E2|].
    destruct (Ascii.eqb_spec c "-").
    + subst. injection Es as E1 E2. subst sg. simpl. congruence.
    + destruct c as [[] [] [] [] [] [] [] []]; try (injection Es as E1 E2; subst sg; exact E2); congruence.
  - unfold scan_number.
    assert (Hsg : sg = "" \/ sg = "-").
    { destruct s as [|c s]; simpl in Es; [injection Es as E1 E2; auto|].
      destruct c as [[] [] [] [] [] [] [] []]; injection Es as E1 E2; auto. }
    assert (Hep : starts_digit ep = false /\ forall x, scan_frac ep = Some x -> x = ("", ep)).
    { destruct (scan_exp_head _ _ _ Ee) as [-> |(c & e' & -> & [-> | ->])]; simpl; split; auto; intros x [= <-]; auto. }
    destruct Hep as [Hep1 Hep2].
    assert (Hfr : scan_frac (append fp ep) = Some (fp, ep)).
    { destruct (scan_frac_spec _ _ _ Ef) as [[-> _]|(d & d0 & -> & _ & Hd & Hd0 & _)].
      - simpl. destruct (scan_exp_head _ _ _ Ee) as [-> |(c & e' & -> & [-> | ->])]; reflexivity.
      - simpl. rewrite take_digits_stop; auto. rewrite Hd0. reflexivity. }
    assert (Hsi : scan_int (append ip (append fp ep)) = Some (ip, append fp ep)).
    { apply scan_int_again. destruct Hi as [->|(H1 & H2 & H3)]; auto. right. split; auto. split; auto.
      destruct (scan_frac_spec _ _ _ Ef) as [[-> _]|(d & d0 & -> & _)]; auto. }
    assert (Hss : scan_sign (append sg (append ip (append fp ep))) = (sg, append ip (append fp ep))).
    { destruct Hsg as [-> | ->]; [|reflexivity]. simpl.
      destruct Hi as [->|(H1 & H2 & c & i' & -> & Hc & _)]; [reflexivity|]. simpl.
      destruct c as [[] [] [] [] [] [] [] []]; try reflexivity; discriminate. }
    rewrite Hss, Hsi, Hfr, He. reflexivity.
Qed.

Lemma plain_arr l : plain (VArr l) = true <-> Forall (fun v => plain v = true) l.
Proof. simpl. rewrite forallb_forall, Forall_forall. tauto. Qed.
Lemma plain_map m : plain (VMap m) = true <-> Forall (fun e => plain (snd e) = true) m.
Proof. simpl. rewrite forallb_forall, Forall_forall. tauto. Qed.

Lemma decoded_arr l : decoded (VArr l) <-> Forall decoded l.
Proof.
  unfold decoded. rewrite plain_arr, nums_all_arr. split.
  - intros (H1 & H2 & H3). inversion H1; subst. rewrite Forall_forall in *. auto.
  - intros H. repeat split; try constructor; eapply Forall_impl; try exact H; simpl; tauto.
Qed.
Lemma decoded_map m : decoded (VMap m) <-> NoDup (map fst m) /\ Forall (fun e => decoded (snd e)) m.
Proof.
  unfold decoded. rewrite plain_map, nums_all_map. split.
  - intros (H1 & H2 & H3). inversion H1; subst. rewrite Forall_forall in *. auto.
  - intros [Hn H]. repeat split; try constructor; auto; eapply Forall_impl; try exact H; simpl; tauto.
Qed.

Lemma parse_decoded : forall k s,
  (forall v r, pvalue k true s = Some (v, r) -> decoded v) /\
  (forall l r, parr k true s = Some (l, r) -> Forall decoded l) /\
  (forall acc m r, pobj k true acc s = Some (m, r) ->
     NoDup (map fst acc) -> Forall (fun e => decoded (snd e)) acc ->
     NoDup (map fst m) /\ Forall (fun e => decoded (snd e)) m).
Proof.
  induction k as [|k IH]; intros s; [repeat split; intros; discriminate|].
  assert (IHv : forall s v r, pvalue k true s = Some (v, r) -> decoded v) by (intros s0; apply IH).
  assert (IHa : forall s v r, parr k true s = Some (v, r) -> Forall decoded v) by (intros s0; apply IH).
  assert (IHo : forall s acc m r, pobj k true acc s = Some (m, r) ->
     NoDup (map fst acc) -> Forall (fun e => decoded (snd e)) acc ->
     NoDup (map fst m) /\ Forall (fun e => decoded (snd e)) m) by (intros s0; apply IH).
  clear IH. split; [|split].
  - intros v r. cbn [pvalue]. destruct (skip_ws s) as [|c r0]; [discriminate|].
    destruct (Ascii.eqb c "{").
    { assert (Hcase : forall r1, match pobj k true [] r1 with Some (m, r2) => Some (VMap m, r2) | None => None end = Some (v, r) -> decoded v).
      { intros r1. destruct (pobj k true [] r1) as [[m r2]|] eqn:E; [|discriminate]. intros [= <- <-].
        apply decoded_map. eapply IHo; eauto; constructor. }
      destruct (skip_ws r0) as [|c1 r1]; [apply Hcase|].
      destruct c1 as [[] [] [] [] [] [] [] []]; try apply Hcase.
      intros [= <- <-]. apply decoded_map. split; constructor. }
    destruct (Ascii.eqb c "[").
    { assert (Hcase : forall r1, match parr k true r1 with Some (m, r2) => Some (VArr m, r2) | None => None end = Some (v, r) -> decoded v).
      { intros r1. destruct (parr k true r1) as [[m r2]|] eqn:E; [|discriminate]. intros [= <- <-].
        apply decoded_arr. eapply IHa; eauto; constructor. }
      destruct (skip_ws r0) as [|c1 r1]; [apply Hcase|].
      destruct c1 as [[] [] [] [] [] [] [] []]; try apply Hcase.
      intros [= <- <-]. apply decoded_arr. constructor. }
    destruct (Ascii.eqb c """").
    { destruct (parse_string r0) as [[t r2]|]; [|discriminate]. intros [= <- <-]. repeat split; constructor. }
    destruct (Ascii.eqb c "t").
    { destruct (strip_prefix "rue" r0); [|discriminate]. intros [= <- <-]. repeat split; constructor. }
    destruct (Ascii.eqb c "f").
    { destruct (strip_prefix "alse" r0); [|discriminate]. intros [= <- <-]. repeat split; constructor. }
    destruct (Ascii.eqb c "n").
    { destruct (strip_prefix "ull" r0); [|discriminate]. intros [= <- <-]. repeat split; constructor. }
    unfold parse_number. destruct (scan_number (String c r0)) as [[lit r1]|] eqn:E; [|discriminate].
    intros [= <- <-]. apply scan_number_again in E. destruct E as [_ E]. repeat split; try constructor. exact E.
  - intros l r. simpl. destruct (pvalue k true s) as [[v r0]|] eqn:Ev; [|discriminate].
    apply IHv in Ev. destruct (skip_ws r0) as [|c r1]; [discriminate|].
    assert (H1 : match parr k true r1 with Some (l, r3) => Some (v :: l, r3) | None => None end = Some (l, r) -> Forall decoded l).
    { destruct (parr k true r1) as [[l1 r2]|] eqn:E; [|discriminate]. intros [= <- <-]. constructor; eauto. }
    assert (H2 : Some ([v], r1) = Some (l, r) -> Forall decoded l) by (intros [= <- <-]; auto).
    destruct c as [[] [] [] [] [] [] [] []]; try discriminate; auto.
  - intros acc m r E Hn Hf. simpl in E. destruct (skip_ws s) as [|c r0]; [discriminate E|].
    destruct (Ascii.eqb_spec c """") as [->|n];
      [|destruct c as [[] [] [] [] [] [] [] []]; try discriminate E; congruence].
    destruct (parse_string r0) as [[key r1]|]; [|discriminate E].
    destruct (skip_ws r1) as [|c1 r2]; [discriminate E|].
    destruct (Ascii.eqb_spec c1 ":") as [->|n];
      [|destruct c1 as [[] [] [] [] [] [] [] []]; try discriminate E; congruence].
    destruct (pvalue k true r2) as [[v r3]|] eqn:Ev; [|discriminate E]. apply IHv in Ev.
    destruct (skip_ws r3) as [|c2 r4]; [discriminate E|].
    assert (Hn' := aset_NoDup key v acc Hn).
    assert (Hf' : Forall (fun e => decoded (snd e)) (aset key v acc)) by (apply aset_Forall; auto).
    assert (E' : pobj k true (aset key v acc) r4 = Some (m, r) \/ Some (aset key v acc, r4) = Some (m, r)).
    { destruct c2 as [[] [] [] [] [] [] [] []]; try discriminate E; auto. }
    destruct E' as [E'|[= <- <-]]; eauto.
Qed.

Theorem decode_decoded s v : decode_use_number s = Some v -> decoded v.
Proof.
  unfold decode_use_number. destruct (pvalue (parse_fuel s) true s) as [[w r]|] eqn:E; [|discriminate].
  intros [= <-]. eapply parse_decoded; eauto.
Qed.
