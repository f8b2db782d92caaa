(** The registry of formats used by many goroutines: no conflicting accesses,
    results as if one call was made after the other, no deadlock. *)
From Coq Require Import List Arith Lia.
From Verif Require Import FormatProps ModelConc SpecConc.
Open Scope string_scope.
Open Scope list_scope.

Definition in_lock (w : bool) (x : at_) : bool :=
  match x with Locked o | Busy o | Done o _ => Bool.eqb (writes o) w | _ => false end.
Definition in_map (w : bool) (x : at_) : bool :=
  match x with Busy o => Bool.eqb (writes o) w | _ => false end.
Definition stage_of (x : at_) : stage :=
  match x with
  | Idle => Out | Called o | Locked o | Busy o => Entered o
  | Done o y | Released o y => Effected o (returns o y)
  end.
Record sound (m0 : names) (h : list event) (s : chain) : Prop := {
  sd_ok : ch_crashed s = false;
  sd_w : forall t, rw_writer (ch_lock s) = Some t <-> in_lock true (ch_at s t) = true;
  sd_r : forall t, In t (rw_readers (ch_lock s)) <-> in_lock false (ch_at s t) = true;
  sd_x : rw_writer (ch_lock s) <> None -> rw_readers (ch_lock s) = [];
  sd_bw : forall t, ch_writing s = Some t <-> in_map true (ch_at s t) = true;
  sd_br : forall t, In t (ch_reading s) <-> in_map false (ch_at s t) = true;
  sd_h : exists H m, flat_map visible H = h /\ in_turn m0 H m /\ (forall k, m k = assoc k (ch_map s)) /\
         forall t, proper t H (stage_of (ch_at s t))
}.

Lemma in_turn_app m h m1 h2 m2 : in_turn m h m1 -> in_turn m1 h2 m2 -> in_turn m (h ++ h2) m2.
Proof. induction 1; intros X; simpl; [exact X|constructor; auto..|econstructor; eauto]. Qed.
Lemma upd_same {A} (f : tid -> A) t x : upd f t x t = x.
Proof. unfold upd. destruct (Nat.eq_dec t t); congruence. Qed.
Lemma upd_other {A} (f : tid -> A) t x u : u <> t -> upd f t x u = f u.
Proof. unfold upd. destruct (Nat.eq_dec u t); congruence. Qed.
Lemma leave_in t l u : In u (leave t l) <-> In u l /\ u <> t.
Proof.
  unfold leave. split; intros X.
  - split; [eapply in_remove; eauto|]. intros ->. eapply remove_In; eauto.
  - destruct X. apply in_in_remove; auto.
Qed.
(** The map seen as a function. *)
Lemma initially r : sound (fun k => assoc k r) [] (start r).
Proof.
  split; simpl; intros; try solve [split; intros X; [discriminate X || destruct X|discriminate X] | congruence]; auto.
  exists [], (fun k => assoc k r). repeat split; constructor.
Qed.

(** Effects do not depend on how the map is represented. *)
Lemma alone_ext m m' o a m1 : (forall k, m k = m' k) -> alone m o a m1 ->
  exists m1', alone m' o a m1' /\ forall k, m1 k = m1' k.
Proof.
  intros E A. inversion A; subst.
  - exists (plus m' n f). split; [constructor|]. intros k. unfold plus. rewrite E. auto.
  - exists (minus m' n). split; [constructor|]. intros k. unfold minus. rewrite E. auto.
  - exists m'. split; auto. eapply al_has_yes. rewrite <- E. eassumption.
  - exists m'. split; auto. eapply al_has_no. rewrite <- E. eassumption.
  - exists m'. split; auto. eapply al_unknown. rewrite <- E. eassumption.
  - exists m'. split; auto. eapply al_known. rewrite <- E. eassumption.
Qed.
(** The access to the map is the effect. *)
Lemma write_effect o r : writes o = true ->
  exists m1, alone (fun k => assoc k r) o (returns o None) m1 /\ forall k, m1 k = assoc k (write o r).
Proof.
  destruct o; try discriminate; intros _; simpl.
  - eexists. split; [constructor|]. intros k. unfold plus. rewrite assoc_add. auto.
  - eexists. split; [constructor|]. intros k. unfold minus. rewrite assoc_remove. auto.
Qed.
Lemma read_effect o r : writes o = false ->
  alone (fun k => assoc k r) o (returns o (assoc (op_name o) r)) (fun k => assoc k r).
Proof.
  destruct o; try discriminate; intros _; simpl; destruct (assoc name r) eqn:E;
    [eapply al_has_yes|eapply al_has_no|eapply al_known|eapply al_unknown]; exact E.
Qed.

(** What is recorded grows by one moment. *)
Lemma grow_silent m0 h r (a : tid -> at_) t x :
  (exists H m, flat_map visible H = h /\ in_turn m0 H m /\ (forall k, m k = assoc k r) /\ forall t, proper t H (stage_of (a t))) ->
  stage_of (a t) = stage_of x ->
  exists H m, flat_map visible H = h ++ [] /\ in_turn m0 H m /\ (forall k, m k = assoc k r) /\
    forall u, proper u H (stage_of (upd a t x u)).
Proof.
  intros (H & m & E & I & K & P) S. exists H, m. rewrite app_nil_r. repeat split; auto.
  intros u. unfold upd. destruct (Nat.eq_dec u t); subst; [rewrite <- S|]; auto.
Qed.
Lemma grow_now m0 h r r' (a : tid -> at_) t o x :
  (exists H m, flat_map visible H = h /\ in_turn m0 H m /\ (forall k, m k = assoc k r) /\ forall t, proper t H (stage_of (a t))) ->
  a t = Busy o ->
  (exists m1, alone (fun k => assoc k r) o (returns o x) m1 /\ forall k, m1 k = assoc k r') ->
  exists H m, flat_map visible H = h ++ [] /\ in_turn m0 H m /\ (forall k, m k = assoc k r') /\
    forall u, proper u H (stage_of (upd a t (Done o x) u)).
Proof.
  intros (H & m & E & I & K & P) B (m1 & A & K1).
  destruct (alone_ext _ m _ _ _ (fun k => eq_sym (K k)) A) as (m2 & A2 & K2).
  exists (H ++ [MNow t o (returns o x)]), m2. split; [|split; [|split]].
  - rewrite flat_map_app, E. reflexivity.
  - eapply in_turn_app; [exact I|]. eapply it_now; [exact A2|constructor].
  - intros k. rewrite <- K2. auto.
  - intros u. specialize (P u). unfold upd. destruct (Nat.eq_dec u t).
    + subst. rewrite B in P. apply pr_now. exact P.
    + apply pr_now'; auto.
Qed.

Ltac settle t A := intros u; match goal with
  | W : forall x, _ <-> in_lock true _ = true, R : forall x, _ <-> in_lock false _ = true,
    BW : forall x, _ <-> in_map true _ = true, BR : forall x, _ <-> in_map false _ = true |- _ =>
    pose proof (W t); pose proof (BW t); specialize (W u); specialize (R u); specialize (BW u); specialize (BR u) end;
  unfold upd; destruct (Nat.eq_dec u t) as [->|]; simpl in *; rewrite ?A in *; simpl in *;
  rewrite ?leave_in in *; repeat match goal with H : writes _ = _ |- _ => rewrite H in * end; simpl in *;
  try solve [intuition congruence].

Theorem step_sound m0 h s e s' : sound m0 h s -> step s e s' -> sound m0 (h ++ e) s'.
Proof.
  intros [Ok W R X BW BR Hh] St.
  destruct St as [r w rd l a t o A|r w rd a t o A Wo|r w rd l a t o A Wo|r l a t o A Wo|r w rd l a t o A Wo C
    |r rd l a t o A Wo|r w rd l a t o A Wo C|r w rd l a t o A Wo|r w rd l a t o A Wo|r w rd l a t o x A Wo
    |r w rd l a t o x A Wo|r w rd l a t o x A]; simpl in *.
  - (* call *)
    split; simpl; auto; try (settle t A).
    destruct Hh as (H & m & E & I & K & P). exists (H ++ [MInv t o]), m. split; [|split; [|split]]; auto.
    + rewrite flat_map_app, E. reflexivity.
    + eapply in_turn_app; [exact I|]. constructor. constructor.
    + intros u. specialize (P u). unfold upd. destruct (Nat.eq_dec u t).
      * subst. rewrite A in P. apply pr_inv. exact P.
      * apply pr_inv'; auto.
  - (* Lock *)
    split; simpl; auto; try (settle t A).
    eapply grow_silent; eauto. rewrite A. reflexivity.
  - (* RLock *)
    split; simpl; auto; try (settle t A); try congruence.
    eapply grow_silent; eauto. rewrite A. reflexivity.
  - (* the write begins *)
    split; simpl; auto; try (settle t A).
    eapply grow_silent; eauto. rewrite A. reflexivity.
  - (* it cannot conflict *)
    exfalso. pose proof (proj2 (W t)) as Wt. rewrite A in Wt. simpl in Wt. rewrite Wo in Wt. specialize (Wt eq_refl).
    destruct C as [C|C].
    + destruct w as [u|]; [|congruence]. pose proof (proj1 (BW u) eq_refl) as B.
      assert (Lu : in_lock true (a u) = true) by (destruct (a u); simpl in *; congruence || discriminate B).
      apply W in Lu. rewrite Wt in Lu. injection Lu as <-. rewrite A in B. discriminate B.
    + destruct rd as [|u rd]; [congruence|]. pose proof (proj1 (BR u) (or_introl eq_refl)) as B.
      assert (Lu : in_lock false (a u) = true) by (destruct (a u); simpl in *; congruence || discriminate B).
      apply R in Lu. rewrite X in Lu by congruence. destruct Lu.
  - (* the read begins *)
    split; simpl; auto; try (settle t A).
    eapply grow_silent; eauto. rewrite A. reflexivity.
  - (* it cannot conflict *)
    exfalso. pose proof (proj2 (R t)) as Rt. rewrite A in Rt. simpl in Rt. rewrite Wo in Rt. specialize (Rt eq_refl).
    destruct w as [u|]; [|congruence]. pose proof (proj1 (BW u) eq_refl) as B.
    assert (Lu : in_lock true (a u) = true) by (destruct (a u); simpl in *; congruence || discriminate B).
    apply W in Lu. rewrite X in Rt by congruence. destruct Rt.
  - (* the write ends *)
    split; simpl; auto; try (settle t A).
    eapply grow_now; eauto. apply write_effect; auto.
  - (* the read ends *)
    split; simpl; auto; try (settle t A).
    eapply grow_now; eauto. eexists. split; [apply read_effect; auto|auto].
  - (* Unlock *)
    split; simpl; auto; try (settle t A).
    eapply grow_silent; eauto. rewrite A. reflexivity.
  - (* RUnlock *)
    split; simpl; auto; try (settle t A).
    + intros Hw. rewrite X by auto. reflexivity.
    + eapply grow_silent; eauto. rewrite A. reflexivity.
  - (* return *)
    split; simpl; auto; try (settle t A).
    destruct Hh as (H & m & E & I & K & P). exists (H ++ [MRet t o (returns o x)]), m. split; [|split; [|split]]; auto.
    + rewrite flat_map_app, E. reflexivity.
    + eapply in_turn_app; [exact I|]. constructor. constructor.
    + intros u. specialize (P u). unfold upd. destruct (Nat.eq_dec u t).
      * subst. rewrite A in P. apply pr_ret. exact P.
      * apply pr_ret'; auto.
Qed.

Theorem runs_sound r h s : runs step (start r) h s -> sound (fun k => assoc k r) h s.
Proof. induction 1; [apply initially|eapply step_sound; eauto]. Qed.

(** Whoever is inside a call, somebody's next step is possible. *)
Theorem never_stuck r h s : runs step (start r) h s -> (exists t, ch_at s t <> Idle) ->
  exists e s', step s e s' /\ (forall t o, e <> [Inv t o]).
Proof.
  intros H (t & N). pose proof (runs_sound _ _ _ H) as [Ok W R X BW BR _]. destruct s as [m w rd l a c]. simpl in *. subst c.
  assert (G : forall t, (exists o, a t = Locked o) \/ (exists o, a t = Busy o) \/ (exists o x, a t = Done o x) \/ (exists o x, a t = Released o x) ->
            exists e s', step (Chain m w rd l a false) e s' /\ (forall t o, e <> [Inv t o])).
  { clear t N. intros t [(o & A)|[(o & A)|[(o & x & A)|(o & x & A)]]].
    - destruct (writes o) eqn:Wo.
      + destruct w as [u|]; [eexists _, _; split; [eapply s_crash_write; eauto; left; discriminate|discriminate]|].
        destruct rd as [|u rd]; [eexists _, _; split; [eapply s_begin_write; eauto|discriminate]|].
        eexists _, _; split; [eapply s_crash_write; eauto; right; discriminate|discriminate].
      + destruct w as [u|]; [eexists _, _; split; [eapply s_crash_read; eauto; discriminate|discriminate]|].
        eexists _, _; split; [eapply s_begin_read; eauto|discriminate].
    - destruct (writes o) eqn:Wo; eexists _, _; (split; [first [solve [eapply s_end_write; eauto]|solve [eapply s_end_read; eauto]]|discriminate]).
    - destruct (writes o) eqn:Wo; eexists _, _; (split; [first [solve [eapply s_unlock; eauto]|solve [eapply s_runlock; eauto]]|discriminate]).
    - eexists _, _; (split; [eapply s_return; eauto|discriminate]). }
  assert (L : forall w t, in_lock w (a t) = true -> (exists o, a t = Locked o) \/ (exists o, a t = Busy o) \/ (exists o x, a t = Done o x) \/ (exists o x, a t = Released o x)).
  { intros b u E. destruct (a u) eqn:Au; try discriminate E; eauto 8. }
  destruct (a t) eqn:A; [congruence| |apply (G t); eauto 8..].
  destruct l as [[u|] rs].
  - apply (G u), (L true), W. reflexivity.
  - destruct (writes o) eqn:Wo.
    + destruct rs as [|u rs].
      * eexists _, _; (split; [eapply s_lock; eauto|discriminate]).
      * apply (G u), (L false), R. left. reflexivity.
    + eexists _, _; (split; [eapply s_rlock; eauto|discriminate]).
Qed.
