(** formatErrorDescription called by many goroutines. *)
From Coq Require Import List Arith Lia.
From Verif Require ValidateBranch.
From Verif Require Import FormatProps ModelConc SpecConc ConcChain.
Open Scope string_scope.
Open Scope list_scope.

Section Templates.
  Variable tree data : Type.
  Variable t_parse : string -> string + tree.
  Variable t_exec : tree -> data -> string.
  Notation tat := (tat tree data).
  Notation temps := (temps tree data).
  Notation tstep := (tstep tree data t_parse t_exec).

  Notation right_text := (right_text tree data t_parse t_exec).

  Definition holds (w : bool) (x : tat) : bool :=
    match x with
    | TReading _ _ _ _ _ | TRead _ _ _ _ _ => negb w
    | TLocked _ _ _ _ | TAdding _ _ _ _ _ _ | TAdded _ _ _ _ _ _ | TParsed _ _ _ _ _ => w
    | _ => false
    end.
  Definition maps (w : bool) (x : tat) : bool :=
    match x with
    | TReading _ _ _ _ true => negb w
    | TAdding _ _ _ _ _ _ => w
    | _ => false
    end.
  Definition asks (x : tat) : option (string * data) :=
    match x with
    | TIdle _ _ => None
    | TCalled _ _ s d | TReading _ _ s d _ | TRead _ _ s d _ | TLooked _ _ s d _ | TLocked _ _ s d
    | TAdding _ _ s d _ _ | TAdded _ _ s d _ _ | TParsed _ _ s d _ | TReady _ _ s d _ | TGot _ _ s d _ => Some (s, d)
    end.
  Definition full (ob : list (string * option tree)) (s : string) (id : nat) : Prop :=
    exists tr, nth_error ob id = Some (s, Some tr) /\ t_parse s = inr tr.
  Definition fine (ob : list (string * option tree)) (x : tat) : Prop :=
    match x with
    | TRead _ _ s d (Some id) | TLooked _ _ s d (Some id) | TParsed _ _ s d (inr id) | TReady _ _ s d (inr id) => full ob s id
    | TParsed _ _ s d (inl e) | TReady _ _ s d (inl e) => t_parse s = inl e
    | TAdding _ _ s d id tr | TAdded _ _ s d id tr => nth_error ob id = Some (s, None) /\ t_parse s = inr tr
    | TGot _ _ s d y => right_text s d y
    | _ => True
    end.
  Record tsound (h : list (tevent data)) (s : temps) : Prop := {
    ts_ok : tm_crashed _ _ s = false;
    ts_w : forall t, rw_writer (tm_lock _ _ s) = Some t <-> holds true (tm_at _ _ s t) = true;
    ts_r : forall t, In t (rw_readers (tm_lock _ _ s)) <-> holds false (tm_at _ _ s t) = true;
    ts_x : rw_writer (tm_lock _ _ s) <> None -> rw_readers (tm_lock _ _ s) = [];
    ts_bw : forall t, tm_writing _ _ s = Some t <-> maps true (tm_at _ _ s t) = true;
    ts_br : forall t, In t (tm_reading _ _ s) <-> maps false (tm_at _ _ s t) = true;
    ts_c : forall n id, assoc n (tm_map _ _ s) = Some id ->
           full (tm_objs _ _ s) n id \/ exists t d tr, tm_at _ _ s t = TAdded _ _ n d id tr;
    ts_f : forall t, fine (tm_objs _ _ s) (tm_at _ _ s t);
    ts_h : forall t, answered right_text t h (asks (tm_at _ _ s t))
  }.

  Lemma tinitially : tsound [] (tstart tree data).
  Proof.
    split; simpl; intros; try solve [split; intros X; [discriminate X || destruct X|discriminate X] | congruence]; auto.
    constructor.
  Qed.

  Lemma nth_set_tree id tr l i : nth_error (set_tree tree id tr l) i =
    if Nat.eqb i id then option_map (fun o => (fst o, Some tr)) (nth_error l i) else nth_error l i.
  Proof.
    unfold set_tree.
    assert (G : forall l k i, nth_error (mapi (fun i (o : string * option tree) => if Nat.eqb i id then (fst o, Some tr) else o) k l) i =
                if Nat.eqb (k + i) id then option_map (fun o => (fst o, Some tr)) (nth_error l i) else nth_error l i).
    { clear. induction l as [|o l IH]; intros k i; destruct i; simpl; try (destruct (Nat.eqb _ _); reflexivity).
      - rewrite Nat.add_0_r. destruct (Nat.eqb k id); reflexivity.
      - rewrite IH, Nat.add_succ_comm. reflexivity. }
    apply (G l 0 i).
  Qed.
  Lemma full_more ob s id x : full ob s id -> full (ob ++ [x]) s id.
  Proof. intros (tr & E & P). exists tr. split; auto. rewrite nth_error_app1; auto. apply nth_error_Some. congruence. Qed.
  Lemma fine_more ob x y : fine ob y -> fine (ob ++ [x]) y.
  Proof.
    assert (N : forall id p, nth_error ob id = Some p -> nth_error (ob ++ [x]) id = Some p)
      by (intros id p E; rewrite nth_error_app1; [auto|apply nth_error_Some; congruence]).
    destruct y as [| | |? ? [?|]|? ? [?|]| | | |? ? [?|?]|? ? [?|?]|]; simpl; auto using full_more; intros []; auto.
  Qed.
  Lemma full_set ob s id id0 s0 tr0 : nth_error ob id0 = Some (s0, None) -> full ob s id -> full (set_tree tree id0 tr0 ob) s id.
  Proof.
    intros E0 (tr & E & P). exists tr. split; auto. rewrite nth_set_tree. destruct (Nat.eqb_spec id id0); auto. congruence.
  Qed.

  Lemma told t u (a : tid -> tat) x h : answered right_text u h (asks (a u)) -> asks (a t) = asks x ->
    answered right_text u (h ++ []) (asks (upd a t x u)).
  Proof. intros D E. rewrite app_nil_r. unfold upd. destruct (Nat.eq_dec u t); subst; [rewrite <- E|]; auto. Qed.

  Ltac tsettle t A := intros u; match goal with
    | W : forall x, _ <-> holds true _ = true, R : forall x, _ <-> holds false _ = true,
      BW : forall x, _ <-> maps true _ = true, BR : forall x, _ <-> maps false _ = true |- _ =>
      pose proof (W t); pose proof (BW t); specialize (W u); specialize (R u); specialize (BW u); specialize (BR u) end;
    unfold upd; destruct (Nat.eq_dec u t) as [->|]; simpl in *; rewrite ?A in *; simpl in *;
    rewrite ?leave_in in *; try solve [intuition congruence].
  Ltac quiet A := intros u; apply told; auto; rewrite A; reflexivity.
  Ltac mine t A := intros u; unfold upd; destruct (Nat.eq_dec u t) as [->|]; auto; simpl; auto.
  Ltac cached t A C :=
    let n := fresh "n" in let i := fresh "i" in let E := fresh "E" in let G := fresh "G" in
    let v := fresh "v" in let d' := fresh "d" in let tr' := fresh "tr" in let Av := fresh "Av" in
    intros n i E; destruct (C n i E) as [G|(v & d' & tr' & Av)];
    [left; exact G|right; exists v, d', tr'; unfold upd; destruct (Nat.eq_dec v t) as [->|]; [rewrite A in Av; discriminate Av|exact Av]].

  Theorem tstep_sound h s e s' : tsound h s -> tstep s e s' -> tsound (h ++ e) s'.
  Proof.
    intros [Ok W R X BW BR C F D] St.
    destruct St as [m ob w rd l a t s d A|m ob w rd l a t s d A|m ob rd l a t s d A|m ob w rd l a t s d A Cr|m ob w rd l a t s d A
      |m ob w rd l a t s d x A|m ob w rd l a t s d id A|m ob w rd a t s d A|m ob w rd l a t s d e A P|m ob l a t s d tr A P
      |m ob w rd l a t s d tr A P Cr|m ob w rd l a t s d id tr A|m ob w rd l a t s d id tr A|m ob w rd l a t s d y A
      |m ob w rd l a t s d e A|m ob w rd l a t s d id A|m ob w rd l a t s d y A]; simpl in *; pose proof (F t) as Ft; rewrite A in Ft; simpl in Ft.
    - (* call *)
      split; simpl; auto; try solve [tsettle t A|cached t A C|mine t A].
      intros u. specialize (D u). unfold upd. destruct (Nat.eq_dec u t); subst.
      + rewrite A in D. apply de_inv. exact D.
      + apply de_inv'; auto.
    - (* RLock *)
      split; simpl; auto; try solve [tsettle t A|cached t A C|mine t A|quiet A]; try congruence.
    - (* Lookup begins *)
      split; simpl; auto; try solve [tsettle t A|cached t A C|mine t A|quiet A].
    - (* no conflict *)
      exfalso. assert (Rt : In t (rw_readers l)) by (apply R; rewrite A; reflexivity).
      destruct w as [u|]; [|congruence]. pose proof (proj1 (BW u) eq_refl) as B.
      assert (Lu : holds true (a u) = true) by (destruct (a u) as [| |? ? []| | | | | | | |]; simpl in *; congruence).
      apply W in Lu. rewrite X in Rt by congruence. destruct Rt.
    - (* Lookup *)
      split; simpl; auto; try solve [tsettle t A|cached t A C|quiet A].
      intros u. unfold upd. destruct (Nat.eq_dec u t) as [->|]; auto. simpl. destruct (assoc s m) as [id|] eqn:E; simpl; auto.
      destruct (C _ _ E) as [|(u & d' & tr' & Au)]; auto. exfalso.
      assert (Lu : rw_writer l = Some u) by (apply W; rewrite Au; reflexivity).
      assert (Rt : In t (rw_readers l)) by (apply R; rewrite A; reflexivity).
      rewrite X in Rt by congruence. destruct Rt.
    - (* RUnlock *)
      split; simpl; auto; try solve [tsettle t A|cached t A C|mine t A|quiet A].
      intros Hw. rewrite X by auto. reflexivity.
    - (* found *)
      split; simpl; auto; try solve [tsettle t A|cached t A C|mine t A|quiet A].
    - (* Lock *)
      split; simpl; auto; try solve [tsettle t A|cached t A C|mine t A|quiet A].
    - (* Parse fails *)
      split; simpl; auto; try solve [tsettle t A|quiet A].
      + intros n id E. destruct (C n id E) as [G|(u & d' & tr' & Au)]; [left; auto using full_more|right].
        exists u, d', tr'. unfold upd. destruct (Nat.eq_dec u t); subst; auto. congruence.
      + intros u. unfold upd. destruct (Nat.eq_dec u t); subst; [exact P|apply fine_more; auto].
    - (* the template is being added *)
      split; simpl; auto; try solve [tsettle t A|quiet A].
      + intros n id E. destruct (C n id E) as [G|(u & d' & tr' & Au)]; [left; auto using full_more|right].
        exists u, d', tr'. unfold upd. destruct (Nat.eq_dec u t); subst; auto. congruence.
      + intros u. unfold upd. destruct (Nat.eq_dec u t); subst; [|apply fine_more; auto].
        simpl. split; auto. rewrite nth_error_app2, Nat.sub_diag by auto. reflexivity.
    - (* no conflict *)
      exfalso. assert (Wt : rw_writer l = Some t) by (apply W; rewrite A; reflexivity).
      destruct Cr as [Cr|Cr].
      + destruct w as [u|]; [|congruence]. pose proof (proj1 (BW u) eq_refl) as B.
        assert (Lu : holds true (a u) = true) by (destruct (a u) as [| |? ? []| | | | | | | |]; simpl in *; congruence).
        apply W in Lu. rewrite Wt in Lu. injection Lu as <-. rewrite A in B. discriminate B.
      + destruct rd as [|u rd]; [congruence|]. pose proof (proj1 (BR u) (or_introl eq_refl)) as B.
        assert (Lu : holds false (a u) = true) by (destruct (a u) as [| |? ? []| | | | | | | |]; simpl in *; congruence).
        apply R in Lu. rewrite X in Lu by congruence. destruct Lu.
    - (* it is in the map *)
      split; simpl; auto; try solve [tsettle t A|mine t A|quiet A].
      intros n i E. rewrite ValidateBranch.assoc_aset in E. destruct (String.eqb_spec n s) as [->|].
      + injection E as <-. right. exists t, d, tr. apply upd_same.
      + destruct (C n i E) as [G|(u & d' & tr' & Au)]; [left; auto|right].
        exists u, d', tr'. unfold upd. destruct (Nat.eq_dec u t); subst; auto. congruence.
    - (* and has its tree *)
      destruct Ft as (N & P).
      assert (Full : full (set_tree tree id tr ob) s id).
      { exists tr. split; auto. rewrite nth_set_tree, Nat.eqb_refl, N. reflexivity. }
      assert (Alone : forall u, u <> t -> holds true (a u) = false).
      { intros u Hu. destruct (holds true (a u)) eqn:Hh; auto. exfalso. apply W in Hh.
        assert (Wt : rw_writer l = Some t) by (apply W; rewrite A; reflexivity). congruence. }
      split; simpl; auto; try solve [tsettle t A|quiet A].
      + intros n i E. destruct (C n i E) as [G|(u & d' & tr' & Au)].
        * left. eapply full_set; eauto.
        * destruct (Nat.eq_dec u t) as [->|Hu].
          -- left. rewrite A in Au. injection Au as <- <- <- <-. exact Full.
          -- specialize (Alone u Hu). rewrite Au in Alone. discriminate Alone.
      + intros u. unfold upd. destruct (Nat.eq_dec u t) as [->|Hu]; [exact Full|].
        specialize (F u). specialize (Alone u Hu).
        destruct (a u) as [| | |? ? [?|]|? ? [?|]| | | |? ? [?|?]|? ? [?|?]|]; simpl in *; try discriminate Alone; eauto using full_set.
    - (* Unlock *)
      split; simpl; auto; try solve [tsettle t A|cached t A C|mine t A|quiet A].
    - (* the error of Parse *)
      split; simpl; auto; try solve [tsettle t A|cached t A C|quiet A].
      intros u. unfold upd. destruct (Nat.eq_dec u t) as [->|]; auto. simpl. unfold SpecConc.right_text. rewrite Ft. reflexivity.
    - (* Execute *)
      split; simpl; auto; try solve [tsettle t A|cached t A C|quiet A].
      intros u. unfold upd. destruct (Nat.eq_dec u t) as [->|]; auto. simpl. destruct Ft as (tr & N & P).
      unfold SpecConc.right_text, execute. rewrite P, N. reflexivity.
    - (* return *)
      split; simpl; auto; try solve [tsettle t A|cached t A C|mine t A].
      intros u. specialize (D u). unfold upd. destruct (Nat.eq_dec u t); subst.
      + rewrite A in D. apply de_ret; auto.
      + apply de_ret'; auto.
  Qed.

  Theorem truns_sound h s : runs tstep (tstart tree data) h s -> tsound h s.
  Proof. induction 1; [apply tinitially|eapply tstep_sound; eauto]. Qed.

  (** Whoever is inside a call, somebody's next step is possible. *)
  Theorem tnever_stuck h s : runs tstep (tstart tree data) h s -> (exists t, tm_at _ _ s t <> TIdle _ _) ->
    exists e s', tstep s e s' /\ (forall t x d, e <> [TInv data t x d]).
  Proof.
    intros H (t & N). pose proof (truns_sound _ _ H) as [Ok W R X BW BR _ _ _]. destruct s as [m ob w rd l a c]. simpl in *. subst c.
    assert (G : forall t, holds true (a t) = true \/ holds false (a t) = true ->
              exists e s', tstep (Temps _ _ m ob w rd l a false) e s' /\ (forall t x d, e <> [TInv data t x d])).
    { clear t N. intros t Hh. destruct (a t) as [|s d|s d [|]|s d x|s d x|s d|s d id tr|s d id tr|s d y|s d y|s d y] eqn:A;
        simpl in Hh; try (destruct Hh; discriminate).
      - eexists _, _; (split; [eapply t_end_read; eauto|discriminate]).
      - destruct w as [u|]; [eexists _, _; (split; [eapply t_crash_read; eauto; discriminate|discriminate])|].
        eexists _, _; (split; [eapply t_begin_read; eauto|discriminate]).
      - eexists _, _; (split; [eapply t_runlock; eauto|discriminate]).
      - destruct (t_parse s) as [e|tr] eqn:P; [eexists _, _; (split; [eapply t_bad; eauto|discriminate])|].
        destruct w as [u|]; [eexists _, _; (split; [eapply t_crash_add; eauto; left; discriminate|discriminate])|].
        destruct rd as [|u rd]; [|eexists _, _; (split; [eapply t_crash_add; eauto; right; discriminate|discriminate])].
        eexists _, _; (split; [eapply t_begin_add; eauto|discriminate]).
      - eexists _, _; (split; [eapply t_end_add; eauto|discriminate]).
      - eexists _, _; (split; [eapply t_tree; eauto|discriminate]).
      - eexists _, _; (split; [eapply t_unlock; eauto|discriminate]). }
    destruct (a t) as [|s d|s d b|s d x|s d [id|]|s d|s d id tr|s d id tr|s d y|s d [e|id]|s d y] eqn:A; [congruence| | | | | | | | | | | |];
      try solve [apply (G t); rewrite A; simpl; auto].
    - destruct l as [[u|] rs].
      + apply (G u). left. apply W. reflexivity.
      + eexists _, _; (split; [eapply t_rlock; eauto|discriminate]).
    - eexists _, _; (split; [eapply t_found; eauto|discriminate]).
    - destruct l as [[u|] [|v rs]].
      + apply (G u). left. apply W. reflexivity.
      + apply (G u). left. apply W. reflexivity.
      + eexists _, _; (split; [eapply t_lock; eauto|discriminate]).
      + apply (G v). right. apply R. left. reflexivity.
    - eexists _, _; (split; [eapply t_error; eauto|discriminate]).
    - eexists _, _; (split; [eapply t_execute; eauto|discriminate]).
    - eexists _, _; (split; [eapply t_return; eauto|discriminate]).
  Qed.
End Templates.

(** Every answer is that of some text. *)
Lemma answered_right {data} (right : string -> data -> string -> Prop) t h q : answered right t h q ->
  forall s d y, In (TRet data t s d y) h -> right s d y.
Proof.
  induction 1 as [|h s d A IH|h s d y A IH P|h u s d q N A IH|h u s d y q N A IH]; intros s' d' y' Hi;
    rewrite ?in_app_iff in Hi; simpl in Hi; try tauto.
  - destruct Hi as [Hi|[Hi|[]]]; [auto|discriminate Hi].
  - destruct Hi as [Hi|[Hi|[]]]; [auto|]. injection Hi as <- <- <-. exact P.
  - destruct Hi as [Hi|[Hi|[]]]; [auto|discriminate Hi].
  - destruct Hi as [Hi|[Hi|[]]]; [auto|]. injection Hi as ? ? ? ?. congruence.
Qed.
