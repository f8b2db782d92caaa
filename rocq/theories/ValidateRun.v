(** The theorems about validateRecursive, stated for Validate runs. *)
From Verif Require Export Run ValidateEq ValidateErrors ValidatePanic ValidateDen ValidateMisc.

Lemma returns_unique env h root o v r r' :
  returns env h root o v r -> returns env h root o v r' -> r = r'.
Proof.
  intros [k E] [k' E']. unfold validateDocument in *.
  pose proof (validateRecursive_stable env h k (max k k') o root v _ _ (Nat.le_max_l _ _) E ltac:(discriminate)) as A.
  pose proof (validateRecursive_stable env h k' (max k k') o root v _ _ (Nat.le_max_r _ _) E' ltac:(discriminate)) as B.
  congruence.
Qed.

Lemma returns_not_diverges env h root o v r : returns env h root o v r -> ~ diverges env h root o v.
Proof. intros [k E] H. rewrite H in E. discriminate. Qed.

Lemma returns_not_panics env h root o v r : returns env h root o v r -> ~ panics env h root o v.
Proof.
  intros [k E] [k' E']. unfold validateDocument in *.
  pose proof (validateRecursive_stable env h k (max k k') o root v _ _ (Nat.le_max_l _ _) E ltac:(discriminate)) as A.
  pose proof (validateRecursive_stable env h k' (max k k') o root v _ _ (Nat.le_max_r _ _) E' ltac:(discriminate)) as B.
  congruence.
Qed.

(** ** Iteration order and member order *)

Lemma Valid_perm r r' : Permutation (errors r) (errors r') -> Valid r = Valid r'.
Proof.
  intros H. apply Permutation_length in H. unfold Valid. destruct (errors r), (errors r'); simpl in H; auto; discriminate.
Qed.

Lemma errs_rel_Valid R r r' : errs_rel R (errors r) (errors r') -> Valid r = Valid r'.
Proof.
  intros (l1 & P & F). apply Permutation_length in P. apply Forall2_length in F. unfold Valid.
  destruct (errors r), (errors r'), l1; simpl in *; auto; discriminate.
Qed.

Lemma order_independent env h root v o1 o2 r1 : fair o1 -> fair o2 -> wf_value v ->
  returns env h root o1 v r1 ->
  exists r2, returns env h root o2 v r2 /\ Valid r1 = Valid r2 /\ Permutation (errors r1) (errors r2).
Proof.
  intros F1 F2 W [k E]. unfold validateDocument in E.
  destruct (validateRecursive_rel env h _ (same_value_rel env) k o1 o2 root v v _ F1 F2 (conj eq_refl W) r1 E)
    as (r2 & E2 & Hs & He).
  exists r2. split; [exists k; exact E2|]. split; [eapply errs_rel_Valid; eauto|].
  destruct He as (l1 & P & F). rewrite P. replace (errors r2) with l1; auto.
  clear - F. induction F as [|a b l l' (H1 & H2 & H3 & H4 & _) _ IH]; auto. f_equal; auto.
  destruct a, b; simpl in *; congruence.
Qed.

(** Same error up to the member order of the value it carries. *)
Definition same_error (R : value -> value -> Prop) (e e' : rerror) : Prop :=
  r_type e = r_type e' /\ r_ctx e = r_ctx e' /\ r_details e = r_details e' /\ R (r_value e) (r_value e').

Lemma member_order_irrelevant env h root v v' o1 o2 r1 :
  (forall f a b, veq a b -> e_is_format env f a = e_is_format env f b) ->
  fair o1 -> fair o2 -> wf_value v -> veq v v' ->
  returns env h root o1 v r1 ->
  exists r2, returns env h root o2 v' r2 /\ Valid r1 = Valid r2 /\
    exists l, Permutation (errors r1) l /\ Forall2 (same_error veq) l (errors r2).
Proof.
  intros Hf F1 F2 W Hv [k E]. unfold validateDocument in E.
  destruct (validateRecursive_rel env h _ (veq_value_rel env (fun f a b _ => Hf f a b)) k o1 o2 root v v' _ F1 F2 (conj W Hv) r1 E)
    as (r2 & E2 & Hs & He).
  exists r2. split; [exists k; exact E2|]. split; [eapply errs_rel_Valid; eauto|].
  destruct He as (l1 & P & F). exists l1. split; auto.
  clear - F. induction F as [|a b l l' (H1 & H2 & H3 & _ & H4) _ IH]; constructor; auto. repeat split; auto.
Qed.

Lemma yaml_like_json env h root v v' o1 o2 r1 :
  (forall f a b, yaml a b -> e_is_format env f a = e_is_format env f b) ->
  fair o1 -> fair o2 -> wf_value v -> yaml v v' ->
  returns env h root o1 v r1 ->
  exists r2, returns env h root o2 v' r2 /\ Valid r1 = Valid r2 /\
    exists l, Permutation (errors r1) l /\ Forall2 (same_error yaml) l (errors r2).
Proof.
  intros Hf F1 F2 W Hv [k E]. unfold validateDocument in E.
  destruct (validateRecursive_rel env h _ (yaml_value_rel env Hf) k o1 o2 root v v' _ F1 F2 (conj W Hv) r1 E)
    as (r2 & E2 & Hs & He).
  exists r2. split; [exists k; exact E2|]. split; [eapply errs_rel_Valid; eauto|].
  destruct He as (l1 & P & F). exists l1. split; auto.
  clear - F. induction F as [|a b l l' (H1 & H2 & H3 & _ & H4) _ IH]; constructor; auto. repeat split; auto.
Qed.

(** ** Termination *)

Lemma terminates env h root v o : fair o ->
  (forall a, reach h root a -> ~ chain h a a) ->
  (exists r, returns env h root o v r) \/ panics env h root o v.
Proof.
  intros F Hac.
  pose proof (validateRecursive_terminates env h root Hac o v [STRING_CONTEXT_ROOT] _ F (le_n _)) as H.
  destruct (validateRecursive env h _ o root v _) as [r| |] eqn:E.
  - left. exists r. eexists. exact E.
  - right. eexists. exact E.
  - exfalso. apply H. reflexivity.
Qed.

(** A way to check acyclicity by computation. *)
Fixpoint height_b (h : heap) (B : nat) (id : nat) : bool :=
  match B with
  | O => false
  | S b => match nth_error h id with
           | None => true
           | Some n => forallb (height_b h b) (same_instance n)
           end
  end.
Lemma height_b_height h : forall B id, height_b h B id = true -> height h B id.
Proof.
  induction B as [|B IH]; intros id; simpl; [discriminate|]. intros H id' (n & En & Hin).
  rewrite En in H. rewrite forallb_forall in H. auto.
Qed.
Lemma height_chain h : forall B a b, height h B a -> chain h a b -> exists B', S B' = B /\ height h B' b.
Proof.
  induction B as [|B IH]; intros a b Hh Hc; [destruct Hh|]. exists B. split; auto.
  destruct Hc as [a b He|a b c He Hc]; [apply Hh; auto|].
  destruct (IH b c (Hh b He) Hc) as (B' & <- & Hh'). eapply height_mono; [|exact Hh']. lia.
Qed.
Lemma height_acyclic h : forall B a, height h B a -> ~ chain h a a.
Proof.
  induction B as [|B IH]; intros a Hh Hc; [destruct Hh|].
  destruct (height_chain h _ _ _ Hh Hc) as (B' & E & Hh'). injection E as ->. eapply IH; eauto.
Qed.
Lemma heights_acyclic h B : forallb (height_b h B) (seq 0 (length h)) = true -> forall a, ~ chain h a a.
Proof.
  intros H a Hc. destruct (Nat.lt_ge_cases a (length h)) as [Hl|Hl].
  - rewrite forallb_forall in H. specialize (H a ltac:(apply in_seq; lia)).
    eapply height_acyclic; [|exact Hc]. apply height_b_height. exact H.
  - assert (forall b, ~ edge h a b).
    { intros b (n & En & _). apply nth_error_None in Hl. congruence. }
    inversion Hc; subst; eapply H0; eauto.
Qed.

(** ** Where errors point *)

Lemma errors_fine env h root v o r : fair o -> returns env h root o v r ->
  Forall (fine [STRING_CONTEXT_ROOT] v) (errors r).
Proof. intros F [k E]. eapply validateRecursive_fine; eauto. Qed.

(** ** Boolean schemas *)

Lemma true_schema env h root n o v : nth_error h root = Some n -> n_pass n = Some true ->
  returns env h root o v new_result.
Proof. intros En Hp. exists 1. unfold validateDocument. simpl. rewrite En. unfold validateNode. rewrite Hp. auto. Qed.
Lemma false_schema env h root n o v : nth_error h root = Some n -> n_pass n = Some false ->
  returns env h root o v (emit FalseError [STRING_CONTEXT_ROOT] v []).
Proof. intros En Hp. exists 1. unfold validateDocument. simpl. rewrite En. unfold validateNode. rewrite Hp. auto. Qed.
