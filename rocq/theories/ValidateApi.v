(** Lemmas behind the statements of PropValidate.v. *)
From Verif Require Export SpecErrors ValidateRun ValidateItems ValidateBranch.

Lemma in_assoc {A} k (x : A) m : NoDup (map fst m) -> In (k, x) m -> assoc k m = Some x.
Proof.
  induction m as [|[k' y] m IH]; simpl; [tauto|]. intros H [E|Hin].
  - injection E as -> ->. rewrite String.eqb_refl. auto.
  - inversion H as [|? ? Hn Hd]; subst. destruct (String.eqb_spec k k').
    + subst. exfalso. apply Hn. apply in_map_iff. exists (k', x). auto.
    + auto.
Qed.

Lemma sub_at_path v c w : decoded v -> sub_at [STRING_CONTEXT_ROOT] v c w ->
  decoded w /\ exists p, c = rev (STRING_CONTEXT_ROOT :: p) /\ at_path v p w.
Proof.
  intros Hd H. induction H as [|c' l i x H [IH (p & -> & Hp)] Hi|c' m k x H [IH (p & -> & Hp)] Hi|c' m w H [IH _] Hw].
  - split; auto. exists []. split; auto. constructor.
  - split.
    + apply decoded_arr in IH. rewrite Forall_forall in IH. apply IH. eapply nth_error_In; eauto.
    + exists (p ++ [itoa (Z.of_nat i)]). split; [simpl; rewrite rev_app_distr; reflexivity|].
      econstructor; eauto.
  - pose proof (proj1 (decoded_map m) IH) as [Hnd Hall]. split.
    + rewrite Forall_forall in Hall. apply (Hall (k, x) Hi).
    + exists (p ++ [k]). split; [simpl; rewrite rev_app_distr; reflexivity|].
      eapply at_member; eauto. apply in_assoc; auto.
  - destruct IH as (_ & Hp & _). discriminate.
Qed.

Lemma located_points v e : decoded v -> located [STRING_CONTEXT_ROOT] v e -> points_into v e.
Proof.
  intros Hd [H|[(Ht & m & k & H & Hin & Hdet)|(m & k & x & H & Hin & Hv)]].
  - destruct (sub_at_path v _ _ Hd H) as (_ & p & E & Hp). exists p. auto.
  - destruct (sub_at_path v _ _ Hd H) as (Hm & p & E & Hp).
    pose proof (proj1 (decoded_map m) Hm) as [Hnd _].
    exists p. split; auto. right; left. split; auto. exists m, k. split; auto. split; auto. apply in_assoc; auto.
  - destruct (sub_at_path v _ _ Hd H) as (Hm & p & E & Hp).
    pose proof (proj1 (decoded_map m) Hm) as [Hnd _].
    exists p. split; auto. right; right. exists m, k, x. split; auto. split; auto. apply in_assoc; auto.
Qed.

Lemma errors_point_into env h root o v r : fair o -> decoded v -> returns env h root o v r ->
  Forall (points_into v) (errors r).
Proof.
  intros F Hd Hr. eapply Forall_impl; [|eapply errors_fine; eauto].
  intros e (H & _). apply located_points; auto.
Qed.

(** The details documented for a type are among the placeholders of its message. *)
Definition details_of (t : etype) : list string :=
  flat_map (fun x => if String.eqb (snd (fst x)) (go_type t) then snd x else []) documented.
Lemma documented_type t : In (type_name t, go_type t, details_of t) documented.
Proof. destruct t; vm_compute; repeat first [left; reflexivity | right]. Qed.
Lemma documented_vars t d : In d (details_of t) -> In d (tvars (default_format t)).
Proof. destruct t; vm_compute; intuition. Qed.
Lemma type_name_injective t t' : type_name t = type_name t' -> t = t'.
Proof. destruct t, t'; vm_compute; intros H; discriminate H || reflexivity. Qed.

Lemma errors_documented env h root o v r : fair o -> returns env h root o v r ->
  Forall documented_error (errors r).
Proof.
  intros F Hr. eapply Forall_impl; [|eapply errors_fine; eauto].
  intros e (_ & (H1 & H2 & H3) & _). split; [|auto].
  exists (details_of (r_type e)). split; [apply documented_type|].
  intros d Hin. apply H3, documented_vars, Hin.
Qed.

Lemma errors_not_internal env h root o v r : fair o -> returns env h root o v r ->
  Forall (fun e => r_type e <> InternalError) (errors r).
Proof.
  intros F Hr. eapply Forall_impl; [|eapply errors_fine; eauto]. intros e (_ & _ & H). exact H.
Qed.

(** ** Parts of the result of a node *)

Lemma run_all_part l r x : run_all l = Ok r -> In x l ->
  exists rx pre post, x = Ok rx /\ errors r = pre ++ errors rx ++ post.
Proof.
  intros E Hin. destruct (run_all_inv l r E) as (rs & -> & He).
  apply in_map_iff in Hin. destruct Hin as (rx & <- & Hin). apply in_split in Hin. destruct Hin as (l1 & l2 & ->).
  exists rx, (concat (map errors l1)), (concat (map errors l2)). split; auto.
  rewrite He, map_app, concat_app. reflexivity.
Qed.

(** ** Keywords that do not apply to a type *)

Definition plain_value (v : value) : Prop :=
  match v with VFloat _ | VIMap _ => False | _ => True end.

Lemma run_all_quiet l : Forall (fun x => exists r, x = Ok r /\ errors r = []) l ->
  exists r, run_all l = Ok r /\ errors r = [].
Proof.
  induction 1 as [|x l (r & -> & Hr) _ (r' & E & Hr')]; [exists new_result; auto|].
  simpl. rewrite E. simpl. eexists. split; [reflexivity|]. simpl. rewrite Hr, Hr'. auto.
Qed.

Lemma empty_member env h rec o p c e : fair o -> exists r, v_member env h rec o (empty_node p) c e = Ok r /\ errors r = [].
Proof.
  intros F. destruct e as [k x]. unfold v_member, validatePatternProperty.
  cbn [described n_props n_patternProperties n_additionalProperties empty_node obind].
  assert (E : forall o', fair o' -> pick o' (@nil (string * nat)) = []).
  { intros o' F'. apply Permutation_nil. unfold pick. apply F'. }
  rewrite E by auto using shift_fair. simpl. eexists. split; reflexivity.
Qed.

Lemma empty_accepts env h rec o p v c : fair o -> plain_value v ->
  exists r, validateNode env h rec o (empty_node p) v c = Ok r /\ errors r = [].
Proof.
  intros F Hp. destruct v; try destruct Hp; try (eexists; split; reflexivity).
  unfold validateNode. cbn [n_pass n_ref n_types empty_node]. simpl IsTyped. cbn [andb]. unfold object_checks.
  apply run_all_quiet. repeat constructor; try (eexists; split; reflexivity).
  unfold validateObject. apply run_all_quiet. repeat constructor; try (eexists; split; reflexivity).
  unfold v_members. apply run_all_quiet. apply Forall_forall. intros x Hx.
  apply In_nth_error in Hx. destruct Hx as (i & Hx). rewrite mapi_nth in Hx.
  destruct (nth_error _ i); [|discriminate]. injection Hx as <-. apply empty_member. auto using shift_fair.
Qed.

Lemma only_accepts env h root o n p v : fair o -> plain_value v -> nth_error h root = Some n ->
  validateNode env h (validateRecursive env h 0) o n v [STRING_CONTEXT_ROOT] =
  validateNode env h (validateRecursive env h 0) o (empty_node p) v [STRING_CONTEXT_ROOT] ->
  exists r, returns env h root o v r /\ errors r = [].
Proof.
  intros F Hp En E. destruct (empty_accepts env h (validateRecursive env h 0) o p v [STRING_CONTEXT_ROOT] F Hp) as (r & Er & He).
  exists r. split; auto. exists 1. unfold validateDocument. simpl. rewrite En, <- Er. exact E.
Qed.

Lemma only_numeric_accepts env h root o v p mo mx xmx mn xmn : fair o -> ~ is_num v -> plain_value v ->
  nth_error h root = Some (with_numeric (empty_node p) mo mx xmx mn xmn) ->
  exists r, returns env h root o v r /\ errors r = [].
Proof. intros F Hv Hp En. eapply only_accepts; eauto. apply numeric_isolated. exact Hv. Qed.
Lemma only_string_accepts env h root o v p mn mx pt : fair o -> ~ is_str v -> plain_value v ->
  nth_error h root = Some (with_string (empty_node p) mn mx pt) ->
  exists r, returns env h root o v r /\ errors r = [].
Proof. intros F Hv Hp En. eapply only_accepts; eauto. apply string_isolated. exact Hv. Qed.
Lemma only_array_accepts env h root o v p it si mn mx u ct ai : fair o -> ~ is_arr v -> plain_value v ->
  nth_error h root = Some (with_array (empty_node p) it si mn mx u ct ai) ->
  exists r, returns env h root o v r /\ errors r = [].
Proof. intros F Hv Hp En. eapply only_accepts; eauto. apply array_isolated. exact Hv. Qed.
Lemma only_object_accepts env h root o v p pr mn mx rq dp ap pp pn : fair o -> ~ is_obj v -> plain_value v ->
  (forall s, v = VNum s -> rat_of (e_ratlim env) s <> None) ->
  nth_error h root = Some (with_object (empty_node p) pr mn mx rq dp ap pp pn) ->
  exists r, returns env h root o v r /\ errors r = [].
Proof. intros F Hv Hp Hr En. eapply only_accepts; eauto. apply object_isolated; auto. Qed.

(** ** anyOf, oneOf, not as seen in the result of a node *)

Lemma first_valid_ok l : forall b p, first_valid b l = Ok p ->
  if fst p then exists i r, nth_error l i = Some (Ok r) /\ Valid r = true
  else exists rs, l = map Ok rs /\ Forall (fun r => Valid r = false) rs.
Proof.
  induction l as [|x l IH]; intros b p E; simpl in E.
  - injection E as <-. simpl. exists []. auto.
  - destruct x as [r| |]; simpl in E; try discriminate. destruct (Valid r) eqn:Hr.
    + injection E as <-. simpl. exists 0, r. auto.
    + specialize (IH _ _ E). destruct (fst p).
      * destruct IH as (i & r' & H & Hv). exists (S i), r'. auto.
      * destruct IH as (rs & -> & H). exists (r :: rs). auto.
Qed.

Lemma count_valid_ok l : forall n b p, count_valid n b l = Ok p -> exists rs, l = map Ok rs.
Proof.
  induction l as [|x l IH]; intros n b p E; simpl in E; [exists []; auto|].
  destruct x as [r| |]; simpl in E; try discriminate.
  destruct (Valid r); destruct (IH _ _ _ E) as (rs & ->); exists (r :: rs); auto.
Qed.

Lemma valid_count_0 rs : valid_count rs = 0 -> Forall (fun r => Valid r = false) rs.
Proof.
  induction rs as [|r rs IH]; simpl; [constructor|]. destruct (Valid r) eqn:E; [discriminate|]. auto.
Qed.

Section Parts.
  Variable rec : oracle -> nat -> value -> ctx -> out result.

  Lemma anyOf_parts o n v c r : n_anyOf n <> [] -> v_anyOf rec o n v c = Ok r ->
    (errors r = [] /\ exists i id ri, nth_error (n_anyOf n) i = Some id /\
        rec (shift o i) id v c = Ok ri /\ Valid ri = true) \/
    (exists rs b, branch_results rec o v c (n_anyOf n) rs /\ Forall (fun x => Valid x = false) rs /\
        closest rs b /\ errors r = newError NumberAnyOfError c v [] :: errors b).
  Proof.
    intros Hn E. pose proof E as E0. unfold v_anyOf in E. destruct (n_anyOf n) as [|i0 l0] eqn:En; [congruence|].
    destruct (first_valid _ _) as [p| |] eqn:Ef; simpl in E; try discriminate.
    pose proof (first_valid_ok _ _ _ Ef) as Hf. destruct (fst p) eqn:Hp.
    - injection E as <-. left. split; auto. destruct Hf as (i & ri & Hi & Hv).
      change (nth_error (mapi (fun i id => rec (shift o i) id v c) 0 (i0 :: l0)) i = Some (Ok ri)) in Hi.
      rewrite mapi_nth in Hi. destruct (nth_error (i0 :: l0) i) as [id|] eqn:Eid; [|discriminate].
      injection Hi as Hi. exists i, id, ri. auto.
    - right. destruct Hf as (rs & Hrs & Hi).
      destruct (anyOf_none rec o n v c rs) as (b & Hb & Er); auto; [congruence|rewrite En; exact Hrs|].
      exists rs, b. repeat split; auto. rewrite Er in E0. injection E0 as <-. reflexivity.
  Qed.

  Lemma oneOf_parts o n v c r : n_oneOf n <> [] -> v_oneOf rec o n v c = Ok r ->
    exists rs, branch_results rec o v c (n_oneOf n) rs /\
      (valid_count rs = 1 -> errors r = []) /\
      (2 <= valid_count rs -> errors r = [newError NumberOneOfError c v []]) /\
      (valid_count rs = 0 -> exists b, closest rs b /\ errors r = newError NumberOneOfError c v [] :: errors b).
  Proof.
    intros Hn E. pose proof E as E0. unfold v_oneOf in E. destruct (n_oneOf n) as [|i0 l0] eqn:En; [congruence|].
    destruct (count_valid _ _ _) as [p| |] eqn:Ef; simpl in E; try discriminate.
    destruct (count_valid_ok _ _ _ _ Ef) as (rs & Hrs). exists rs. rewrite <- En in *.
    assert (Hb : branch_results rec o v c (n_oneOf n) rs) by (exact Hrs).
    split; auto. split; [|split]; intros Hc.
    - rewrite (oneOf_one rec o n v c rs Hb Hc) in E0. injection E0 as <-. reflexivity.
    - rewrite (oneOf_many rec o n v c rs Hb Hn Hc) in E0. injection E0 as <-. reflexivity.
    - destruct (oneOf_none rec o n v c rs Hn Hb (valid_count_0 rs Hc)) as (b & Hcl & Er).
      exists b. split; auto. rewrite Er in E0. injection E0 as <-. reflexivity.
  Qed.

  Lemma not_parts o n v c r id : n_not n = Some id -> v_not rec o n v c = Ok r ->
    exists ri, rec o id v c = Ok ri /\
      errors r = if Valid ri then [newError NumberNotError c v []] else [].
  Proof.
    intros Hn E. unfold v_not in E. rewrite Hn in E. destruct (rec o id v c) as [ri| |]; simpl in E; try discriminate.
    exists ri. split; auto. destruct (Valid ri); simpl in E; injection E as <-; reflexivity.
  Qed.

  Lemma if_parts o n v c r id : n_if n = Some id -> v_if rec o n v c = Ok r ->
    exists ri, rec (shift o 0) id v c = Ok ri /\
      if Valid ri then
        match n_then n with
        | None => errors r = []
        | Some t => exists rt, rec (shift o 1) t v c = Ok rt /\
            errors r = if Valid rt then [] else newError ConditionThenError c v [] :: errors rt
        end
      else
        match n_else n with
        | None => errors r = []
        | Some t => exists rt, rec (shift o 2) t v c = Ok rt /\
            errors r = if Valid rt then [] else newError ConditionElseError c v [] :: errors rt
        end.
  Proof.
    intros Hn E. unfold v_if in E. rewrite Hn in E. destruct (rec (shift o 0) id v c) as [ri| |]; simpl in E; try discriminate.
    exists ri. split; auto. destruct (Valid ri); simpl in E.
    - destruct (n_then n) as [t|].
      + destruct (rec (shift o 1) t v c) as [rt| |]; simpl in E; try discriminate. exists rt. split; auto.
        destruct (Valid rt); simpl in E; destruct (n_else n); simpl in E; injection E as <-; simpl; rewrite ?app_nil_r; reflexivity.
      + destruct (n_else n); simpl in E; injection E as <-; reflexivity.
    - destruct (n_else n) as [t|].
      + destruct (rec (shift o 2) t v c) as [rt| |]; destruct (n_then n); simpl in E; try discriminate;
        exists rt; (split; [reflexivity|]);
        destruct (Valid rt); simpl in E; injection E as <-; simpl; rewrite ?app_nil_r; reflexivity.
      + destruct (n_then n); simpl in E; injection E as <-; reflexivity.
  Qed.

End Parts.

(** [sub id r]: checking v by cell id can end with r. *)
Definition sub env h (v : value) (c : ctx) (id : nat) (r : result) : Prop :=
  exists k o, fair o /\ validateRecursive env h k o id v c = Ok r.

Lemma branch_sub env h k o v c ids rs : fair o ->
  branch_results (validateRecursive env h k) o v c ids rs -> Forall2 (sub env h v c) ids rs.
Proof.
  unfold branch_results. generalize 0. revert rs. induction ids as [|id ids IH]; intros [|r rs] i F E; simpl in E; try discriminate; constructor.
  - injection E as E _. exists k, (shift o i). auto using shift_fair.
  - injection E as _ E. eapply IH; eauto.
Qed.
