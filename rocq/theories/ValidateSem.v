(** What one compiled schema node demands of a value, as a proposition, and the
    proof that validateNode reports no error exactly when it holds. *)
From Verif Require Export ValidateOrder Calls.

(** [V id v]: "v satisfies the schema stored at heap cell id". *)
Section Sem.
  Variable env : goenv.
  Variable h : heap.
  Variable V : nat -> value -> Prop.

  Definition type_of_value (v : value) (t : string) : Prop :=
    match v with
    | VNil => t = TYPE_NULL
    | VBool _ => t = TYPE_BOOLEAN
    | VNum s => t = TYPE_NUMBER \/ (t = TYPE_INTEGER /\ checkJSONInteger (e_ratlim env) s = true)
    | VStr _ => t = TYPE_STRING
    | VArr _ => t = TYPE_ARRAY
    | VMap _ => t = TYPE_OBJECT
    | VFloat _ | VIMap _ => False
    end.

  Definition types_sem (n : node) (v : value) : Prop :=
    n_types n = [] \/ Exists (type_of_value v) (n_types n).

  (** Exactly one position of the list satisfies P. *)
  Definition one_of (P : nat -> Prop) (l : list nat) : Prop :=
    exists l1 x l2, l = l1 ++ x :: l2 /\ P x /\ Forall (fun y => ~ P y) l1 /\ Forall (fun y => ~ P y) l2.

  Definition dep_sem (n : node) (v : value) (m : list (string * value)) (k : string) : Prop :=
    match assoc k (n_dependencies n) with
    | None => True
    | Some (DepKeys ks) => Forall (fun k' => assoc k' m <> None) ks
    | Some (DepSchema id) => V id v
    end.

  Definition comb_sem (n : node) (v : value) : Prop :=
    (n_anyOf n = [] \/ Exists (fun id => V id v) (n_anyOf n)) /\
    (n_oneOf n = [] \/ one_of (fun id => V id v) (n_oneOf n)) /\
    Forall (fun id => V id v) (n_allOf n) /\
    match n_not n with Some id => ~ V id v | None => True end /\
    match v with VMap m => Forall (fun e => dep_sem n v m (fst e)) m | _ => True end /\
    match n_if n with
    | None => True
    | Some i =>
        match n_then n with Some t => V i v -> V t v | None => True end /\
        match n_else n with Some e => ~ V i v -> V e v | None => True end
    end.

  Definition common_sem (n : node) (v : value) : Prop :=
    match n_const n with Some k => marshalWithoutNumber v = Some k | None => True end /\
    (n_enum n = [] \/ Exists (fun k => marshalWithoutNumber v = Some k) (n_enum n)) /\
    (n_format n = "" \/ e_is_format env (n_format n) v = true).

  Definition num_sem (n : node) (s : string) : Prop :=
    let val (P : Q -> Prop) := exists q, rat_of (e_ratlim env) s = Some q /\ P q in
    match n_multipleOf n with Some m => val (fun q => exists k : Z, (q == inject_Z k * m)%Q) | None => True end /\
    match n_maximum n with Some b => val (fun q => q <= b)%Q | None => True end /\
    match n_exclusiveMaximum n with Some b => val (fun q => q < b)%Q | None => True end /\
    match n_minimum n with Some b => val (fun q => b <= q)%Q | None => True end /\
    match n_exclusiveMinimum n with Some b => val (fun q => b < q)%Q | None => True end.

  Definition str_sem (n : node) (s : string) : Prop :=
    match n_minLength n with Some k => (k <= rune_count s)%Z | None => True end /\
    match n_maxLength n with Some k => (rune_count s <= k)%Z | None => True end /\
    match n_pattern n with Some p => e_re_match env p s = true | None => True end.

  Definition items_sem (n : node) (l : list value) : Prop :=
    if n_items_single n then
      match n_items n with id :: _ => Forall (V id) l | [] => l = [] end
    else
      match n_items n with
      | [] => True
      | ids =>
          (forall i id x, nth_error ids i = Some id -> nth_error l i = Some x -> V id x) /\
          match n_additionalItems n with
          | Some (AddlBool false) => length l <= length ids
          | Some (AddlSchema id) => Forall (V id) (skipn (length ids) l)
          | _ => True
          end
      end.

  Definition arr_sem (n : node) (l : list value) : Prop :=
    items_sem n l /\
    match n_minItems n with Some k => (k <= Z.of_nat (length l))%Z | None => True end /\
    match n_maxItems n with Some k => (Z.of_nat (length l) <= k)%Z | None => True end /\
    (n_uniqueItems n = true -> NoDup (map marshalWithoutNumber l)) /\
    match n_contains n with Some id => Exists (V id) l | None => True end.

  (** Name of the property a child of "properties" stands for. *)
  Definition name_of (id : nat) (p : string) : Prop :=
    exists c, nth_error h id = Some c /\ n_property c = p.

  Definition member_sem (n : node) (k : string) (x : value) : Prop :=
    Forall (fun e => re_matches env (fst e) k = true -> V (snd e) x) (n_patternProperties n) /\
    (Forall (fun id => ~ name_of id k) (n_props n) ->
     Forall (fun e => re_matches env (fst e) k = false) (n_patternProperties n) ->
     match n_additionalProperties n with
     | Some (AddlBool false) => False
     | Some (AddlSchema id) => V id x
     | _ => True
     end).

  Definition obj_sem (n : node) (m : list (string * value)) : Prop :=
    match n_minProperties n with Some k => (k <= Z.of_nat (length m))%Z | None => True end /\
    match n_maxProperties n with Some k => (Z.of_nat (length m) <= k)%Z | None => True end /\
    Forall (fun k => assoc k m <> None) (n_required n) /\
    Forall (fun e => member_sem n (fst e) (snd e)) m /\
    match n_propertyNames n with Some id => Forall (fun e => V id (VStr (fst e))) m | None => True end /\
    Forall (fun id => forall p x, name_of id p -> assoc p m = Some x -> V id x) (n_props n).

  Definition specific_sem (n : node) (v : value) : Prop :=
    match v with
    | VNum s => num_sem n s
    | VStr s => str_sem n s
    | VArr l => arr_sem n l
    | VMap m => obj_sem n m
    | _ => True
    end.

  Definition node_sem (n : node) (v : value) : Prop :=
    match n_pass n with
    | Some b => b = true
    | None =>
        match n_ref n with
        | Some id => V id v
        | None => types_sem n v /\ comb_sem n v /\ common_sem n v /\ specific_sem n v
        end
    end.
End Sem.

(** A value the JSON decoder can produce: no float64 and no YAML map. *)
Fixpoint plain (v : value) : bool :=
  match v with
  | VFloat _ | VIMap _ => false
  | VArr l => forallb plain l
  | VMap m => forallb (fun e => plain (snd e)) m
  | _ => true
  end.

(** ** Verdicts of pieces *)

Definition vd (x : out result) (P : Prop) : Prop := forall r, x = Ok r -> (errors r = [] <-> P).

Lemma vd_iff x P Q : (P <-> Q) -> vd x P -> vd x Q.
Proof. intros H Hx r E. rewrite (Hx r E). auto. Qed.
Lemma vd_new : vd (Ok new_result) True.
Proof. intros r [= <-]. simpl. tauto. Qed.
Lemma vd_inc : vd (Ok inc) True.
Proof. intros r [= <-]. simpl. tauto. Qed.
Lemma vd_emit t c v d : vd (Ok (emit t c v d)) False.
Proof. intros r [= <-]. simpl. split; [discriminate|tauto]. Qed.
Lemma vd_panic P : vd Panic P.
Proof. intros r; discriminate. Qed.
Lemma vd_ok r P : (errors r = [] <-> P) -> vd (Ok r) P.
Proof. intros H r' [= <-]. auto. Qed.
Lemma vd_nil : vd (run_all []) True.
Proof. apply vd_new. Qed.
Lemma radd_nil a b : errors (radd a b) = [] <-> errors a = [] /\ errors b = [].
Proof.
  simpl. split; [apply app_eq_nil|]. intros [-> ->]. auto.
Qed.
Lemma vd_cons x l P Q : vd x P -> vd (run_all l) Q -> vd (run_all (x :: l)) (P /\ Q).
Proof.
  intros Hx Hl r E. simpl in E. destruct x as [a| |]; simpl in E; try discriminate.
  destruct (run_all l) as [b| |]; simpl in E; try discriminate. injection E as <-.
  rewrite radd_nil, (Hx a eq_refl), (Hl b eq_refl). tauto.
Qed.
Lemma vd_emit_cons t c v d l : vd (run_all (Ok (emit t c v d) :: l)) False.
Proof.
  intros r E. simpl in E. destruct (run_all l); simpl in E; try discriminate. injection E as <-.
  simpl. split; [discriminate|tauto].
Qed.
Lemma vd_when (b : bool) x P : vd x P -> vd (when b x) (b = true -> P).
Proof.
  intros Hx. destruct b; simpl; [eapply vd_iff; [|eauto]; tauto|].
  eapply vd_iff; [|apply vd_new]. split; [discriminate|tauto].
Qed.
Lemma vd_bind {A} (x : out A) (f : A -> out result) P :
  (forall a, x = Ok a -> vd (f a) P) -> vd (obind x f) P.
Proof. intros H r E. destruct x as [a| |]; simpl in E; try discriminate. exact (H a eq_refl r E). Qed.

Lemma vd_mapi {A} (f : nat -> A -> out result) (P : A -> Prop) l :
  (forall i a, In a l -> vd (f i a) (P a)) -> forall i, vd (run_all (mapi f i l)) (Forall P l).
Proof.
  induction l as [|a l IH]; intros H i; simpl mapi.
  - eapply vd_iff; [|apply vd_nil]. split; auto.
  - eapply vd_iff; [|apply vd_cons; [apply H; left; auto|apply IH; intros; apply H; right; auto]].
    rewrite Forall_cons_iff. tauto.
Qed.

Lemma vd_map {A} (f : A -> out result) (P : A -> Prop) l :
  (forall a, In a l -> vd (f a) (P a)) -> vd (run_all (map f l)) (Forall P l).
Proof.
  induction l as [|a l IH]; intros H; simpl map.
  - eapply vd_iff; [|apply vd_nil]. split; auto.
  - eapply vd_iff; [|apply vd_cons; [apply H; left; auto|apply IH; intros; apply H; right; auto]].
    rewrite Forall_cons_iff. tauto.
Qed.

Lemma Valid_errors r : Valid r = true <-> errors r = [].
Proof. unfold Valid. destruct (errors r); split; auto; discriminate. Qed.
Lemma Valid_false r : Valid r = false <-> errors r <> [].
Proof. unfold Valid. destruct (errors r); split; auto; try discriminate. tauto. Qed.

(** ** The loops over branches *)

Lemma first_valid_sem {A} (f : nat -> A -> out result) (P : A -> Prop) l :
  (forall i a, In a l -> vd (f i a) (P a)) -> forall i b p,
  first_valid b (mapi f i l) = Ok p ->
  (fst p = true <-> Exists P l) /\
  (fst p = false -> b <> None -> snd p <> None) /\
  (fst p = false -> l <> [] -> exists r, snd p = Some r).
Proof.
  induction l as [|a l IH]; intros H i b p; simpl.
  - intros [= <-]. simpl. repeat split; auto; try discriminate; try tauto. inversion 1.
  - destruct (f i a) as [r| |] eqn:Ef; simpl; try discriminate.
    destruct (Valid r) eqn:Ev.
    + intros [= <-]. simpl. repeat split; try discriminate; auto.
      intros _. left. apply (H i a (or_introl eq_refl) r Ef). apply Valid_errors; auto.
    + intros E. specialize (IH (fun i a Hin => H i a (or_intror Hin)) _ _ _ E) as (I1 & I2 & I3).
      assert (Hn : ~ P a).
      { rewrite <- (H i a (or_introl eq_refl) r Ef). apply Valid_false; auto. }
      assert (Hb : fst p = false -> snd p <> None).
      { intros Hf. apply I2; auto. destruct b; [destruct (_ <? _)%Z|]; discriminate. }
      repeat split.
      * intros Hf. right. apply I1; auto.
      * intros Hf. inversion Hf; subst; [tauto|]. apply I1; auto.
      * intros Hf _. auto.
      * intros Hf _. destruct (snd p) eqn:Es; eauto. exfalso. apply Hb; auto.
Qed.

Lemma count_valid_sem {A} (f : nat -> A -> out result) (P : A -> Prop) l :
  (forall i a, In a l -> vd (f i a) (P a)) -> forall i n b p,
  count_valid n b (mapi f i l) = Ok p ->
  exists k, fst p = n + k /\
    (k = 0 <-> Forall (fun a => ~ P a) l) /\
    (k = 1 <-> exists l1 x l2, l = l1 ++ x :: l2 /\ P x /\
        Forall (fun y => ~ P y) l1 /\ Forall (fun y => ~ P y) l2).
Proof.
  induction l as [|a l IH]; intros H i n b p; simpl.
  - intros [= <-]. exists 0. simpl. split; [lia|]. split; [split; auto|].
    split; [discriminate|]. intros (l1 & x & l2 & E & _). destruct l1; discriminate.
  - destruct (f i a) as [r| |] eqn:Ef; simpl; try discriminate.
    pose proof (H i a (or_introl eq_refl) r Ef) as Ha.
    destruct (Valid r) eqn:Ev; intros E;
      destruct (IH (fun i a Hin => H i a (or_intror Hin)) _ _ _ _ E) as (k & K1 & K2 & K3).
    + apply Valid_errors in Ev. rewrite Ha in Ev. exists (S k). split; [lia|]. split.
      * split; [discriminate|]. inversion 1; tauto.
      * split.
        -- intros Hk. injection Hk as Hk. apply K2 in Hk. exists [], a, l. simpl. auto.
        -- intros (l1 & x & l2 & El & Hx & F1 & F2). f_equal. apply K2.
           destruct l1 as [|y l1]; simpl in El; injection El as -> ->; auto.
           inversion F1; tauto.
    + apply Valid_false in Ev. rewrite Ha in Ev. exists k. split; [lia|]. split.
      * rewrite K2. rewrite Forall_cons_iff. tauto.
      * rewrite K3. split.
        -- intros (l1 & x & l2 & -> & Hx & F1 & F2). exists (a :: l1), x, l2. simpl. auto.
        -- intros (l1 & x & l2 & El & Hx & F1 & F2).
           destruct l1 as [|y l1]; simpl in El; injection El as -> ->; [tauto|].
           inversion F1; subst. exists l1, x, l2. auto.
Qed.

Lemma merge_all_sem {A} (f : nat -> A -> out result) (P : A -> Prop) l :
  (forall i a, In a l -> vd (f i a) (P a)) -> forall i p,
  merge_all (mapi f i l) = Ok p ->
  (errors (snd p) = [] <-> Forall P l) /\ fst p <= length l /\ (fst p = length l <-> Forall P l).
Proof.
  induction l as [|a l IH]; intros H i p; simpl.
  - intros [= <-]. simpl. repeat split; auto.
  - destruct (f i a) as [r| |] eqn:Ef; simpl; try discriminate.
    destruct (merge_all (mapi f (S i) l)) as [q| |] eqn:Eq; simpl; try discriminate.
    intros [= <-]. simpl fst; simpl snd.
    destruct (IH (fun i a Hin => H i a (or_intror Hin)) _ _ Eq) as (I1 & I2 & I3).
    pose proof (H i a (or_introl eq_refl) r Ef) as Ha. rewrite Forall_cons_iff, radd_nil, I1, Ha.
    split; [tauto|]. destruct (Valid r) eqn:Ev.
    + apply Valid_errors in Ev. rewrite Ha in Ev. split; [lia|]. rewrite <- I3. split; [split; [auto|lia]|lia].
    + apply Valid_false in Ev. rewrite Ha in Ev. split; [lia|]. split; [lia|tauto].
Qed.

Lemma in_slice l x : isStringInSlice l x = true <-> In x l.
Proof.
  induction l as [|y l IH]; simpl.
  - split; [discriminate|tauto].
  - destruct (String.eqb_spec y x); [subst; tauto|]. rewrite IH. intuition congruence.
Qed.

Lemma Forall_perm {A} (P : A -> Prop) l l' : Permutation l l' -> Forall P l' <-> Forall P l.
Proof.
  intros HP. split; intros H; [exact (Permutation_Forall (Permutation_sym HP) H)|exact (Permutation_Forall HP H)].
Qed.

(** ** Numbers *)

Lemma Qred_int k : Qden (Qred (inject_Z k)) = 1%positive.
Proof.
  unfold Qred, inject_Z. generalize (Z.ggcd_gcd k 1) (Z.ggcd_correct_divisors k 1).
  destruct (Z.ggcd k 1) as [g [a b]]. cbn [fst]. rewrite Z.gcd_1_r. intros -> [H1 H2].
  rewrite Z.mul_1_l in H2. subst b. reflexivity.
Qed.

Lemma Qdiv_int q m : (~ m == 0)%Q -> (rat_is_int (q / m) = true <-> exists k : Z, (q == inject_Z k * m)%Q).
Proof.
  intros Hm. unfold rat_is_int. rewrite Pos.eqb_eq. split.
  - intros E. exists (Qnum (Qred (q / m))).
    assert (H : (Qred (q / m) == q / m)%Q) by apply Qred_correct.
    assert (H2 : (Qred (q / m) == inject_Z (Qnum (Qred (q / m))))%Q).
    { destruct (Qred (q / m)) as [a b]. simpl in *. subst. reflexivity. }
    rewrite <- H2, H. field. auto.
  - intros [k Hk].
    assert (H : (q / m == inject_Z k)%Q) by (rewrite Hk; field; auto).
    apply Qred_complete in H. rewrite H. apply Qred_int.
Qed.

(** ** The node lemma *)

Section NodeVerdict.
  Variable env : goenv.
  Variable h : heap.
  Variable V : nat -> value -> Prop.
  Variable rec : oracle -> nat -> value -> ctx -> out result.
  (** The (subschema, value) pairs [rec] is known to be right about. *)
  Variable D : nat -> value -> Prop.
  Hypothesis Hrec : forall o id v c, fair o -> D id v -> vd (rec o id v c) (V id v).

  Definition right_on (n : node) (v : value) : Prop := forall id v', calls n v id v' -> D id v'.

  Lemma right_same n v id : right_on n v -> In id (same_kids n) -> D id v.
  Proof. intros H Hin. apply H. constructor; auto. Qed.
  Lemma right_item n l id x : right_on n (VArr l) -> In id (item_kids n) -> In x l -> D id x.
  Proof. intros H Hin Hx. apply H. constructor; auto. Qed.
  Lemma right_member n m id k x : right_on n (VMap m) -> In id (member_kids n) -> In (k, x) m -> D id x.
  Proof. intros H Hin Hx. eapply H. econstructor; eauto. Qed.

  Hint Resolve shift_fair : fair.

  Lemma vd_branches o n v c (l : list nat) : fair o -> right_on n v -> incl l (same_kids n) ->
    forall i a, In a l -> vd (rec (shift o i) a v c) (V a v).
  Proof. intros F P S i a Ha. apply Hrec; auto with fair. eapply right_same; eauto. Qed.

  Ltac kid := unfold same_kids, item_kids, member_kids; rewrite ?in_app_iff; simpl; tauto.
  Ltac kids_incl := intros ? ?; unfold same_kids; rewrite ?in_app_iff; tauto.

  Lemma vd_anyOf o n v c : fair o -> right_on n v ->
    vd (v_anyOf rec o n v c) (n_anyOf n = [] \/ Exists (fun id => V id v) (n_anyOf n)).
  Proof.
    intros F P. unfold v_anyOf. assert (Hk : incl (n_anyOf n) (same_kids n)) by kids_incl.
    destruct (n_anyOf n) as [|i l] eqn:En.
    - eapply vd_iff; [|apply vd_new]. tauto.
    - apply vd_bind. intros p Ep.
      destruct (first_valid_sem _ (fun id => V id v) (i :: l) (vd_branches o n v c _ F P Hk) _ _ _ Ep) as (H1 & _ & _).
      destruct (fst p).
      + eapply vd_iff; [|apply vd_new]. intuition.
      + eapply vd_iff; [|apply vd_emit_cons].
        split; [tauto|]. intros [H|H]; [discriminate|]. apply H1 in H. discriminate.
  Qed.

  Lemma vd_oneOf o n v c : fair o -> right_on n v ->
    vd (v_oneOf rec o n v c) (n_oneOf n = [] \/ one_of (fun id => V id v) (n_oneOf n)).
  Proof.
    intros F P. unfold v_oneOf. assert (Hk : incl (n_oneOf n) (same_kids n)) by kids_incl.
    destruct (n_oneOf n) as [|i l] eqn:En.
    - eapply vd_iff; [|apply vd_new]. tauto.
    - apply vd_bind. intros p Ep.
      destruct (count_valid_sem _ (fun id => V id v) (i :: l) (vd_branches o n v c _ F P Hk) _ _ _ _ Ep)
        as (k & H1 & _ & H3).
      destruct (Nat.eqb_spec (fst p) 1).
      + eapply vd_iff; [|apply vd_new]. split; [|auto]. intros _. right. apply H3. lia.
      + eapply vd_iff; [|apply vd_emit_cons].
        split; [tauto|]. intros [H|H]; [discriminate|]. apply H3 in H. lia.
  Qed.

  Lemma vd_allOf o n v c : fair o -> right_on n v ->
    vd (v_allOf rec o n v c) (Forall (fun id => V id v) (n_allOf n)).
  Proof.
    intros F P. unfold v_allOf. assert (Hk : incl (n_allOf n) (same_kids n)) by kids_incl.
    destruct (n_allOf n) as [|i l] eqn:En.
    - eapply vd_iff; [|apply vd_new]. split; auto.
    - apply vd_bind. intros p Ep.
      destruct (merge_all_sem _ (fun id => V id v) (i :: l) (vd_branches o n v c _ F P Hk) _ _ Ep)
        as (H1 & H2 & H3).
      eapply vd_iff; [|apply vd_cons; [apply vd_ok, H1|apply vd_cons; [apply vd_when, vd_emit|apply vd_nil]]].
      rewrite <- H3, negb_true_iff, Nat.eqb_neq. tauto.
  Qed.

  Lemma vd_not o n v c : fair o -> right_on n v ->
    vd (v_not rec o n v c) (match n_not n with Some id => ~ V id v | None => True end).
  Proof.
    intros F P. unfold v_not. destruct (n_not n) as [id|] eqn:En; [|apply vd_new].
    assert (Hk : In id (same_kids n)) by (unfold same_kids; rewrite En, !in_app_iff; simpl; tauto).
    apply vd_bind. intros r E. pose proof (Hrec _ _ _ _ F (right_same _ _ _ P Hk) r E) as Hr.
    eapply vd_iff; [|apply vd_when, vd_emit]. rewrite Valid_errors, Hr. tauto.
  Qed.

  Lemma vd_dependency o n m v c k : fair o -> right_on n v ->
    vd (v_dependency rec o n m v c k) (dep_sem V n v m k).
  Proof.
    intros F P. unfold v_dependency, dep_sem. destruct (assoc k (n_dependencies n)) as [[ks|id]|] eqn:En.
    - apply vd_map. intros k' _. destruct (assoc k' m).
      + eapply vd_iff; [|apply vd_new]. split; [discriminate|auto].
      + eapply vd_iff; [|apply vd_emit]. split; [tauto|congruence].
    - apply Hrec; auto. eapply right_same; eauto. unfold same_kids. rewrite !in_app_iff.
      apply assoc_In in En. do 4 right. left. unfold dep_ids. apply in_flat_map.
      exists (k, DepSchema id). simpl. auto.
    - apply vd_new.
  Qed.

  (** Values the JSON decoder can produce at this position. *)
  Definition json_shape (v : value) : Prop := match v with VFloat _ | VIMap _ => False | _ => True end.

  Lemma vd_dependencies o n v c : fair o -> right_on n v -> json_shape v ->
    vd (v_dependencies env rec o n v c)
       (match v with VMap m => Forall (fun e => dep_sem V n v m (fst e)) m | _ => True end).
  Proof.
    intros F P J. unfold v_dependencies. destruct (n_dependencies n) eqn:En.
    - eapply vd_iff; [|apply vd_new]. destruct v; try tauto. split; auto. intros _.
      apply Forall_forall. intros e _. unfold dep_sem. rewrite En. exact I.
    - apply vd_bind. intros b Eb. destruct v; simpl in Eb; try (injection Eb as <-); try apply vd_new.
      + destruct (rat_of _ _); [|discriminate]. injection Eb as <-. apply vd_new.
      + eapply vd_iff; [|apply vd_mapi with (P := fun e => dep_sem V n (VMap m) m (fst e))].
        * apply Forall_perm, pick_perm. auto with fair.
        * intros i e _. apply vd_dependency; auto with fair.
      + destruct J.
  Qed.

  Lemma vd_if o n v c : fair o -> right_on n v ->
    vd (v_if rec o n v c)
       (match n_if n with
        | None => True
        | Some i =>
            match n_then n with Some t => V i v -> V t v | None => True end /\
            match n_else n with Some e => ~ V i v -> V e v | None => True end
        end).
  Proof.
    intros F P. unfold v_if. destruct (n_if n) as [n0|] eqn:Ei; [|apply vd_new].
    assert (Hi : D n0 v).
    { eapply right_same; eauto. unfold same_kids. rewrite Ei, !in_app_iff. simpl. tauto. }
    apply vd_bind. intros r E. pose proof (Hrec _ _ _ _ (shift_fair _ 0 F) Hi r E) as Hr.
    set (PT := match n_then n with Some t => V n0 v -> V t v | None => True end).
    set (PE := match n_else n with Some t => ~ V n0 v -> V t v | None => True end).
    apply vd_iff with (PT /\ PE /\ True); [tauto|].
    apply vd_cons; [|apply vd_cons; [|apply vd_nil]].
    - unfold PT. destruct (n_then n) as [t|] eqn:Et0; [|apply vd_new].
      assert (Hd : D t v).
      { eapply right_same; eauto. unfold same_kids. rewrite Et0, !in_app_iff. simpl. tauto. }
      eapply vd_iff; [|apply vd_when with (P := V t v), vd_bind].
      + rewrite <- Hr, <- Valid_errors. reflexivity.
      + intros rt Et.
        pose proof (Hrec _ _ _ _ (shift_fair _ 1 F) Hd rt Et) as Ht.
        eapply vd_iff; [|apply vd_when, vd_emit_cons].
        rewrite <- Ht, <- Valid_errors. destruct (Valid rt); simpl; intuition discriminate.
    - unfold PE. destruct (n_else n) as [t|] eqn:Et0; [|apply vd_new].
      assert (Hd : D t v).
      { eapply right_same; eauto. unfold same_kids. rewrite Et0, !in_app_iff. simpl. tauto. }
      eapply vd_iff; [|apply vd_when with (P := V t v), vd_bind].
      + rewrite <- Hr, <- Valid_errors, negb_true_iff, not_true_iff_false. reflexivity.
      + intros rt Et.
        pose proof (Hrec _ _ _ _ (shift_fair _ 2 F) Hd rt Et) as Ht.
        eapply vd_iff; [|apply vd_when, vd_emit_cons].
        rewrite <- Ht, <- Valid_errors. destruct (Valid rt); simpl; intuition discriminate.
  Qed.

  Lemma vd_validateSchema o n v c : fair o -> right_on n v -> json_shape v ->
    vd (validateSchema env rec o n v c) (comb_sem V n v).
  Proof.
    intros F P J. unfold validateSchema, comb_sem.
    eapply vd_iff;
      [|apply vd_cons; [apply vd_anyOf|apply vd_cons; [apply vd_oneOf|apply vd_cons; [apply vd_allOf|
        apply vd_cons; [apply vd_not|apply vd_cons; [apply vd_dependencies|apply vd_cons; [apply vd_if|
        apply vd_cons; [apply vd_inc|apply vd_nil]]]]]]]]; auto with fair.
    tauto.
  Qed.

  Lemma vd_validateCommon n v c : vd (validateCommon env n v c) (common_sem env n v).
  Proof.
    unfold validateCommon, common_sem.
    set (P1 := match n_const n with Some k => marshalWithoutNumber v = Some k | None => True end).
    set (P2 := n_enum n = [] \/ Exists (fun k => marshalWithoutNumber v = Some k) (n_enum n)).
    set (P3 := n_format n = "" \/ e_is_format env (n_format n) v = true).
    apply vd_iff with (P1 /\ P2 /\ P3 /\ True /\ True); [tauto|].
    apply vd_cons; [|apply vd_cons; [|apply vd_cons; [|apply vd_cons; [apply vd_inc|apply vd_nil]]]].
    - unfold P1, v_const. destruct (n_const n) as [k|]; [|apply vd_new].
      destruct (marshalWithoutNumber v) as [t|]; [|apply vd_panic].
      eapply vd_iff; [|apply vd_when, vd_emit]. destruct (String.eqb_spec t k); simpl; intuition congruence.
    - unfold P2, v_enum. destruct (n_enum n) as [|k l]; [eapply vd_iff; [|apply vd_new]; tauto|].
      destruct (marshalWithoutNumber v) as [t|]; [|apply vd_panic].
      eapply vd_iff; [|apply vd_when, vd_emit]. rewrite negb_true_iff.
      rewrite <- not_true_iff_false, in_slice, Exists_exists.
      split.
      + intros H. right. destruct (in_dec string_dec t (k :: l)); [eauto|tauto].
      + intros [H|(x & Hx & E)]; [discriminate|]. injection E as ->. tauto.
    - unfold P3, v_format. destruct (String.eqb_spec (n_format n) "").
      + eapply vd_iff; [|apply vd_new]. tauto.
      + eapply vd_iff; [|apply vd_when, vd_emit]. destruct (e_is_format _ _ _); simpl; intuition discriminate.
  Qed.

  Lemma vd_item o c id i x : fair o -> D id x -> vd (v_item rec o c id i x) (V id x).
  Proof. intros. unfold v_item. apply Hrec; auto with fair. Qed.

  Lemma vd_items_zip o c ids : forall l i, fair o -> (forall id x, In id ids -> In x l -> D id x) ->
    vd (run_all (v_items_zip rec o c i ids l))
       (forall j id x, nth_error ids j = Some id -> nth_error l j = Some x -> V id x).
  Proof.
    induction ids as [|id ids IH]; intros [|x l] i F P; simpl v_items_zip;
      try (eapply vd_iff; [|apply vd_nil]; split; auto; intros _ [|j] ? ?; simpl; discriminate).
    eapply vd_iff; [|apply vd_cons; [apply vd_item; auto with datatypes|apply IH; auto with datatypes]].
    split.
    - intros [H3 H4] [|j] id' x'; simpl; [congruence|apply H4].
    - intros H. split; [apply (H 0); auto|]. intros j. apply (H (S j)).
  Qed.

  Lemma vd_unique_loop c w : forall l seen j,
    vd (unique_loop c w seen j l)
       (NoDup (map marshalWithoutNumber l) /\
        Forall (fun x => forall t, marshalWithoutNumber x = Some t -> assoc t seen = None) l).
  Proof.
    induction l as [|x l IH]; intros seen j; simpl unique_loop.
    - eapply vd_iff; [|apply vd_new]. split; [|auto]. intros _. split; constructor.
    - destruct (marshalWithoutNumber x) as [t|] eqn:Ex; [|apply vd_panic].
      intros r E. destruct (unique_loop _ _ _ _ l) as [r'| |] eqn:Er; simpl in E; try discriminate.
      injection E as <-. rewrite radd_nil, (IH _ _ r' Er).
      assert (Hmem : Forall (fun x => forall t', marshalWithoutNumber x = Some t' -> assoc t' (aset t j seen) = None) l <->
                 ~ In (Some t) (map marshalWithoutNumber l) /\
                 Forall (fun x => forall t', marshalWithoutNumber x = Some t' -> assoc t' seen = None) l).
      { assert (Ha : forall t', assoc t' (aset t j seen) = None <-> t' <> t /\ assoc t' seen = None).
        { clear. intros t'. induction seen as [|[k v] seen IH]; simpl.
          - destruct (String.eqb_spec t' t); intuition discriminate.
          - destruct (String.eqb_spec t k); simpl.
            + subst. destruct (String.eqb_spec t' k); intuition discriminate.
            + destruct (String.eqb_spec t' k); [subst; intuition discriminate|auto]. }
        split.
        - intros H. split.
          + intros Hin. apply in_map_iff in Hin. destruct Hin as (y & Ey & Hy).
            rewrite Forall_forall in H. specialize (H y Hy t Ey). apply Ha in H. tauto.
          + eapply Forall_impl; [|exact H]. simpl. intros y Hy t' Ey. apply (Ha t'), Hy; auto.
        - intros [H1 H2]. apply Forall_forall. intros y Hy t' Ey. apply Ha. split.
          + intros ->. apply H1. apply in_map_iff. eauto.
          + rewrite Forall_forall in H2. eauto. }
      rewrite Hmem, Forall_cons_iff. simpl map. rewrite Ex, NoDup_cons_iff.
      assert (He : errors (match assoc t seen with
                   | Some i => emit ItemsMustBeUniqueError c w
                            [("type", DStr TYPE_ARRAY); ("i", DInt (Z.of_nat i)); ("j", DInt (Z.of_nat j))]
                   | None => new_result end) = [] <-> assoc t seen = None).
      { destruct (assoc t seen); simpl; split; auto; discriminate. }
      rewrite He. clear. split.
      + intros (H1 & H2 & H3 & H4). repeat split; auto. intros t' [= <-]. auto.
      + intros ((H1 & H2) & H3 & H4). auto.
  Qed.

  Lemma vd_items o n l c : fair o -> right_on n (VArr l) ->
    vd (v_items rec o n l c) (items_sem V n l).
  Proof.
    intros F P. unfold v_items, items_sem.
    assert (Hi : forall id x, In id (n_items n) -> In x l -> D id x).
    { intros id x Hid Hx. eapply right_item; eauto. unfold item_kids. rewrite in_app_iff. auto. }
    destruct (n_items_single n).
    - destruct (n_items n) as [|id ids].
      + destruct l; [|apply vd_panic]. eapply vd_iff; [|apply vd_new]. tauto.
      + apply vd_mapi. intros i a Ha. apply vd_item; auto with datatypes.
    - destruct (n_items n) as [|id ids]; [apply vd_new|]. remember (id :: ids) as ids'. clear Heqids'.
      eapply vd_iff; [|apply vd_cons; [apply vd_items_zip; auto|]].
      + apply and_iff_compat_l. apply iff_refl.
      + set (PA := match n_additionalItems n with
                   | Some (AddlBool false) => length l <= length ids'
                   | Some (AddlSchema id) => Forall (V id) (skipn (length ids') l)
                   | _ => True end).
        apply vd_iff with (PA /\ True); [tauto|]. apply vd_cons; [|apply vd_nil].
        unfold PA. destruct (Nat.ltb_spec (length ids') (length l)) as [Hlt|Hge].
        * simpl. destruct (n_additionalItems n) as [[[|]|i]|] eqn:Ea; try apply vd_new.
          -- eapply vd_iff; [|apply vd_emit]. split; [tauto|lia].
          -- apply vd_mapi. intros j a Ha. apply vd_item; auto.
             eapply right_item; eauto; [unfold item_kids; rewrite Ea, !in_app_iff; simpl; auto|].
             rewrite <- (firstn_skipn (length ids') l). apply in_or_app. auto.
        * simpl. eapply vd_iff; [|apply vd_new]. split; auto. intros _.
          destruct (n_additionalItems n) as [[[|]|i]|]; auto.
          rewrite skipn_all2; auto.
  Qed.

  Lemma vd_validateArray o n l c : fair o -> right_on n (VArr l) ->
    vd (validateArray rec o n l c) (arr_sem V n l).
  Proof.
    intros F P. unfold validateArray, arr_sem.
    set (P1 := items_sem V n l).
    set (P2 := match n_minItems n with Some k => (k <= Z.of_nat (length l))%Z | None => True end).
    set (P3 := match n_maxItems n with Some k => (Z.of_nat (length l) <= k)%Z | None => True end).
    set (P4 := n_uniqueItems n = true -> NoDup (map marshalWithoutNumber l)).
    set (P5 := match n_contains n with Some id => Exists (V id) l | None => True end).
    apply vd_iff with (P1 /\ P2 /\ P3 /\ P4 /\ P5 /\ True /\ True); [tauto|].
    apply vd_cons; [|apply vd_cons; [|apply vd_cons; [|apply vd_cons; [|apply vd_cons;
      [|apply vd_cons; [apply vd_inc|apply vd_nil]]]]]].
    - apply vd_items; auto with fair.
    - unfold P2, v_minItems. destruct (n_minItems n); [|apply vd_new].
      eapply vd_iff; [|apply vd_when, vd_emit]. destruct (Z.ltb_spec (Z.of_nat (length l)) z); intuition (try discriminate; lia).
    - unfold P3, v_maxItems. destruct (n_maxItems n); [|apply vd_new].
      eapply vd_iff; [|apply vd_when, vd_emit]. destruct (Z.ltb_spec z (Z.of_nat (length l))); intuition (try discriminate; lia).
    - unfold P4, v_uniqueItems. apply vd_when. eapply vd_iff; [|apply vd_unique_loop].
      split; [tauto|]. intros H. split; auto. apply Forall_forall. auto.
    - unfold P5, v_contains. destruct (n_contains n) as [id|] eqn:Ec; [|apply vd_new].
      assert (Hi : forall x, In x l -> D id x).
      { intros x Hx. eapply right_item; eauto. unfold item_kids. rewrite Ec, !in_app_iff. simpl. auto. }
      apply vd_bind. intros p Ep.
      destruct (first_valid_sem (v_item rec (shift o 1) c id) (V id) l
                  (fun i a Ha => vd_item (shift o 1) c id i a (shift_fair _ _ F) (Hi a Ha)) _ _ _ Ep) as (H1 & _ & _).
      destruct (fst p).
      + eapply vd_iff; [|apply vd_new]. tauto.
      + eapply vd_iff; [|apply vd_emit_cons]. split; [tauto|]. intros H. apply H1 in H. discriminate.
  Qed.

  Lemma described_sem k ids b : described h k ids = Ok b ->
    (b = true <-> Exists (fun id => name_of h id k) ids) /\
    (b = false <-> Forall (fun id => ~ name_of h id k) ids).
  Proof.
    revert b. induction ids as [|id ids IH]; intros b; simpl.
    - intros [= <-]. rewrite Exists_nil. repeat split; auto; try discriminate; tauto.
    - unfold prop_name. destruct (nth_error h id) as [n|] eqn:En; simpl; [|discriminate].
      destruct (described h k ids) as [b'| |] eqn:Ed; simpl; try discriminate.
      destruct (IH b' eq_refl) as [I1 I2]. intros [= <-].
      assert (Hn : name_of h id k <-> String.eqb k (n_property n) = true).
      { unfold name_of. rewrite En. split.
        - intros (c & [= <-] & <-). apply String.eqb_refl.
        - intros E. apply String.eqb_eq in E. eauto. }
      rewrite Exists_cons, Forall_cons_iff, <- I1, <- I2, Hn, orb_true_iff, orb_false_iff, not_true_iff_false.
      tauto.
  Qed.

  Lemma pattern_sem o n k x c p : fair o -> (forall id, In id (member_kids n) -> D id x) ->
    validatePatternProperty env rec o n k x c = Ok p ->
    (errors (snd p) = [] <->
       Forall (fun e => re_matches env (fst e) k = true -> V (snd e) x) (n_patternProperties n)) /\
    (fst p = false <-> Forall (fun e => re_matches env (fst e) k = false) (n_patternProperties n)).
  Proof.
    intros F P. unfold validatePatternProperty.
    set (hits := filter _ _).
    destruct (run_all _) as [r| |] eqn:Er; simpl; try discriminate. intros E.
    assert (Hr : errors r = [] <-> Forall (fun e => V (snd e) x) hits).
    { refine (vd_mapi _ (fun e => V (snd e) x) hits _ 0 r Er).
      intros i e He. apply Hrec; auto with fair. apply P. unfold member_kids. rewrite !in_app_iff.
      right; left. apply in_map. unfold hits in He. apply filter_In in He.
      eapply Permutation_in; [symmetry; apply pick_perm with (o := shift o 0)|]; [auto with fair|tauto]. }
    assert (Hh : Forall (fun e => V (snd e) x) hits <->
       Forall (fun e => re_matches env (fst e) k = true -> V (snd e) x) (n_patternProperties n)).
    { rewrite <- (Forall_perm _ _ _ (pick_perm (shift o 0) _ (n_patternProperties n) (shift_fair _ _ F))).
      unfold hits. rewrite !Forall_forall. split.
      - intros H e He Hm. apply H. apply filter_In. auto.
      - intros H e He. apply filter_In in He. apply H; tauto. }
    assert (He : hits = [] <-> Forall (fun e => re_matches env (fst e) k = false) (n_patternProperties n)).
    { rewrite <- (Forall_perm _ _ _ (pick_perm (shift o 0) _ (n_patternProperties n) (shift_fair _ _ F))).
      unfold hits. rewrite Forall_forall. split.
      - intros H e Hin. destruct (re_matches env (fst e) k) eqn:Em; auto.
        assert (Hin' : In e []) by (rewrite <- H; apply filter_In; auto). inversion Hin'.
      - intros H. destruct (filter _ _) as [|e l] eqn:Ef; auto.
        assert (Hin : In e (e :: l)) by (left; auto). rewrite <- Ef in Hin. apply filter_In in Hin.
        destruct Hin as [H1 H2]. rewrite (H _ H1) in H2. discriminate. }
    destruct hits as [|e l] eqn:Eh; injection E as <-; simpl fst; simpl snd.
    - rewrite Hr, Hh. tauto.
    - rewrite radd_nil, Hr, Hh. simpl. split; [tauto|]. rewrite <- He. split; discriminate.
  Qed.

  Lemma vd_member o n c k x : fair o -> (forall id, In id (member_kids n) -> D id x) ->
    vd (v_member env h rec o n c (k, x)) (member_sem env h V n k x).
  Proof.
    intros F P. unfold v_member, member_sem. apply vd_bind. intros found Ef.
    destruct (described_sem _ _ _ Ef) as [_ Dsc].
    apply vd_bind. intros p Ep. destruct (pattern_sem _ _ _ _ _ _ (shift_fair _ 0 F) P Ep) as [P1 P2].
    intros r E. destruct (if (negb found && negb (fst p))%bool then _ else _) as [r'| |] eqn:Er;
      simpl in E; try discriminate. injection E as <-.
    rewrite radd_nil, P1. apply and_iff_compat_l. rewrite <- Dsc, <- P2.
    destruct found, (fst p); simpl in Er; try (injection Er as <-; simpl; intuition congruence).
    destruct (n_additionalProperties n) as [[[|]|id]|] eqn:Ea.
    - injection Er as <-. simpl. intuition.
    - injection Er as <-. simpl. split; [discriminate|]. intros H. exfalso. apply H; auto.
    - assert (Hd : D id x) by (apply P; unfold member_kids; rewrite Ea, !in_app_iff; simpl; auto).
      rewrite (Hrec _ _ _ _ (shift_fair _ 1 F) Hd r' Er). intuition.
    - injection Er as <-. simpl. intuition.
  Qed.

  Lemma vd_validateObject o n m c : fair o -> right_on n (VMap m) ->
    vd (validateObject env h rec o n m c)
       (match n_minProperties n with Some k => (k <= Z.of_nat (length m))%Z | None => True end /\
        match n_maxProperties n with Some k => (Z.of_nat (length m) <= k)%Z | None => True end /\
        Forall (fun k => assoc k m <> None) (n_required n) /\
        Forall (fun e => member_sem env h V n (fst e) (snd e)) m /\
        match n_propertyNames n with Some id => Forall (fun e => V id (VStr (fst e))) m | None => True end).
  Proof.
    intros F P. unfold validateObject.
    set (P1 := match n_minProperties n with Some k => (k <= Z.of_nat (length m))%Z | None => True end).
    set (P2 := match n_maxProperties n with Some k => (Z.of_nat (length m) <= k)%Z | None => True end).
    set (P3 := Forall (fun k => assoc k m <> None) (n_required n)).
    set (P4 := Forall (fun e => member_sem env h V n (fst e) (snd e)) m).
    set (P5 := match n_propertyNames n with Some id => Forall (fun e => V id (VStr (fst e))) m | None => True end).
    apply vd_iff with (P1 /\ P2 /\ P3 /\ P4 /\ P5 /\ True /\ True); [tauto|].
    apply vd_cons; [|apply vd_cons; [|apply vd_cons; [|apply vd_cons; [|apply vd_cons;
      [|apply vd_cons; [apply vd_inc|apply vd_nil]]]]]].
    - unfold P1, v_minProperties. destruct (n_minProperties n); [|apply vd_new].
      eapply vd_iff; [|apply vd_when, vd_emit]. destruct (Z.ltb_spec (Z.of_nat (length m)) z); intuition (try discriminate; lia).
    - unfold P2, v_maxProperties. destruct (n_maxProperties n); [|apply vd_new].
      eapply vd_iff; [|apply vd_when, vd_emit]. destruct (Z.ltb_spec z (Z.of_nat (length m))); intuition (try discriminate; lia).
    - unfold P3, v_required. apply vd_map. intros k _. destruct (assoc k m).
      + eapply vd_iff; [|apply vd_inc]. split; [discriminate|auto].
      + eapply vd_iff; [|apply vd_emit]. split; [tauto|congruence].
    - unfold v_members. eapply vd_iff; [|apply vd_mapi with (P := fun e => member_sem env h V n (fst e) (snd e))].
      + apply Forall_perm, pick_perm. auto with fair.
      + intros i [k x] Hin. apply vd_member; auto with fair.
        intros id Hid. eapply right_member; eauto.
        eapply Permutation_in; [symmetry; apply pick_perm with (o := shift (shift o 0) 0)|exact Hin]; auto with fair.
    - unfold P5, v_propertyNames. destruct (n_propertyNames n) as [id|] eqn:En; [|apply vd_new].
      eapply vd_iff; [|apply vd_mapi with (P := fun e : string * value => V id (VStr (fst e)))].
      + apply Forall_perm, pick_perm. auto with fair.
      + intros i e He. apply vd_bind. intros r Er.
        assert (Hd : D id (VStr (fst e))).
        { destruct e as [k x]. apply P. eapply call_name; eauto.
          eapply Permutation_in; [symmetry; apply pick_perm with (o := shift (shift o 1) 0)|exact He]; auto with fair. }
        pose proof (Hrec _ id (VStr (fst e)) c (shift_fair _ (S i) (shift_fair _ 1 F)) Hd r Er) as Hr.
        eapply vd_iff; [|apply vd_when, vd_emit_cons].
        rewrite <- Hr, <- Valid_errors. destruct (Valid r); simpl; intuition discriminate.
  Qed.

  Lemma vd_bound bound bad t key s c (P : Q -> Q -> Prop) :
    (forall q b, bad (Qcompare q b) = false <-> P q b) ->
    vd (v_bound bound bad t key (VNum s) (rat_of (e_ratlim env) s) c)
       (match bound with Some b => exists q, rat_of (e_ratlim env) s = Some q /\ P q b | None => True end).
  Proof.
    intros HP. unfold v_bound. destruct bound as [b|]; [|apply vd_new].
    destruct (rat_of _ _) as [q|]; [|apply vd_panic].
    eapply vd_iff; [|apply vd_when, vd_emit].
    specialize (HP q b). destruct (bad _).
    - split; [tauto|]. intros (q' & [= <-] & H). apply HP in H. discriminate.
    - split; [|discriminate]. intros _. exists q. split; auto. apply HP; auto.
  Qed.

  Lemma vd_validateNumber n s c : vd (validateNumber env n (VNum s) c) (num_sem env n s).
  Proof.
    unfold validateNumber, num_sem.
    eapply vd_iff; [|apply vd_cons; [|apply vd_cons; [apply vd_bound with (P := Qle)|apply vd_cons;
      [apply vd_bound with (P := Qlt)|apply vd_cons; [apply vd_bound with (P := fun q b => Qle b q)|apply vd_cons;
      [apply vd_bound with (P := fun q b => Qlt b q)|apply vd_cons; [apply vd_inc|apply vd_nil]]]]]]].
    - instantiate (1 := match n_multipleOf n with
                        | Some m => exists q, rat_of (e_ratlim env) s = Some q /\ exists k : Z, (q == inject_Z k * m)%Q
                        | None => True end). tauto.
    - unfold v_multipleOf. destruct (n_multipleOf n) as [m|]; [|apply vd_new].
      destruct (rat_of _ _) as [q|]; [|apply vd_panic].
      destruct (Qeq_bool m 0) eqn:Em; [apply vd_panic|].
      assert (Hm : ~ (m == 0)%Q) by (intros H; apply Qeq_bool_iff in H; congruence).
      eapply vd_iff; [|apply vd_when, vd_emit].
      pose proof (Qdiv_int q m Hm) as Hd. destruct (rat_is_int _); simpl.
      + split; [|discriminate]. intros _. exists q. split; auto. apply Hd; auto.
      + split; [tauto|]. intros (q' & [= <-] & H). apply Hd in H. discriminate.
    - intros q b. rewrite Qle_alt. destruct (Qcompare q b); split; congruence.
    - intros q b. rewrite Qlt_alt. destruct (Qcompare q b); split; congruence.
    - intros q b. rewrite Qge_alt. destruct (Qcompare q b); split; congruence.
    - intros q b. rewrite Qgt_alt. destruct (Qcompare q b); split; congruence.
  Qed.

  Lemma vd_string_checks n s c : vd (v_string_checks env n s c) (str_sem env n s).
  Proof.
    unfold v_string_checks, str_sem.
    set (P1 := match n_minLength n with Some k => (k <= rune_count s)%Z | None => True end).
    set (P2 := match n_maxLength n with Some k => (rune_count s <= k)%Z | None => True end).
    set (P3 := match n_pattern n with Some p => e_re_match env p s = true | None => True end).
    apply vd_iff with (P1 /\ P2 /\ P3 /\ True /\ True); [tauto|].
    apply vd_cons; [|apply vd_cons; [|apply vd_cons; [|apply vd_cons; [apply vd_inc|apply vd_nil]]]].
    - unfold P1. destruct (n_minLength n); [|apply vd_new].
      eapply vd_iff; [|apply vd_when, vd_emit]. destruct (Z.ltb_spec (rune_count s) z); intuition (try discriminate; lia).
    - unfold P2. destruct (n_maxLength n); [|apply vd_new].
      eapply vd_iff; [|apply vd_when, vd_emit]. destruct (Z.ltb_spec z (rune_count s)); intuition (try discriminate; lia).
    - unfold P3. destruct (n_pattern n); [|apply vd_new].
      eapply vd_iff; [|apply vd_when, vd_emit]. destruct (e_re_match _ _ _); simpl; intuition discriminate.
  Qed.

  Lemma vd_scalar o n v c : fair o -> right_on n v -> json_shape v ->
    match v with VArr _ | VMap _ => False | _ => True end ->
    vd (scalar_checks env rec o n v c) (comb_sem V n v /\ common_sem env n v /\ specific_sem env h V n v).
  Proof.
    intros F P J S. unfold scalar_checks.
    eapply vd_iff; [|apply vd_cons; [apply vd_validateSchema; auto|apply vd_cons;
      [|apply vd_cons; [apply vd_validateCommon|apply vd_cons; [|apply vd_cons; [apply vd_inc|apply vd_nil]]]]]].
    - instantiate (1 := match v with VStr s => str_sem env n s | _ => True end).
      instantiate (1 := match v with VNum s => num_sem env n s | _ => True end).
      unfold specific_sem. destruct v; try tauto; discriminate.
    - destruct v; try apply vd_new. apply vd_validateNumber.
    - destruct v; try apply vd_new. apply vd_string_checks.
  Qed.

  Lemma vd_object_checks o n m c : fair o -> right_on n (VMap m) ->
    vd (object_checks env h rec o n m c)
       (comb_sem V n (VMap m) /\ common_sem env n (VMap m) /\ obj_sem env h V n m).
  Proof.
    intros F P. unfold object_checks, obj_sem.
    eapply vd_iff; [|apply vd_cons; [apply vd_validateSchema; simpl; auto with fair|apply vd_cons;
      [apply vd_validateObject; auto with fair|apply vd_cons; [apply vd_validateCommon|apply vd_cons;
      [|apply vd_cons; [apply vd_inc|apply vd_nil]]]]]].
    - instantiate (1 := Forall (fun id => forall p x, name_of h id p -> assoc p m = Some x -> V id x) (n_props n)).
      tauto.
    - apply vd_mapi. intros i id Hid. unfold v_property, prop_name.
      destruct (nth_error h id) as [nd|] eqn:En; [|apply vd_panic]. simpl.
      destruct (assoc (n_property nd) m) as [x|] eqn:Ea.
      + eapply vd_iff; [|apply Hrec; [auto with fair|]].
        * split.
          -- intros H p y (nd' & E1 & E2) E3. rewrite En in E1. injection E1 as <-. congruence.
          -- intros H. apply (H (n_property nd)); auto. exists nd. auto.
        * eapply right_member; [exact P| |apply (assoc_In _ _ _ Ea)].
          unfold member_kids. rewrite in_app_iff. auto.
      + eapply vd_iff; [|apply vd_new]. split; auto. intros _ p y (nd' & E1 & E2) E3.
        rewrite En in E1. injection E1 as <-. congruence.
  Qed.

  Lemma vd_type_error n v c g : vd (type_error n v c g) False.
  Proof. apply vd_emit. Qed.

  Lemma types_alt n v t : (forall x, type_of_value env v x <-> x = t) ->
    (types_sem env n v <-> (IsTyped (n_types n) && negb (Contains (n_types n) t))%bool = false).
  Proof.
    intros H. unfold types_sem, Contains. destruct (n_types n) as [|x l] eqn:E.
    - simpl. tauto.
    - simpl IsTyped. rewrite andb_true_l, negb_false_iff, in_slice, Exists_exists. split.
      + intros [H1|(y & Hy & Ht)]; [discriminate|]. apply H in Ht. subst. auto.
      + intros Hin. right. exists t. split; auto. apply H; auto.
  Qed.

  Lemma typed_case (b : bool) x y (T P : Prop) :
    (T <-> b = false) -> vd x False -> vd y P -> vd (if b then x else y) (T /\ P).
  Proof.
    intros HT Hx Hy. destruct b.
    - eapply vd_iff; [|exact Hx]. intuition discriminate.
    - eapply vd_iff; [|exact Hy]. intuition.
  Qed.

  Lemma vd_validateNode o n v c : fair o -> (forall id v', steps n v id v' -> D id v') -> json_shape v ->
    vd (validateNode env h rec o n v c) (node_sem env h V n v).
  Proof.
    intros F P0 J. unfold validateNode, node_sem.
    destruct (n_pass n) as [[|]|] eqn:Ep.
    { eapply vd_iff; [|apply vd_new]. tauto. }
    { eapply vd_iff; [|apply vd_emit]. split; [tauto|discriminate]. }
    destruct (n_ref n) as [id|] eqn:Er.
    { apply Hrec; auto. apply P0. split; auto. rewrite Er. auto. }
    assert (P : right_on n v). { intros id v' H. apply P0. split; auto. rewrite Er. auto. }
    destruct v; try (destruct J; fail).
    - apply typed_case; [apply types_alt; simpl; tauto|apply vd_type_error|].
      eapply vd_iff; [|apply vd_cons; [apply vd_validateSchema; simpl; auto|apply vd_cons;
        [apply vd_validateCommon|apply vd_cons; [apply vd_inc|apply vd_nil]]]].
      simpl. tauto.
    - apply typed_case; [apply types_alt; simpl; tauto|apply vd_type_error|].
      apply vd_scalar; simpl; auto.
    - apply typed_case; [|apply vd_type_error|apply vd_scalar; simpl; auto].
      unfold types_sem, Contains. destruct (n_types n) as [|x l] eqn:E; [simpl; tauto|].
      simpl IsTyped. rewrite andb_true_l, negb_false_iff, orb_true_iff, andb_true_iff, !in_slice, Exists_exists. simpl.
      split.
      + intros [H1|(y & Hy & [-> | [-> Hi]])]; [discriminate|auto|auto].
      + intros [H|[H1 H2]]; right; eauto 6.
    - apply typed_case; [apply types_alt; simpl; tauto|apply vd_type_error|].
      apply vd_scalar; simpl; auto.
    - apply typed_case; [apply types_alt; simpl; tauto|apply vd_type_error|].
      eapply vd_iff; [|apply vd_cons; [apply vd_validateSchema; simpl; auto with fair|apply vd_cons;
        [apply vd_validateArray; auto with fair|apply vd_cons; [apply vd_validateCommon|apply vd_cons; [apply vd_inc|apply vd_nil]]]]].
      simpl specific_sem. tauto.
    - apply typed_case; [apply types_alt; simpl; tauto|apply vd_type_error|].
      apply vd_object_checks; auto.
  Qed.
End NodeVerdict.

(** The verdict of validateRecursive agrees with every V that satisfies the
    node equations on a domain the run does not leave. *)
Theorem validateRecursive_sem_on env h (V D : nat -> value -> Prop) :
  (forall id n v, nth_error h id = Some n -> D id v -> json_shape v /\ (V id v <-> node_sem env h V n v)) ->
  (forall id n v id' v', nth_error h id = Some n -> D id v -> steps n v id' v' -> D id' v') ->
  forall k o id v c r, fair o -> D id v ->
  validateRecursive env h k o id v c = Ok r -> (errors r = [] <-> V id v).
Proof.
  intros HV HD. induction k as [|k IH]; intros o id v c r F P E; simpl in E; [discriminate|].
  destruct (nth_error h id) as [n|] eqn:En; [|discriminate].
  destruct (HV id n v En P) as [J ->].
  refine (vd_validateNode env h V _ D _ o n v c F _ J r E).
  - intros o' id' v' c' F' P' r' E'. eapply IH; eauto.
  - intros id' v' Hs. eapply HD; eauto.
Qed.

Lemma plain_shape v : plain v = true -> json_shape v.
Proof. destruct v; simpl; auto; discriminate. Qed.
Lemma plain_steps n v id v' : plain v = true -> steps n v id v' -> plain v' = true.
Proof.
  intros P [_ H]. destruct (n_ref n).
  - destruct H as [_ ->]. auto.
  - destruct H; auto; simpl in P; rewrite forallb_forall in P; auto. apply (P (k, x)); auto.
Qed.

Theorem validateRecursive_sem env h (V : nat -> value -> Prop) :
  (forall id n v, nth_error h id = Some n -> plain v = true -> (V id v <-> node_sem env h V n v)) ->
  forall k o id v c r, fair o -> plain v = true ->
  validateRecursive env h k o id v c = Ok r -> (errors r = [] <-> V id v).
Proof.
  intros HV k o id v c r. apply validateRecursive_sem_on with (D := fun _ v => plain v = true).
  - intros. split; [apply plain_shape; auto|auto].
  - intros. eapply plain_steps; eauto.
Qed.
