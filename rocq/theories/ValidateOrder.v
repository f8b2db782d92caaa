(** Validation does not depend on map iteration order nor on the order in which
    members are stored: a logical relation between two runs. *)
From Verif Require Export ValidateMono.

Lemma Forall2_length {A B} (R : A -> B -> Prop) l l' : Forall2 R l l' -> length l = length l'.
Proof. induction 1; simpl; congruence. Qed.

(** ** Association lists up to permutation *)

Section MapRel.
  Context {A B : Type}.
  Variable R : A -> B -> Prop.

  Definition entry_rel (a : string * A) (b : string * B) : Prop :=
    fst a = fst b /\ R (snd a) (snd b).
  Definition map_rel (m : list (string * A)) (m' : list (string * B)) : Prop :=
    exists m1, Permutation m m1 /\ Forall2 entry_rel m1 m'.

  Lemma Forall2_keys m1 m' : Forall2 entry_rel m1 m' -> map fst m1 = map fst m'.
  Proof. induction 1 as [|a b l l' [H1 H2] _ IH]; simpl; congruence. Qed.

  Lemma map_rel_length m m' : map_rel m m' -> length m = length m'.
  Proof.
    intros (m1 & HP & HF). rewrite (Permutation_length HP). eapply Forall2_length; eauto.
  Qed.
End MapRel.

Lemma assoc_In {A} k (m : list (string * A)) x : assoc k m = Some x -> In (k, x) m.
Proof.
  induction m as [|[k' v'] m IH]; simpl; [discriminate|].
  destruct (String.eqb_spec k k').
  - intros [= ->]. subst. left; reflexivity.
  - intros H. right. auto.
Qed.

Lemma assoc_None {A} k (m : list (string * A)) : assoc k m = None <-> ~ In k (map fst m).
Proof.
  induction m as [|[k' v'] m IH]; simpl; [tauto|].
  destruct (String.eqb_spec k k').
  - split; [discriminate|]. intros H; exfalso; apply H; auto.
  - rewrite IH. intuition congruence.
Qed.

Lemma In_assoc {A} k (m : list (string * A)) x :
  NoDup (map fst m) -> In (k, x) m -> assoc k m = Some x.
Proof.
  induction m as [|[k' v'] m IH]; simpl; [tauto|].
  intros Hn [H|H]; inversion Hn; subst.
  - inversion H; subst. rewrite String.eqb_refl. reflexivity.
  - destruct (String.eqb_spec k k').
    + subst. exfalso. apply H2. apply in_map_iff. exists (k', x); auto.
    + auto.
Qed.

Lemma assoc_perm {A} k (m m' : list (string * A)) :
  NoDup (map fst m) -> Permutation m m' -> assoc k m = assoc k m'.
Proof.
  intros Hn HP.
  assert (Hn' : NoDup (map fst m')) by (eapply Permutation_NoDup; [apply Permutation_map; eauto|auto]).
  destruct (assoc k m) eqn:E.
  - symmetry. apply In_assoc; auto. eapply Permutation_in; eauto. apply assoc_In; auto.
  - symmetry. apply assoc_None. apply assoc_None in E. intros H. apply E.
    eapply Permutation_in; [apply Permutation_map; symmetry; eauto|auto].
Qed.

Lemma assoc_entry {A B} (R : A -> B -> Prop) k m m' :
  Forall2 (entry_rel R) m m' ->
  match assoc k m, assoc k m' with
  | Some x, Some y => R x y
  | None, None => True
  | _, _ => False
  end.
Proof.
  induction 1 as [|[k1 x] [k2 y] l l' [H1 H2] _ IH]; simpl; auto.
  simpl in H1, H2; subst. destruct (String.eqb k k2); auto.
Qed.

Lemma assoc_map_rel {A B} (R : A -> B -> Prop) k m m' :
  NoDup (map fst m) -> map_rel R m m' ->
  match assoc k m, assoc k m' with
  | Some x, Some y => R x y
  | None, None => True
  | _, _ => False
  end.
Proof.
  intros Hn (m1 & HP & HF). rewrite (assoc_perm k m m1 Hn HP). apply assoc_entry; auto.
Qed.

Lemma Forall2_perm_l {A B} (R : A -> B -> Prop) l1 l1' l2 :
  Permutation l1 l1' -> Forall2 R l1 l2 -> exists l2', Permutation l2 l2' /\ Forall2 R l1' l2'.
Proof.
  intros HP. revert l2. induction HP; intros l2 HF.
  - inversion HF; subst. exists []. split; constructor.
  - inversion HF; subst. destruct (IHHP _ H3) as (l2' & HP' & HF').
    exists (y :: l2'). split; constructor; auto.
  - inversion HF as [|a b c d H1 H2]; subst. inversion H2; subst.
    eexists. split; [apply perm_swap|]. repeat constructor; auto.
  - destruct (IHHP1 _ HF) as (l3 & HP3 & HF3). destruct (IHHP2 _ HF3) as (l4 & HP4 & HF4).
    exists l4. split; auto. etransitivity; eauto.
Qed.

Lemma Forall2_perm_r {A B} (R : A -> B -> Prop) l1 l2 l2' :
  Permutation l2 l2' -> Forall2 R l1 l2 -> exists l1', Permutation l1 l1' /\ Forall2 R l1' l2'.
Proof.
  intros HP HF.
  assert (HF' : Forall2 (fun b a => R a b) l2 l1) by (clear HP; induction HF; constructor; auto).
  destruct (Forall2_perm_l _ _ _ _ HP HF') as (l1' & H1 & H2).
  exists l1'. split; auto. clear - H2. induction H2; constructor; auto.
Qed.

(** ** Relating results *)

Section Order.
  Variable R : value -> value -> Prop.

  Definition err_rel (e e' : rerror) : Prop :=
    r_type e = r_type e' /\ r_ctx e = r_ctx e' /\ r_details e = r_details e' /\ R (r_value e) (r_value e').
  Definition errs_rel (l l' : list rerror) : Prop :=
    exists l1, Permutation l l1 /\ Forall2 err_rel l1 l'.
  Definition res_rel (r r' : result) : Prop :=
    score r = score r' /\ errs_rel (errors r) (errors r').
  Definition out_rel (x y : out result) : Prop :=
    forall r, x = Ok r -> exists r', y = Ok r' /\ res_rel r r'.

  Lemma res_rel_new : res_rel new_result new_result.
  Proof. split; auto. exists []. split; constructor. Qed.
  Lemma res_rel_inc : res_rel inc inc.
  Proof. split; auto. exists []. split; constructor. Qed.

  Lemma res_rel_add a a' b b' : res_rel a a' -> res_rel b b' -> res_rel (radd a b) (radd a' b').
  Proof.
    intros [H1 (l1 & P1 & F1)] [H2 (l2 & P2 & F2)]. split; simpl; [congruence|].
    exists (l1 ++ l2). split; [apply Permutation_app; auto|apply Forall2_app; auto].
  Qed.

  Lemma res_rel_Valid r r' : res_rel r r' -> Valid r = Valid r'.
  Proof.
    intros [_ (l & P & F)]. unfold Valid.
    destruct (errors r) eqn:E1.
    - apply Permutation_nil in P. subst. inversion F. reflexivity.
    - destruct (errors r'); auto. inversion F; subst. apply Permutation_sym, Permutation_nil in P. discriminate.
  Qed.

  Lemma res_rel_emit t c v v' d : R v v' -> res_rel (emit t c v d) (emit t c v' d).
  Proof.
    intros H. split; auto. simpl. exists [newError t c v d]. split; auto.
    constructor; [|constructor]. unfold newError, err_rel. simpl. auto.
  Qed.

  Lemma out_rel_ok r r' : res_rel r r' -> out_rel (Ok r) (Ok r').
  Proof. intros H r1 [= <-]. eauto. Qed.

  Lemma out_rel_panic y : out_rel Panic y.
  Proof. intros r H; discriminate. Qed.

  Lemma out_rel_when b x y : out_rel x y -> out_rel (when b x) (when b y).
  Proof. destruct b; simpl; auto. intros _. apply out_rel_ok, res_rel_new. Qed.

  Lemma out_rel_bind x y (f g : result -> out result) :
    out_rel x y -> (forall r r', res_rel r r' -> out_rel (f r) (g r')) ->
    out_rel (obind x f) (obind y g).
  Proof.
    intros Hx Hf r E. destruct x as [a| |]; simpl in E; try discriminate.
    destruct (Hx a eq_refl) as (a' & -> & Ha). simpl. exact (Hf a a' Ha r E).
  Qed.

  Lemma out_rel_bind_gen {A B} (Q : A -> B -> Prop) (x : out A) (y : out B) f g :
    (forall a, x = Ok a -> exists b, y = Ok b /\ Q a b) ->
    (forall a b, Q a b -> out_rel (f a) (g b)) -> out_rel (obind x f) (obind y g).
  Proof.
    intros Hx Hf r E. destruct x as [a| |]; simpl in E; try discriminate.
    destruct (Hx a eq_refl) as (b & -> & Hq). simpl. exact (Hf a b Hq r E).
  Qed.

  Lemma out_rel_run_all l l' : Forall2 out_rel l l' -> out_rel (run_all l) (run_all l').
  Proof.
    induction 1; simpl.
    - apply out_rel_ok, res_rel_new.
    - apply out_rel_bind; auto. intros r r' Hr. apply out_rel_bind; auto.
      intros s s' Hs. apply out_rel_ok, res_rel_add; auto.
  Qed.

  (** The loops of anyOf/contains, oneOf and allOf. *)
  Definition best_rel (b b' : option result) : Prop :=
    match b, b' with Some r, Some r' => res_rel r r' | None, None => True | _, _ => False end.

  Lemma best_rel_update b b' r r' :
    best_rel b b' -> res_rel r r' ->
    best_rel (match b with None => Some r | Some x => if (score x <? score r)%Z then Some r else b end)
             (match b' with None => Some r' | Some x => if (score x <? score r')%Z then Some r' else b' end).
  Proof.
    destruct b, b'; simpl; try tauto. intros Hb Hr.
    rewrite (proj1 Hb), (proj1 Hr). destruct (_ <? _)%Z; simpl; auto.
  Qed.

  Lemma first_valid_rel l l' : Forall2 out_rel l l' -> forall b b', best_rel b b' ->
    forall p, first_valid b l = Ok p ->
    exists p', first_valid b' l' = Ok p' /\ fst p = fst p' /\ best_rel (snd p) (snd p').
  Proof.
    induction 1 as [|x y l l' Hxy _ IH]; intros b b' Hb p; simpl.
    - intros [= <-]. exists (false, b'). auto.
    - intros E. destruct x as [r| |]; simpl in E; try discriminate.
      destruct (Hxy r eq_refl) as (r' & -> & Hr). simpl.
      rewrite <- (res_rel_Valid _ _ Hr). destruct (Valid r).
      + injection E as <-. exists (true, b'). auto.
      + eapply IH; [|exact E]. apply best_rel_update; auto.
  Qed.

  Lemma count_valid_rel l l' : Forall2 out_rel l l' -> forall n b b', best_rel b b' ->
    forall p, count_valid n b l = Ok p ->
    exists p', count_valid n b' l' = Ok p' /\ fst p = fst p' /\ best_rel (snd p) (snd p').
  Proof.
    induction 1 as [|x y l l' Hxy _ IH]; intros n b b' Hb p; simpl.
    - intros [= <-]. exists (n, b'). auto.
    - intros E. destruct x as [r| |]; simpl in E; try discriminate.
      destruct (Hxy r eq_refl) as (r' & -> & Hr). simpl.
      rewrite <- (res_rel_Valid _ _ Hr). destruct (Valid r).
      + eapply IH; eauto.
      + eapply IH; [|exact E]. destruct (Nat.eqb n 0); auto. apply best_rel_update; auto.
  Qed.

  Lemma merge_all_rel l l' : Forall2 out_rel l l' ->
    forall p, merge_all l = Ok p ->
    exists p', merge_all l' = Ok p' /\ fst p = fst p' /\ res_rel (snd p) (snd p').
  Proof.
    induction 1 as [|x y l l' Hxy _ IH]; intros p; simpl.
    - intros [= <-]. exists (0, new_result). simpl. auto using res_rel_new.
    - intros E. destruct x as [r| |]; simpl in E; try discriminate.
      destruct (Hxy r eq_refl) as (r' & -> & Hr). simpl.
      destruct (merge_all l) as [q| |]; simpl in E; try discriminate.
      destruct (IH q eq_refl) as (q' & -> & Hq & Hq2). simpl. injection E as <-.
      eexists. split; [reflexivity|]. simpl. rewrite (res_rel_Valid _ _ Hr), Hq.
      auto using res_rel_add.
  Qed.

  (** Lists processed in an arbitrary order. *)
  Lemma run_all_swap x y l r : run_all (x :: y :: l) = Ok r ->
    exists r', run_all (y :: x :: l) = Ok r' /\
      score r = score r' /\ Permutation (errors r) (errors r').
  Proof.
    simpl. destruct x as [a| |]; simpl; try discriminate.
    destruct y as [b| |]; simpl; try discriminate.
    destruct (run_all l) as [z| |]; simpl; try discriminate.
    intros [= <-]. eexists. split; [reflexivity|]. simpl. split; [lia|].
    rewrite !app_assoc. apply Permutation_app_tail, Permutation_app_comm.
  Qed.

  Lemma run_all_perm_eq l l' : Permutation l l' ->
    forall r, run_all l = Ok r ->
    exists r', run_all l' = Ok r' /\ score r = score r' /\ Permutation (errors r) (errors r').
  Proof.
    induction 1; intros r E.
    - exists r. auto.
    - simpl in *. destruct x as [a| |]; simpl in *; try discriminate.
      destruct (run_all l) as [b| |]; simpl in *; try discriminate.
      destruct (IHPermutation b eq_refl) as (b' & -> & H1 & H2). simpl.
      injection E as <-. eexists. split; [reflexivity|]. simpl. split; [congruence|].
      apply Permutation_app_head; auto.
    - apply run_all_swap; auto.
    - destruct (IHPermutation1 _ E) as (r1 & E1 & H1 & P1).
      destruct (IHPermutation2 _ E1) as (r2 & E2 & H2 & P2).
      exists r2. split; auto. split; [congruence|etransitivity; eauto].
  Qed.

  Lemma res_rel_perm_r r r' r'' : res_rel r r' -> score r' = score r'' ->
    Permutation (errors r') (errors r'') -> res_rel r r''.
  Proof.
    intros [H1 (l & P & F)] H2 P2. split; [congruence|].
    destruct (Forall2_perm_r _ _ _ _ P2 F) as (l' & P' & F').
    exists l'. split; auto. etransitivity; eauto.
  Qed.

  Lemma Forall2_mapi {A B} (S : A -> B -> Prop) (f : nat -> A -> out result) (g : nat -> B -> out result) l l' :
    Forall2 S l l' -> (forall i j a b, S a b -> out_rel (f i a) (g j b)) ->
    forall i j, Forall2 out_rel (mapi f i l) (mapi g j l').
  Proof. intros HF Hfg. induction HF; intros i j; simpl; constructor; auto. Qed.

  Lemma Forall2_mapi_same {A B} (S : A -> B -> Prop) (f : nat -> A -> out result) (g : nat -> B -> out result) l l' :
    Forall2 S l l' -> (forall i a b, S a b -> out_rel (f i a) (g i b)) ->
    forall i, Forall2 out_rel (mapi f i l) (mapi g i l').
  Proof. intros HF Hfg. induction HF; intros i; simpl; constructor; auto. Qed.

  Definition rsum (l : list result) : result := fold_right radd new_result l.

  Lemma run_all_Ok l r : run_all l = Ok r <-> exists rs, l = map Ok rs /\ r = rsum rs.
  Proof.
    revert r. induction l as [|x l IH]; intros r; simpl.
    - split; [intros [= <-]; exists []; auto|]. intros ([|? ?] & H & ->); [reflexivity|discriminate].
    - split.
      + destruct x as [a| |]; simpl; try discriminate.
        destruct (run_all l) as [b| |] eqn:E; simpl; try discriminate.
        destruct (proj1 (IH b) eq_refl) as (rs & -> & ->). intros [= <-].
        exists (a :: rs). auto.
      + intros ([|a rs] & H & ->); [discriminate|]. simpl in H. injection H as -> ->.
        simpl. rewrite (proj2 (IH (rsum rs))); simpl; eauto.
  Qed.

  Lemma rsum_perm rs rs' : Permutation rs rs' ->
    score (rsum rs) = score (rsum rs') /\ Permutation (errors (rsum rs)) (errors (rsum rs')).
  Proof.
    induction 1 as [|x l l' _ [IH1 IH2]|x y l|l l' l'' _ [H1 H2] _ [H3 H4]]; simpl.
    - auto.
    - split; [lia|apply Permutation_app_head; auto].
    - split; [lia|]. rewrite !app_assoc. apply Permutation_app_tail, Permutation_app_comm.
    - split; [congruence|etransitivity; eauto].
  Qed.

  Lemma res_rel_rsum rs rs' : Forall2 res_rel rs rs' -> res_rel (rsum rs) (rsum rs').
  Proof. induction 1; simpl; auto using res_rel_new, res_rel_add. Qed.

  Lemma res_rel_perm_l r r' r'' : score r = score r' ->
    Permutation (errors r) (errors r') -> res_rel r' r'' -> res_rel r r''.
  Proof.
    intros H1 P [H2 (l & P2 & F)]. split; [congruence|]. exists l. split; auto. etransitivity; eauto.
  Qed.

  Lemma run_all_mapi_perm {A B} (S : A -> B -> Prop) (f : nat -> A -> out result) (g : nat -> B -> out result)
        l l1 l2 l' :
    Permutation l l1 -> Forall2 S l1 l2 -> Permutation l2 l' ->
    (forall i j a b, S a b -> out_rel (f i a) (g j b)) ->
    out_rel (run_all (mapi f 0 l)) (run_all (mapi g 0 l')).
  Proof.
    intros P1 F P2 Hfg r E.
    destruct (Forall2_perm_l _ _ _ _ (Permutation_sym P1) F) as (l3 & P3 & F3).
    assert (P4 : Permutation l3 l') by (etransitivity; [symmetry; exact P3|exact P2]).
    clear P1 P2 P3 F l1 l2.
    apply run_all_Ok in E. destruct E as (rs & E & ->).
    set (T := fun (b : B) (r : result) => forall j, exists r', g j b = Ok r' /\ res_rel r r').
    assert (FT : Forall2 T l3 rs).
    { clear P4. revert rs E. generalize 0. induction F3 as [|a b l l3 Hab _ IH]; intros i rs E.
      - destruct rs; [constructor|discriminate].
      - destruct rs as [|ra rs]; [discriminate|]. simpl in E. injection E as E1 E2.
        constructor; [|eauto]. intros j. exact (Hfg i j a b Hab ra E1). }
    destruct (Forall2_perm_l _ _ _ _ P4 FT) as (rs' & P5 & FT').
    assert (exists rs2, mapi g 0 l' = map Ok rs2 /\ Forall2 res_rel rs' rs2) as (rs2 & E2 & F2).
    { clear - FT'. generalize 0. induction FT' as [|b ra l' rs' Hb _ IH]; intros i.
      - exists []. split; constructor.
      - destruct (IH (Datatypes.S i)) as (rs2 & E2 & F2). destruct (Hb i) as (r' & E' & Hr).
        exists (r' :: rs2). simpl. rewrite E', E2. auto. }
    exists (rsum rs2). split.
    - apply run_all_Ok. eauto.
    - destruct (rsum_perm _ _ P5). eapply res_rel_perm_l; eauto. apply res_rel_rsum; auto.
  Qed.
End Order.

Lemma filter_perm {A} (p : A -> bool) l l' : Permutation l l' -> Permutation (filter p l) (filter p l').
Proof.
  induction 1; simpl; auto.
  - destruct (p x); auto.
  - destruct (p x), (p y); auto. apply perm_swap.
  - etransitivity; eauto.
Qed.

Lemma Forall2_eq_refl {A} (l : list A) : Forall2 eq l l.
Proof. induction l; constructor; auto. Qed.

(** ** Two runs of the validator on related values *)

(** What a value relation must satisfy; instances below. *)
Record value_rel (env : goenv) (R : value -> value -> Prop) : Prop := {
  vr_shape : forall v v', R v v' ->
    match v, v' with
    | VNil, VNil => True
    | VBool b, VBool b' => b = b'
    | VNum s, VNum s' => s = s'
    | VFloat f, VFloat f' => f = f'
    | VStr s, VStr s' => s = s'
    | VArr l, VArr l' => Forall2 R l l'
    | VMap m, VMap m' => NoDup (map fst m) /\ map_rel R m m'
    | VIMap _, VIMap _ => True
    | VIMap _, VMap _ => True
    | _, _ => False
    end;
  vr_str : forall s, R (VStr s) (VStr s);
  vr_marshal : forall v v' t, R v v' -> marshalWithoutNumber v = Some t -> marshalWithoutNumber v' = Some t;
  vr_format : forall f v v', R v v' -> e_is_format env f v = e_is_format env f v';
  vr_convert : forall m v' w, R (VIMap m) v' -> convertDocumentNode (VIMap m) = Ok w ->
    exists w', convertDocumentNode v' = Ok w' /\ R w w'
}.

Section NodeOrder.
  Variable env : goenv.
  Variable h : heap.
  Variable R : value -> value -> Prop.
  Hypothesis HR : value_rel env R.
  Variables rec1 rec2 : oracle -> nat -> value -> ctx -> out result.
  Hypothesis Hrec : forall o1 o2 id v v' c, fair o1 -> fair o2 -> R v v' ->
    out_rel R (rec1 o1 id v c) (rec2 o2 id v' c).

  Hint Resolve out_rel_ok res_rel_new res_rel_inc res_rel_add res_rel_emit out_rel_when
       shift_fair out_rel_panic : orel.

  Lemma run_list l l' : Forall2 (out_rel R) l l' -> out_rel R (run_all l) (run_all l').
  Proof. apply out_rel_run_all. Qed.

  Lemma branches_rel o1 o2 ids v v' c : fair o1 -> fair o2 -> R v v' ->
    Forall2 (out_rel R) (mapi (fun i id => rec1 (shift o1 i) id v c) 0 ids)
                        (mapi (fun i id => rec2 (shift o2 i) id v' c) 0 ids).
  Proof.
    intros F1 F2 Hv. apply Forall2_mapi_same with (S := eq); [apply Forall2_eq_refl|].
    intros i a b <-. auto with orel.
  Qed.

  Lemma rel_anyOf o1 o2 n v v' c : fair o1 -> fair o2 -> R v v' ->
    out_rel R (v_anyOf rec1 o1 n v c) (v_anyOf rec2 o2 n v' c).
  Proof.
    intros F1 F2 Hv. unfold v_anyOf. destruct (n_anyOf n) as [|i l] eqn:En; auto with orel.
    eapply out_rel_bind_gen.
    - apply first_valid_rel; [apply branches_rel; auto|exact I].
    - intros p p' [Hf Hb]. rewrite <- Hf. destruct (fst p); auto with orel.
      apply run_list. constructor; auto with orel. constructor; auto.
      unfold merge_best_opt. destruct (snd p), (snd p'); simpl in Hb; try tauto; auto with orel.
  Qed.

  Lemma rel_oneOf o1 o2 n v v' c : fair o1 -> fair o2 -> R v v' ->
    out_rel R (v_oneOf rec1 o1 n v c) (v_oneOf rec2 o2 n v' c).
  Proof.
    intros F1 F2 Hv. unfold v_oneOf. destruct (n_oneOf n) as [|i l] eqn:En; auto with orel.
    eapply out_rel_bind_gen.
    - apply count_valid_rel; [apply branches_rel; auto|exact I].
    - intros p p' [Hf Hb]. rewrite <- Hf. destruct (Nat.eqb (fst p) 1); auto with orel.
      apply run_list. constructor; auto with orel. constructor; auto. apply out_rel_when.
      unfold merge_best. destruct (snd p), (snd p'); simpl in Hb; try tauto; auto with orel.
  Qed.

  Lemma rel_allOf o1 o2 n v v' c : fair o1 -> fair o2 -> R v v' ->
    out_rel R (v_allOf rec1 o1 n v c) (v_allOf rec2 o2 n v' c).
  Proof.
    intros F1 F2 Hv. unfold v_allOf. destruct (n_allOf n) as [|i l] eqn:En; auto with orel.
    eapply out_rel_bind_gen.
    - apply merge_all_rel, branches_rel; auto.
    - intros p p' [Hf Hb]. rewrite <- Hf. apply run_list. constructor; auto with orel.
  Qed.

  Lemma rel_not o1 o2 n v v' c : fair o1 -> fair o2 -> R v v' ->
    out_rel R (v_not rec1 o1 n v c) (v_not rec2 o2 n v' c).
  Proof.
    intros F1 F2 Hv. unfold v_not. destruct (n_not n); auto with orel.
    apply out_rel_bind with (R := R); auto. intros r r' Hr. rewrite (res_rel_Valid _ _ _ Hr). auto with orel.
  Qed.

  Lemma rel_isKind_map v v' : R v v' -> isKind_map env v = isKind_map env v'.
  Proof.
    intros Hv. pose proof (vr_shape _ _ HR _ _ Hv) as Hs.
    destruct v, v'; simpl in *; try tauto; subst; auto.
  Qed.

  Lemma rel_isKind_string v v' : R v v' -> isKind_string env v = isKind_string env v'.
  Proof.
    intros Hv. pose proof (vr_shape _ _ HR _ _ Hv) as Hs.
    destruct v, v'; simpl in *; try tauto; subst; auto.
  Qed.

  Lemma assoc_some_rel k (m m' : list (string * value)) (x y x' y' : out result) :
    NoDup (map fst m) -> map_rel R m m' -> out_rel R x x' -> out_rel R y y' ->
    out_rel R (match assoc k m with Some _ => x | None => y end)
              (match assoc k m' with Some _ => x' | None => y' end).
  Proof.
    intros Hn Hm Hx Hy. pose proof (assoc_map_rel R k m m' Hn Hm) as H.
    destruct (assoc k m), (assoc k m'); simpl in *; tauto.
  Qed.

  Lemma rel_dependency o1 o2 n m m' v v' c k : fair o1 -> fair o2 -> R v v' ->
    NoDup (map fst m) -> map_rel R m m' ->
    out_rel R (v_dependency rec1 o1 n m v c k) (v_dependency rec2 o2 n m' v' c k).
  Proof.
    intros F1 F2 Hv Hn Hm. unfold v_dependency.
    destruct (assoc k (n_dependencies n)) as [[ks|id]|]; auto with orel.
    apply run_list. induction ks; simpl; constructor; auto.
    apply assoc_some_rel; auto with orel.
  Qed.

  (** Ranging over related maps in two fair orders. *)
  Lemma range_rel o1 o2 (m m' : list (string * value)) (f g : nat -> string * value -> out result) :
    fair o1 -> fair o2 -> map_rel R m m' ->
    (forall i j k x x', R x x' -> out_rel R (f i (k, x)) (g j (k, x'))) ->
    out_rel R (run_all (mapi f 0 (pick o1 m))) (run_all (mapi g 0 (pick o2 m'))).
  Proof.
    intros F1 F2 (m1 & HP & HF) Hfg.
    eapply run_all_mapi_perm with (S := entry_rel R) (l1 := m1) (l2 := m').
    - etransitivity; [symmetry; apply pick_perm; auto|auto].
    - auto.
    - apply pick_perm; auto.
    - intros i j [k x] [k' x'] [H1 H2]. simpl in *; subst. auto.
  Qed.

  Lemma rel_dependencies o1 o2 n v v' c : fair o1 -> fair o2 -> R v v' ->
    out_rel R (v_dependencies env rec1 o1 n v c) (v_dependencies env rec2 o2 n v' c).
  Proof.
    intros F1 F2 Hv. unfold v_dependencies. destruct (n_dependencies n) eqn:En; auto with orel.
    rewrite <- (rel_isKind_map _ _ Hv). destruct (isKind_map env v) as [b| |]; simpl; auto with orel.
    - destruct b; auto with orel.
      pose proof (vr_shape _ _ HR _ _ Hv) as Hs.
      destruct v, v'; simpl in Hs; try tauto; auto with orel.
      destruct Hs as [Hn Hm]. apply range_rel; auto with orel.
      intros. simpl. apply rel_dependency; auto with orel.
    - intros r E; discriminate.
  Qed.

  Lemma rel_if o1 o2 n v v' c : fair o1 -> fair o2 -> R v v' ->
    out_rel R (v_if rec1 o1 n v c) (v_if rec2 o2 n v' c).
  Proof.
    intros F1 F2 Hv. unfold v_if. destruct (n_if n); auto with orel.
    apply out_rel_bind with (R := R); auto with orel. intros r r' Hr.
    rewrite (res_rel_Valid _ _ _ Hr). apply run_list. constructor; [|constructor; [|constructor]].
    - destruct (n_then n); auto with orel. apply out_rel_when, out_rel_bind with (R := R); auto with orel.
      intros s s' Hs. rewrite (res_rel_Valid _ _ _ Hs). apply out_rel_when, run_list. auto with orel.
    - destruct (n_else n); auto with orel. apply out_rel_when, out_rel_bind with (R := R); auto with orel.
      intros s s' Hs. rewrite (res_rel_Valid _ _ _ Hs). apply out_rel_when, run_list. auto with orel.
  Qed.

  Lemma rel_validateSchema o1 o2 n v v' c : fair o1 -> fair o2 -> R v v' ->
    out_rel R (validateSchema env rec1 o1 n v c) (validateSchema env rec2 o2 n v' c).
  Proof.
    intros F1 F2 Hv. unfold validateSchema. apply run_list.
    repeat (constructor; [auto using rel_anyOf, rel_oneOf, rel_allOf, rel_not, rel_dependencies, rel_if with orel|]).
    constructor.
  Qed.

  Lemma rel_validateCommon n v v' c : R v v' ->
    out_rel R (validateCommon env n v c) (validateCommon env n v' c).
  Proof.
    intros Hv. unfold validateCommon. apply run_list.
    constructor; [|constructor; [|constructor; [|constructor; [|constructor]]]]; auto with orel.
    - unfold v_const. destruct (n_const n); auto with orel.
      destruct (marshalWithoutNumber v) eqn:Em; auto with orel.
      rewrite (vr_marshal _ _ HR _ _ _ Hv Em). auto with orel.
    - unfold v_enum. destruct (n_enum n); auto with orel.
      destruct (marshalWithoutNumber v) eqn:Em; auto with orel.
      rewrite (vr_marshal _ _ HR _ _ _ Hv Em). auto with orel.
    - unfold v_format. destruct (String.eqb (n_format n) ""); auto with orel.
      rewrite <- (vr_format _ _ HR _ _ _ Hv). auto with orel.
  Qed.

  Lemma rel_item o1 o2 c id i x x' : fair o1 -> fair o2 -> R x x' ->
    out_rel R (v_item rec1 o1 c id i x) (v_item rec2 o2 c id i x').
  Proof. intros F1 F2 Hx. unfold v_item. auto with orel. Qed.

  Lemma rel_items_zip o1 o2 c ids l l' : fair o1 -> fair o2 -> Forall2 R l l' -> forall i,
    Forall2 (out_rel R) (v_items_zip rec1 o1 c i ids l) (v_items_zip rec2 o2 c i ids l').
  Proof.
    intros F1 F2 Hl. revert ids. induction Hl; intros [|id ids] i; simpl; constructor; auto.
    apply rel_item; auto.
  Qed.

  Lemma rel_each_item o1 o2 c id l l' : fair o1 -> fair o2 -> Forall2 R l l' -> forall i,
    Forall2 (out_rel R) (mapi (v_item rec1 o1 c id) i l) (mapi (v_item rec2 o2 c id) i l').
  Proof.
    intros F1 F2 Hl i. apply Forall2_mapi_same with (S := R); auto.
    intros. apply rel_item; auto.
  Qed.

  Lemma Forall2_skipn {A B} (S : A -> B -> Prop) k l l' : Forall2 S l l' -> Forall2 S (skipn k l) (skipn k l').
  Proof. intros H. revert k. induction H; intros [|k]; simpl; auto. Qed.

  Lemma rel_unique_loop c w w' : R w w' -> forall l l', Forall2 R l l' -> forall seen j,
    out_rel R (unique_loop c w seen j l) (unique_loop c w' seen j l').
  Proof.
    intros Hw. induction 1 as [|x x' l l' Hx _ IH]; intros seen j; simpl; auto with orel.
    destruct (marshalWithoutNumber x) eqn:Em; auto with orel.
    rewrite (vr_marshal _ _ HR _ _ _ Hx Em).
    apply out_rel_bind with (R := R); auto. intros r r' Hr. apply out_rel_ok, res_rel_add; auto.
    destruct (assoc s seen); auto with orel.
  Qed.

  Lemma rel_validateArray o1 o2 n l l' c : fair o1 -> fair o2 -> R (VArr l) (VArr l') -> Forall2 R l l' ->
    out_rel R (validateArray rec1 o1 n l c) (validateArray rec2 o2 n l' c).
  Proof.
    intros F1 F2 Hv Hl. unfold validateArray. apply run_list.
    pose proof (Forall2_length _ _ _ Hl) as Hlen.
    constructor; [|constructor; [|constructor; [|constructor; [|constructor; [|constructor; [|constructor]]]]]];
      auto with orel.
    - unfold v_items. destruct (n_items_single n).
      + destruct (n_items n) as [|id ids].
        * inversion Hl; subst; auto with orel.
        * apply run_list, rel_each_item; auto with orel.
      + destruct (n_items n) as [|id ids]; auto with orel. rewrite <- Hlen.
        apply run_list. constructor; [|constructor; [|constructor]].
        * apply run_list, rel_items_zip; auto with orel.
        * apply out_rel_when. destruct (n_additionalItems n) as [[[|]|i]|]; auto with orel.
          apply run_list, rel_each_item; auto using Forall2_skipn with orel.
    - unfold v_minItems. rewrite <- Hlen. destruct (n_minItems n); auto with orel.
    - unfold v_maxItems. rewrite <- Hlen. destruct (n_maxItems n); auto with orel.
    - unfold v_uniqueItems. apply out_rel_when, rel_unique_loop; auto.
    - unfold v_contains. destruct (n_contains n); auto with orel.
      eapply out_rel_bind_gen.
      + apply first_valid_rel; [apply rel_each_item; auto with orel|exact I].
      + intros p p' [Hf Hb]. rewrite <- Hf. destruct (fst p); auto with orel.
        apply run_list. constructor; auto with orel. constructor; auto.
        unfold merge_best_opt. destruct (snd p), (snd p'); simpl in Hb; try tauto; auto with orel.
  Qed.

  Lemma rel_patternProperty o1 o2 n k x x' c : fair o1 -> fair o2 -> R x x' ->
    forall p, validatePatternProperty env rec1 o1 n k x c = Ok p ->
    exists p', validatePatternProperty env rec2 o2 n k x' c = Ok p' /\ fst p = fst p' /\ res_rel R (snd p) (snd p').
  Proof.
    intros F1 F2 Hx p E. unfold validatePatternProperty in *.
    set (hits1 := filter _ (pick (shift o1 0) _)) in *.
    set (hits2 := filter _ (pick (shift o2 0) _)) in *.
    assert (HP : Permutation hits1 hits2).
    { apply filter_perm. etransitivity; [symmetry|]; apply pick_perm; auto with orel. }
    destruct (run_all (mapi _ 0 hits1)) as [r| |] eqn:Er; simpl in E; try discriminate.
    assert (Ho : out_rel R
      (run_all (mapi (fun i (e : string * nat) => rec1 (shift o1 (S i)) (snd e) x (NewJsonContext k c)) 0 hits1))
      (run_all (mapi (fun i (e : string * nat) => rec2 (shift o2 (S i)) (snd e) x' (NewJsonContext k c)) 0 hits2))).
    { eapply run_all_mapi_perm with (S := eq); [exact HP|apply Forall2_eq_refl|apply Permutation_refl|].
      intros i j a b <-. auto with orel. }
    destruct (Ho r Er) as (r' & Er' & Hr).
    rewrite Er'. simpl.
    destruct hits1, hits2.
    - injection E as <-. eexists; split; [reflexivity|]. simpl; auto.
    - apply Permutation_length in HP; discriminate.
    - apply Permutation_length in HP; discriminate.
    - injection E as <-. eexists; split; [reflexivity|]. simpl; auto with orel.
  Qed.

  Lemma rel_member o1 o2 n c k x x' : fair o1 -> fair o2 -> R x x' ->
    out_rel R (v_member env h rec1 o1 n c (k, x)) (v_member env h rec2 o2 n c (k, x')).
  Proof.
    intros F1 F2 Hx. unfold v_member.
    apply out_rel_bind_gen with (Q := eq); [eauto|]. intros found _ <-.
    eapply out_rel_bind_gen.
    - apply rel_patternProperty; auto with orel.
    - intros p p' [Hf Hr]. rewrite <- Hf. apply out_rel_bind with (R := R).
      + destruct (_ && _)%bool; auto with orel.
        destruct (n_additionalProperties n) as [[[|]|id]|]; auto with orel.
      + intros s s' Hs. auto with orel.
  Qed.

  Lemma rel_validateObject o1 o2 n m m' c : fair o1 -> fair o2 -> R (VMap m) (VMap m') ->
    NoDup (map fst m) -> map_rel R m m' ->
    out_rel R (validateObject env h rec1 o1 n m c) (validateObject env h rec2 o2 n m' c).
  Proof.
    intros F1 F2 Hv Hn Hm. unfold validateObject. apply run_list.
    pose proof (map_rel_length _ _ _ Hm) as Hlen.
    constructor; [|constructor; [|constructor; [|constructor; [|constructor; [|constructor; [|constructor]]]]]];
      auto with orel.
    - unfold v_minProperties. rewrite <- Hlen. destruct (n_minProperties n); auto with orel.
    - unfold v_maxProperties. rewrite <- Hlen. destruct (n_maxProperties n); auto with orel.
    - unfold v_required. apply run_list. induction (n_required n); simpl; constructor; auto.
      apply assoc_some_rel; auto with orel.
    - unfold v_members. apply range_rel; auto with orel.
      intros. apply rel_member; auto with orel.
    - unfold v_propertyNames. destruct (n_propertyNames n); auto with orel.
      apply range_rel; auto with orel. intros i j k x x' Hx. simpl fst.
      apply out_rel_bind with (R := R); [apply Hrec; auto with orel; apply (vr_str _ _ HR)|].
      intros r r' Hr. rewrite (res_rel_Valid _ _ _ Hr). apply out_rel_when, run_list; auto with orel.
  Qed.

  Lemma rel_validateNumber n v v' c : R v v' -> out_rel R (validateNumber env n v c) (validateNumber env n v' c).
  Proof.
    intros Hv. pose proof (vr_shape _ _ HR _ _ Hv) as Hs. unfold validateNumber.
    destruct v, v'; simpl in Hs; try tauto; auto with orel. subst.
    apply run_list. repeat (constructor; [unfold v_multipleOf, v_bound|]); try constructor; auto with orel.
    - destruct (n_multipleOf n); auto with orel. destruct (rat_of _ _); auto with orel.
      destruct (Qeq_bool _ _); auto with orel.
    - destruct (n_maximum n); auto with orel. destruct (rat_of _ _); auto with orel.
    - destruct (n_exclusiveMaximum n); auto with orel. destruct (rat_of _ _); auto with orel.
    - destruct (n_minimum n); auto with orel. destruct (rat_of _ _); auto with orel.
    - destruct (n_exclusiveMinimum n); auto with orel. destruct (rat_of _ _); auto with orel.
  Qed.

  Lemma rel_validateString n v v' c : R v v' -> out_rel R (validateString env n v c) (validateString env n v' c).
  Proof.
    intros Hv. pose proof (vr_shape _ _ HR _ _ Hv) as Hs. unfold validateString.
    destruct v, v'; simpl in Hs; try tauto; simpl; auto with orel. subst.
    unfold v_string_checks. apply run_list.
    constructor; [|constructor; [|constructor; [|constructor; [|constructor]]]]; auto with orel.
    - destruct (n_minLength n); auto with orel.
    - destruct (n_maxLength n); auto with orel.
    - destruct (n_pattern n); auto with orel.
  Qed.

  Lemma rel_scalar_checks o1 o2 n v v' c : fair o1 -> fair o2 -> R v v' ->
    out_rel R (scalar_checks env rec1 o1 n v c) (scalar_checks env rec2 o2 n v' c).
  Proof.
    intros F1 F2 Hv. unfold scalar_checks. apply run_list.
    repeat (constructor; [auto using rel_validateSchema, rel_validateNumber, rel_validateCommon, rel_validateString with orel|]).
    constructor.
  Qed.

  Lemma rel_object_checks o1 o2 n m m' c : fair o1 -> fair o2 -> R (VMap m) (VMap m') ->
    out_rel R (object_checks env h rec1 o1 n m c) (object_checks env h rec2 o2 n m' c).
  Proof.
    intros F1 F2 Hv. destruct (vr_shape _ _ HR _ _ Hv) as [Hn Hm].
    unfold object_checks. apply run_list.
    constructor; [|constructor; [|constructor; [|constructor; [|constructor; [|constructor]]]]];
      auto using rel_validateSchema, rel_validateObject, rel_validateCommon with orel.
    apply run_list. apply Forall2_mapi_same with (S := eq); [apply Forall2_eq_refl|].
    intros i a b <-. unfold v_property. destruct (prop_name h a) as [p| |]; simpl; auto with orel.
    + pose proof (assoc_map_rel R p m m' Hn Hm) as H.
      destruct (assoc p m), (assoc p m'); simpl in H; try tauto; auto with orel.
    + intros r E; discriminate.
  Qed.

  Lemma rel_type_error n v v' c t : R v v' -> out_rel R (type_error n v c t) (type_error n v' c t).
  Proof. unfold type_error. auto with orel. Qed.

  Lemma rel_validateNode o1 o2 n v v' c : fair o1 -> fair o2 -> R v v' ->
    out_rel R (validateNode env h rec1 o1 n v c) (validateNode env h rec2 o2 n v' c).
  Proof.
    intros F1 F2 Hv. unfold validateNode.
    destruct (n_pass n) as [[|]|]; auto with orel.
    destruct (n_ref n); auto.
    pose proof (vr_shape _ _ HR _ _ Hv) as Hs.
    destruct v, v'; simpl in Hs; try tauto; subst; cbn [IsTyped];
      try (destruct (_ && _)%bool; [apply rel_type_error; auto|]); auto using rel_scalar_checks with orel.
    - apply run_list. repeat (constructor; [auto using rel_validateSchema, rel_validateCommon with orel|]). constructor.
    - apply run_list. repeat (constructor; [auto using rel_validateSchema, rel_validateCommon, rel_validateArray with orel|]). constructor.
    - apply rel_object_checks; auto.
    - refine (out_rel_bind_gen R R (convertDocumentNode (VIMap m)) (convertDocumentNode (VMap m0)) _
                (fun w => match w with VMap m => object_checks env h rec2 o2 n m c | _ => Panic end) _ _).
      + intros w Ew. exact (vr_convert _ _ HR _ _ _ Hv Ew).
      + intros w w' Hw. pose proof (vr_shape _ _ HR _ _ Hw) as Hs'.
        destruct w, w'; simpl in Hs'; try tauto; auto with orel.
        apply rel_object_checks; auto.
    - eapply out_rel_bind_gen.
      + intros w Ew. exact (vr_convert _ _ HR _ _ _ Hv Ew).
      + intros w w' Hw. pose proof (vr_shape _ _ HR _ _ Hw) as Hs'.
        destruct w, w'; simpl in Hs'; try tauto; auto with orel.
        apply rel_object_checks; auto.
  Qed.
End NodeOrder.

Theorem validateRecursive_rel env h R : value_rel env R ->
  forall k o1 o2 id v v' c, fair o1 -> fair o2 -> R v v' ->
  out_rel R (validateRecursive env h k o1 id v c) (validateRecursive env h k o2 id v' c).
Proof.
  intros HR. induction k as [|k IH]; intros o1 o2 id v v' c F1 F2 Hv; simpl.
  - intros r E; discriminate.
  - destruct (nth_error h id); [|apply out_rel_panic].
    apply rel_validateNode; auto.
Qed.
