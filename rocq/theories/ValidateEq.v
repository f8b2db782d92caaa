(** Instances of the relation of ValidateOrder.v: the same value, and values that
    differ only in the order of their members. *)
From Verif Require Export ValidateOrder SortKeys.

(** Equal up to the order of object members, at any depth. *)
Inductive veq : value -> value -> Prop :=
| veq_nil : veq VNil VNil
| veq_bool b : veq (VBool b) (VBool b)
| veq_num s : veq (VNum s) (VNum s)
| veq_float f : veq (VFloat f) (VFloat f)
| veq_str s : veq (VStr s) (VStr s)
| veq_arr l l' : veqs l l' -> veq (VArr l) (VArr l')
| veq_map m m1 m' : Permutation m m1 -> veqm m1 m' -> veq (VMap m) (VMap m')
| veq_imap m m1 m' : Permutation m m1 -> veqm' m1 m' -> veq (VIMap m) (VIMap m')
with veqs : list value -> list value -> Prop :=
| veqs_nil : veqs [] []
| veqs_cons x x' l l' : veq x x' -> veqs l l' -> veqs (x :: l) (x' :: l')
with veqm : list (string * value) -> list (string * value) -> Prop :=
| veqm_nil : veqm [] []
| veqm_cons k x x' m m' : veq x x' -> veqm m m' -> veqm ((k, x) :: m) ((k, x') :: m')
with veqm' : list (option string * value) -> list (option string * value) -> Prop :=
| veqm'_nil : veqm' [] []
| veqm'_cons k x x' m m' : veq x x' -> veqm' m m' -> veqm' ((k, x) :: m) ((k, x') :: m').

Lemma veqs_Forall2 l l' : veqs l l' <-> Forall2 veq l l'.
Proof. split; induction 1; constructor; auto. Qed.
Lemma veqm_Forall2 m m' : veqm m m' <-> Forall2 (entry_rel veq) m m'.
Proof.
  split; induction 1.
  - constructor.
  - constructor; auto. split; auto.
  - constructor.
  - destruct x, y, H. simpl in *; subst. constructor; auto.
Qed.
Lemma veqm'_Forall2 m m' : veqm' m m' <-> Forall2 (fun a b => fst a = fst b /\ veq (snd a) (snd b)) m m'.
Proof.
  split; induction 1.
  - constructor.
  - constructor; auto.
  - constructor.
  - destruct x, y, H. simpl in *; subst. constructor; auto.
Qed.

Lemma veq_refl v : veq v v.
Proof.
  induction v using value_ind'; try constructor.
  - apply veqs_Forall2. induction H; constructor; auto.
  - econstructor; [apply Permutation_refl|]. apply veqm_Forall2.
    induction H; constructor; auto. split; auto.
  - econstructor; [apply Permutation_refl|]. apply veqm'_Forall2.
    induction H; constructor; auto.
Qed.

(** ** convertDocumentNode *)

Definition conv_list : list value -> out (list value) :=
  fix go (l : list value) : out (list value) :=
    match l with
    | [] => Ok []
    | x :: l' => do y <- convertDocumentNode x; do r <- go l'; Ok (y :: r)
    end.
Definition conv_map : list (option string * value) -> out (list (string * value)) :=
  fix go (m : list (option string * value)) : out (list (string * value)) :=
    match m with
    | [] => Ok []
    | (Some k, x) :: m' => do y <- convertDocumentNode x; do r <- go m'; Ok ((k, y) :: r)
    | (None, _) :: _ => Panic
    end.

Lemma convert_arr l : convertDocumentNode (VArr l) = do l' <- conv_list l; Ok (VArr l').
Proof. reflexivity. Qed.
Lemma convert_imap m : convertDocumentNode (VIMap m) = do m' <- conv_map m; Ok (VMap m').
Proof. reflexivity. Qed.

Definition conv_entry (e : option string * value) (e' : string * value) : Prop :=
  fst e = Some (fst e') /\ convertDocumentNode (snd e) = Ok (snd e').

Lemma conv_list_Ok l l' : conv_list l = Ok l' <-> Forall2 (fun x y => convertDocumentNode x = Ok y) l l'.
Proof.
  revert l'. induction l as [|x l IH]; intros l'; simpl.
  - split; [intros [= <-]; constructor|inversion 1; reflexivity].
  - split.
    + destruct (convertDocumentNode x) eqn:E; simpl; try discriminate.
      destruct (conv_list l) eqn:El; simpl; try discriminate. intros [= <-]. constructor; auto.
      apply IH; auto.
    + inversion 1; subst. rewrite H2. simpl. apply IH in H4. rewrite H4. reflexivity.
Qed.

Lemma conv_map_Ok m m' : conv_map m = Ok m' <-> Forall2 conv_entry m m'.
Proof.
  revert m'. induction m as [|[k x] m IH]; intros m'; simpl.
  - split; [intros [= <-]; constructor|inversion 1; reflexivity].
  - split.
    + destruct k; [|discriminate].
      destruct (convertDocumentNode x) eqn:E; simpl; try discriminate.
      destruct (conv_map m) eqn:El; simpl; try discriminate. intros [= <-]. constructor.
      * split; auto.
      * apply IH; auto.
    + inversion 1; subst. destruct y as [k' y], H2 as [H2 H3]. simpl in *; subst. rewrite H3. simpl.
      apply IH in H4. rewrite H4. reflexivity.
Qed.

Lemma convert_wf v : forall w, wf_value v -> convertDocumentNode v = Ok w -> wf_value w.
Proof.
  induction v using value_ind'; intros w Hw E; try (injection E as <-; auto; fail).
  - rewrite convert_arr in E. destruct (conv_list l) as [l'| |] eqn:El; simpl in E; try discriminate.
    injection E as <-. apply conv_list_Ok in El. inversion Hw; subst. constructor.
    clear Hw. induction El; auto. inversion H; inversion H1; subst. constructor; auto.
  - rewrite convert_imap in E. destruct (conv_map m) as [m'| |] eqn:Em; simpl in E; try discriminate.
    injection E as <-. apply conv_map_Ok in Em. inversion Hw; subst. constructor.
    + clear Hw H H2.
      assert (map fst m = map Some (map fst m')).
      { clear H1. induction Em as [|e e' m m' [H1 H2] _ IH]; simpl; congruence. }
      rewrite H in H1. apply NoDup_map_inv in H1. auto.
    + clear Hw H1. induction Em as [|e e' m m' [H3 H4] _ IH]; auto.
      inversion H; inversion H2; subst. constructor; eauto.
Qed.

Lemma convert_veq v : forall v' w, veq v v' -> convertDocumentNode v = Ok w ->
  exists w', convertDocumentNode v' = Ok w' /\ veq w w'.
Proof.
  induction v using value_ind'; intros v' w Hv E; inversion Hv; subst;
    try (injection E as <-; eexists; split; [reflexivity|]; auto; fail).
  - rewrite convert_arr in *. destruct (conv_list l) as [r| |] eqn:El; simpl in E; try discriminate.
    injection E as <-. apply conv_list_Ok in El. apply veqs_Forall2 in H1.
    assert (exists r', conv_list l' = Ok r' /\ Forall2 veq r r') as (r' & -> & Hr).
    { clear Hv. revert r El. induction H1 as [|x x' l l' Hx _ IH]; intros r El.
      - inversion El; subst. exists []; auto.
      - inversion El as [|? y ? r0 Ex Er]; subst. inversion H as [|? ? Hx' Hl']; subst.
        destruct (Hx' _ _ Hx Ex) as (w' & E1 & V1).
        destruct (IH Hl' _ Er) as (r' & E2 & V2).
        exists (w' :: r'). split; [|constructor; auto]. simpl. rewrite E1. simpl. rewrite E2. reflexivity. }
    simpl. eexists; split; [reflexivity|]. constructor. apply veqs_Forall2. auto.
  - rewrite convert_imap in *. destruct (conv_map m) as [r| |] eqn:El; simpl in E; try discriminate.
    injection E as <-. apply conv_map_Ok in El.
    match goal with H : veqm' _ _ |- _ => rename H into H3 end.
    match goal with H : Permutation _ _ |- _ => rename H into H2 end.
    apply veqm'_Forall2 in H3.
    destruct (Forall2_perm_l _ _ _ _ H2 El) as (r1 & P1 & F1).
    assert (H' : Forall (fun e => forall v' w, veq (snd e) v' -> convertDocumentNode (snd e) = Ok w ->
              exists w', convertDocumentNode v' = Ok w' /\ veq w w') m1).
    { eapply Permutation_Forall; eauto. }
    clear H Hv H2 El.
    assert (exists r', conv_map m' = Ok r' /\ Forall2 (entry_rel veq) r1 r') as (r' & -> & Hr).
    { clear P1. revert r1 F1. induction H3 as [|[k x] [k' x'] m1 m' [Hk Hx] _ IH]; intros r1 F1.
      - inversion F1; subst. exists []; auto.
      - inversion F1 as [|? [k2 y] ? r0 [Hk2 Ey] Er]; subst. inversion H' as [|? ? Hx' Hm']; subst.
        simpl in *. subst.
        destruct (Hx' _ _ Hx Ey) as (w' & E1 & V1). destruct (IH Hm' _ Er) as (r' & E2 & V2).
        exists ((k2, w') :: r'). split; [|constructor; auto; split; auto].
        rewrite E1. simpl. rewrite E2. reflexivity. }
    simpl. eexists; split; [reflexivity|]. econstructor; [exact P1|]. apply veqm_Forall2. auto.
Qed.

(** ** json.Marshal ignores the member order *)

Lemma opt_all_Some {A} (l : list (option A)) r : opt_all l = Some r <-> l = map Some r.
Proof.
  revert r. induction l as [|[x|] l IH]; intros r; simpl.
  - split; [intros [= <-]; auto|]. destruct r; [auto|discriminate].
  - split.
    + destruct (opt_all l); [|discriminate]. intros [= <-]. simpl. f_equal. apply IH; auto.
    + destruct r as [|y r]; [discriminate|]. simpl. intros [= <- Hl]. apply IH in Hl. rewrite Hl. auto.
  - split; [discriminate|]. destruct r; discriminate.
Qed.

Lemma opt_all_None {A} (l : list (option A)) : opt_all l = None <-> In None l.
Proof.
  induction l as [|[x|] l IH]; simpl.
  - split; [discriminate|tauto].
  - destruct (opt_all l).
    + split; [discriminate|]. intros [H|H]; [discriminate|]. apply IH in H. discriminate.
    + split; auto. intros _. right. apply IH; auto.
  - split; auto.
Qed.

Lemma opt_all_perm {A} (l l' : list (option A)) : Permutation l l' ->
  match opt_all l, opt_all l' with
  | Some r, Some r' => Permutation r r'
  | None, None => True
  | _, _ => False
  end.
Proof.
  intros HP. destruct (opt_all l) eqn:E1.
  - apply opt_all_Some in E1. subst.
    destruct (Permutation_map_inv Some l0 (l1 := l')) as (r' & -> & HP'); [symmetry; auto|].
    assert (E : opt_all (map Some r') = Some r') by (apply opt_all_Some; auto). rewrite E. auto.
  - apply opt_all_None in E1. eapply Permutation_in in E1; [|eauto].
    apply opt_all_None in E1. rewrite E1. auto.
Qed.

Lemma marshal_veq v : forall v', wf_value v -> veq v v' -> marshal v = marshal v'.
Proof.
  induction v using value_ind'; intros v' Hw Hv; inversion Hv; subst; auto.
  - simpl. apply veqs_Forall2 in H1. inversion Hw; subst. clear Hv Hw.
    assert (E : map marshal l = map marshal l').
    { induction H1; simpl; auto. inversion H; inversion H2; subst. f_equal; auto. }
    rewrite E. auto.
  - match goal with H : veqm _ _ |- _ => rename H into H3 end.
    match goal with H : Permutation _ _ |- _ => rename H into H2 end.
    apply veqm_Forall2 in H3. inversion Hw as [| | | | | |? Hnd H4|]; subst. clear Hv Hw. simpl.
    set (f := fun e : string * value => match marshal (snd e) with Some t => Some (fst e, t) | None => None end).
    assert (E : map f m1 = map f m').
    { assert (H' : Forall (fun e => forall v', wf_value (snd e) -> veq (snd e) v' -> marshal (snd e) = marshal v') m1)
        by (eapply Permutation_Forall; eauto).
      assert (H4' : Forall (fun e => wf_value (snd e)) m1) by (eapply Permutation_Forall; eauto).
      clear - H3 H' H4'. induction H3 as [|[k x] [k' x'] l l' [Hk Hx] _ IH]; simpl in *; auto.
      inversion H'; inversion H4'; subst. simpl in *. f_equal; auto.
      unfold f; simpl. rewrite (H1 _ H5 Hx). auto. }
    rewrite <- E.
    pose proof (opt_all_perm (map f m) (map f m1) (Permutation_map f H2)) as HP.
    destruct (opt_all (map f m)) eqn:E1; destruct (opt_all (map f m1)); try tauto.
    rewrite (sort_keys_perm l l0); auto.
    apply opt_all_Some in E1.
    assert (E2 : map fst m = map fst l).
    { clear - E1. revert l E1. induction m as [|[k x] m IH]; intros [|[k' t] l]; simpl; try discriminate; auto.
      intros E. injection E as E1 E2. unfold f in E1. simpl in E1.
      destruct (marshal x); [|discriminate]. injection E1 as <- <-. f_equal. auto. }
    rewrite <- E2. auto.
Qed.

Lemma marshalWithoutNumber_veq v v' : wf_value v -> veq v v' ->
  marshalWithoutNumber v = marshalWithoutNumber v'.
Proof. intros Hw Hv. unfold marshalWithoutNumber. rewrite (marshal_veq v v'); auto. Qed.

(** ** Instances *)

Lemma same_value_rel env : value_rel env (fun v v' => v = v' /\ wf_value v).
Proof.
  constructor.
  - intros v v' [<- Hw]. destruct v; auto.
    + inversion Hw; subst. clear Hw. induction H0; constructor; auto.
    + inversion Hw; subst. split; auto. exists m. split; auto. clear Hw H0.
      induction H1; constructor; auto. split; auto.
  - intros s. split; [auto|constructor].
  - intros v v' t [<- _]. auto.
  - intros f v v' [<- _]. auto.
  - intros m m' w [H Hw] E. subst m'. exists w. split; auto. split; auto. eapply convert_wf; eauto.
Qed.

Lemma veq_value_rel env :
  (forall f v v', wf_value v -> veq v v' -> e_is_format env f v = e_is_format env f v') ->
  value_rel env (fun v v' => wf_value v /\ veq v v').
Proof.
  intros Hf. constructor.
  - intros v v' [Hw Hv]. inversion Hv; subst; auto.
    + apply veqs_Forall2 in H. inversion Hw; subst. clear Hv Hw.
      induction H; constructor; inversion H1; subst; auto.
    + apply veqm_Forall2 in H0. inversion Hw; subst. split; auto. exists m1. split; auto.
      assert (H4' : Forall (fun e => wf_value (snd e)) m1) by (eapply Permutation_Forall; eauto).
      clear - H0 H4'. induction H0 as [|a b l l' [H1 H2] _ IH]; constructor; inversion H4'; subst; auto.
      split; auto.
  - intros s. split; constructor.
  - intros v v' t [Hw Hv] <-. symmetry. apply marshalWithoutNumber_veq; auto.
  - intros f v v' [Hw Hv]. auto.
  - intros m m' w [Hw Hv] E. destruct (convert_veq _ _ _ Hv E) as (w' & E' & V).
    exists w'. split; auto. split; auto. eapply convert_wf; eauto.
Qed.

(** The same document decoded into map[interface{}]interface{} maps with string
    keys (left) and into map[string]interface{} maps (right). *)
Inductive yaml : value -> value -> Prop :=
| yaml_nil : yaml VNil VNil
| yaml_bool b : yaml (VBool b) (VBool b)
| yaml_num s : yaml (VNum s) (VNum s)
| yaml_float f : yaml (VFloat f) (VFloat f)
| yaml_str s : yaml (VStr s) (VStr s)
| yaml_arr l l' : Forall2 yaml l l' -> yaml (VArr l) (VArr l')
| yaml_map m m' : Forall2 (fun a b => fst a = fst b /\ yaml (snd a) (snd b)) m m' -> yaml (VMap m) (VMap m')
| yaml_imap m m' : Forall2 (fun a b => fst a = Some (fst b) /\ yaml (snd a) (snd b)) m m' ->
                   yaml (VIMap m) (VMap m').

Lemma convert_yaml v : forall v' w, yaml v v' -> convertDocumentNode v = Ok w -> yaml w v'.
Proof.
  induction v using value_ind'; intros v' w Hv E; try (injection E as <-; auto; fail).
  - rewrite convert_arr in E. destruct (conv_list l) as [r| |] eqn:El; simpl in E; try discriminate.
    injection E as <-. apply conv_list_Ok in El. inversion Hv as [| | | | |? l' Hl| |]; subst. constructor.
    clear Hv. revert l' Hl. induction El as [|x y l r Ex _ IH]; intros l' Hl.
    + inversion Hl; constructor.
    + inversion Hl as [|? x' ? l2 Hx Hl2]; subst. inversion H as [|? ? Hx' Hl']; subst. constructor; eauto.
  - rewrite convert_imap in E. destruct (conv_map m) as [r| |] eqn:El; simpl in E; try discriminate.
    injection E as <-. apply conv_map_Ok in El. inversion Hv as [| | | | | | |? m' Hm]; subst. constructor.
    clear Hv. revert m' Hm. induction El as [|[k x] [k1 y] m r [Hk Ex] _ IH]; intros m' Hm.
    + inversion Hm; constructor.
    + inversion Hm as [|? [k2 x'] ? m2 [Hk2 Hx] Hm2]; subst. inversion H as [|? ? Hx' Hm']; subst.
      simpl in *. constructor; [|eauto]. split; simpl; [congruence|eauto].
Qed.

Lemma marshal_yaml v : forall v' t, yaml v v' -> marshal v = Some t -> marshal v' = Some t.
Proof.
  induction v using value_ind'; intros v' t Hv E; try (inversion Hv; subst; auto; fail).
  - inversion Hv as [| | | | |? l' Hl| |]; subst. simpl in *.
    destruct (opt_all (map marshal l)) as [ss|] eqn:El; [|discriminate].
    assert (E2 : opt_all (map marshal l') = Some ss); [|rewrite E2; auto].
    apply opt_all_Some in El. apply opt_all_Some. clear Hv E. revert ss El.
    induction Hl as [|x x' l l' Hx _ IH]; intros [|s ss] El; simpl in *; try discriminate; auto.
    inversion H as [|? ? Hx' Hl']; subst. injection El as E1 E2. f_equal; eauto.
  - inversion Hv as [| | | | | |? m' Hm|]; subst. simpl in *.
    set (f := fun e : string * value => match marshal (snd e) with Some t => Some (fst e, t) | None => None end) in *.
    destruct (opt_all (map f m)) as [ss|] eqn:El; [|discriminate].
    assert (E2 : opt_all (map f m') = Some ss); [|rewrite E2; auto].
    apply opt_all_Some in El. apply opt_all_Some. clear Hv E. revert ss El.
    induction Hm as [|[k x] [k' x'] m m' [Hk Hx] _ IH]; intros [|s ss] El; simpl in *; try discriminate; auto.
    inversion H as [|? ? Hx' Hl']; subst. injection El as E1 E2. f_equal; eauto.
    unfold f in *. simpl in *. destruct (marshal x) as [t'|] eqn:Et; [|discriminate].
    rewrite (Hx' _ _ Hx eq_refl). auto.
  - discriminate E.
Qed.

Lemma yaml_value_rel env :
  (forall f v v', yaml v v' -> e_is_format env f v = e_is_format env f v') ->
  value_rel env (fun v v' => wf_value v /\ yaml v v').
Proof.
  intros Hf. constructor.
  - intros v v' [Hw Hv]. inversion Hv; subst; auto.
    + inversion Hw as [| | | | |? Hl| |]; subst. clear Hv Hw.
      induction H; constructor; inversion Hl; subst; auto.
    + inversion Hw as [| | | | | |? Hn Hm|]; subst. split; auto. exists m. split; auto. clear Hv Hw Hn.
      induction H as [|a b l l' [H1 H2] _ IH]; constructor; inversion Hm; subst; auto. split; auto.
  - intros s. split; constructor.
  - intros v v' t [Hw Hv]. unfold marshalWithoutNumber. destruct (marshal v) as [s|] eqn:E; [|discriminate].
    rewrite (marshal_yaml _ _ _ Hv E). auto.
  - intros f v v' [Hw Hv]. auto.
  - intros m v' w [Hw Hv] E. exists v'. split.
    + inversion Hv; subst. reflexivity.
    + split; [eapply convert_wf; eauto|eapply convert_yaml; eauto].
Qed.
