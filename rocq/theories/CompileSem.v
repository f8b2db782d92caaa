(** The demands of a compiled node are the keywords of its schema. *)
From Verif Require Export CompileKids SpecSchema CodecRange NumExact ValidateDen.
Open Scope nat_scope.

(** Instances within reach of the library's arithmetic: JSON values whose
    numbers fit float64 and whose exponents big.Rat accepts. *)
Definition ordinary (lim : Z) (v : value) : Prop :=
  doc_ok v /\ in_float_range v /\ all_numbers (moderate lim) v.

(** JSON values whose numbers big.Rat accepts, and within range of float64
    where a keyword compares whole values. *)
Definition compares (m : list (string * value)) : Prop :=
  assoc "const" m <> None \/ assoc "enum" m <> None \/ assoc "uniqueItems" m = Some (VBool true).
Definition usual (lim : Z) (v : value) : Prop := doc_ok v /\ all_numbers (moderate lim) v.
Definition suited (lim : Z) (m : list (string * value)) (v : value) : Prop :=
  doc_ok v /\ (compares m -> in_float_range v) /\ all_numbers (moderate lim) v.
Lemma ordinary_usual lim v : ordinary lim v -> usual lim v.
Proof. intros (H1 & _ & H3). split; auto. Qed.
Lemma ordinary_suited lim m v : ordinary lim v -> suited lim m v.
Proof. intros (H1 & H2 & H3). split; auto. Qed.
Lemma suited_iff lim m v : suited lim m v <-> usual lim v /\ (compares m -> in_float_range v).
Proof. unfold suited, usual. tauto. Qed.

(** Schema objects without the corner cases the library reads differently:
    empty lists where the drafts demand one element, items:[] next to
    additionalItems, and numeric exclusive bounds that big.Rat refuses. *)
Definition regular (lim : Z) (m : list (string * value)) : Prop :=
  assoc "type" m <> Some (VArr []) /\ assoc "enum" m <> Some (VArr []) /\
  assoc "anyOf" m <> Some (VArr []) /\ assoc "oneOf" m <> Some (VArr []) /\
  (assoc "items" m = Some (VArr []) -> assoc "additionalItems" m = None \/ assoc "additionalItems" m = Some (VBool true)) /\
  (forall s, assoc "exclusiveMinimum" m = Some (VNum s) -> moderate lim s) /\
  (forall s, assoc "exclusiveMaximum" m = Some (VNum s) -> moderate lim s).

Definition fits (lim : Z) (m : list (string * value)) (v : value) : Prop :=
  regular lim m /\ (compares m -> in_float_range v).

Lemma ordinary_arr lim l x : ordinary lim (VArr l) -> In x l -> ordinary lim x.
Proof.
  intros (H1 & H2 & H3) Hx. split; [|split].
  - apply doc_ok_arr in H1. rewrite Forall_forall in H1. apply (H1 _ Hx).
  - inversion H2 as [| | | | |? F|]; subst. rewrite Forall_forall in F. apply (F _ Hx).
  - inversion H3 as [| | | | |? F|]; subst. rewrite Forall_forall in F. apply (F _ Hx).
Qed.
Lemma ordinary_map lim m k x : ordinary lim (VMap m) -> In (k, x) m -> ordinary lim x /\ ordinary lim (VStr k).
Proof.
  intros (H1 & H2 & H3) Hx. split; split; [|split| |split].
  - apply doc_ok_map in H1. destruct H1 as [_ F]. rewrite Forall_forall in F. apply (F _ Hx).
  - inversion H2 as [| | | | | |? F]; subst. rewrite Forall_forall in F. apply (F _ Hx).
  - inversion H3 as [| | | | | |? F]; subst. rewrite Forall_forall in F. apply (F _ Hx).
  - destruct H1 as [S _]. inversion S as [| | | | | |? N F]; subst. rewrite Forall_forall in F. destruct (F _ Hx) as [U _].
    split; [constructor; auto|reflexivity].
  - constructor.
  - constructor.
Qed.
Lemma usual_arr lim l x : usual lim (VArr l) -> In x l -> usual lim x.
Proof.
  intros (H1 & H3) Hx. split.
  - apply doc_ok_arr in H1. rewrite Forall_forall in H1. apply (H1 _ Hx).
  - inversion H3 as [| | | | |? F|]; subst. rewrite Forall_forall in F. apply (F _ Hx).
Qed.
Lemma usual_map lim m k x : usual lim (VMap m) -> In (k, x) m -> usual lim x /\ usual lim (VStr k).
Proof.
  intros (H1 & H3) Hx. split; split.
  - apply doc_ok_map in H1. destruct H1 as [_ F]. rewrite Forall_forall in F. apply (F _ Hx).
  - inversion H3 as [| | | | | |? F]; subst. rewrite Forall_forall in F. apply (F _ Hx).
  - destruct H1 as [S _]. inversion S as [| | | | | |? N F]; subst. rewrite Forall_forall in F. destruct (F _ Hx) as [U _].
    split; [constructor; auto|reflexivity].
  - constructor.
Qed.
Lemma usual_num lim s : usual lim (VNum s) -> json_number s = true /\ exists q, rat_of lim s = Some q /\ denotes s q.
Proof.
  intros ([S _] & H3). inversion S as [| |? Hj| | | |]; subst. inversion H3 as [| | |? Hl| | |]; subst. split; auto.
  destruct (proj1 (rat_of_moderate lim s Hj) Hl) as [q E]. exists q. split; auto. eapply rat_of_denotes; eauto.
Qed.
Lemma suited_num lim m s : suited lim m (VNum s) -> json_number s = true /\ exists q, rat_of lim s = Some q /\ denotes s q.
Proof. intros H. apply suited_iff in H. apply usual_num. tauto. Qed.
Lemma ordinary_num lim s : ordinary lim (VNum s) -> json_number s = true /\ exists q, rat_of lim s = Some q /\ denotes s q.
Proof.
  intros ([S _] & _ & H3). inversion S as [| |? Hj| | | |]; subst. inversion H3 as [| | |? Hl| | |]; subst. split; auto.
  destruct (proj1 (rat_of_moderate lim s Hj) Hl) as [q E]. exists q. split; auto. eapply rat_of_denotes; eauto.
Qed.

Lemma assoc_NoDup {A} (m : list (string * A)) k x : NoDup (map fst m) -> In (k, x) m -> assoc k m = Some x.
Proof.
  induction m as [|[a b] m IH]; simpl; [tauto|]. intros N [E|Hi].
  - injection E as -> ->. rewrite String.eqb_refl. auto.
  - inversion N; subst. destruct (String.eqb_spec k a); [|auto]. subst. exfalso. apply H1. apply in_map_iff. exists (a, x). auto.
Qed.
Lemma assoc_In_iff {A} (m : list (string * A)) k x : NoDup (map fst m) -> (assoc k m = Some x <-> In (k, x) m).
Proof. intros N. split; [apply assoc_In|apply assoc_NoDup; auto]. Qed.
Lemma assoc_present {A} (m : list (string * A)) k : assoc k m <> None <-> In k (map fst m).
Proof.
  destruct (assoc k m) as [x|] eqn:E.
  - split; [|discriminate]. intros _. apply assoc_In in E. apply (in_map fst) in E. exact E.
  - split; [congruence|]. intros H. apply assoc_None in E. destruct (E H).
Qed.

Lemma Forall2_in_l {A B} (R : A -> B -> Prop) l l' x : Forall2 R l l' -> In x l -> exists y, In y l' /\ R x y.
Proof. induction 1; simpl; [tauto|]. intros [-> | H']; [eauto|]. destruct (IHForall2 H') as (z & ? & ?). eauto. Qed.
Lemma Forall2_in_r {A B} (R : A -> B -> Prop) l l' y : Forall2 R l l' -> In y l' -> exists x, In x l /\ R x y.
Proof. induction 1; simpl; [tauto|]. intros [-> | H']; [eauto|]. destruct (IHForall2 H') as (z & ? & ?). eauto. Qed.
Lemma Forall2_nth_l {A B} (R : A -> B -> Prop) l l' i x : Forall2 R l l' -> nth_error l i = Some x -> exists y, nth_error l' i = Some y /\ R x y.
Proof. intros H. revert i. induction H; intros [|i]; simpl; try discriminate; [intros [= ->]; eauto|auto]. Qed.
Lemma Forall2_nth_r {A B} (R : A -> B -> Prop) l l' i y : Forall2 R l l' -> nth_error l' i = Some y -> exists x, nth_error l i = Some x /\ R x y.
Proof. intros H. revert i. induction H; intros [|i]; simpl; try discriminate; [intros [= ->]; eauto|auto]. Qed.

Lemma since6_ge d : draft_ge6 d = true <-> since6 d.
Proof. unfold since6. destruct d; simpl; split; congruence. Qed.
Lemma since7_ge d : draft_ge7 d = true <-> since7 d.
Proof. unfold since7. destruct d; simpl; split; intros H; auto; try discriminate; destruct H; discriminate. Qed.

(** A position that is the only one. *)
Lemma one_of_nth (P : nat -> Prop) l : one_of P l <->
  exists i x, nth_error l i = Some x /\ P x /\ forall j y, nth_error l j = Some y -> P y -> j = i.
Proof.
  split.
  - intros (l1 & x & l2 & -> & Hx & F1 & F2). exists (length l1), x. split; [rewrite nth_error_app2, Nat.sub_diag; auto|]. split; auto.
    intros j y Hj Hy. destruct (Nat.lt_trichotomy j (length l1)) as [Hl|[Hl|Hl]]; auto.
    + rewrite nth_error_app1 in Hj by lia. apply nth_error_In in Hj. rewrite Forall_forall in F1. destruct (F1 _ Hj Hy).
    + rewrite nth_error_app2 in Hj by lia. destruct (j - length l1) eqn:E; [lia|]. simpl in Hj. apply nth_error_In in Hj.
      rewrite Forall_forall in F2. destruct (F2 _ Hj Hy).
  - intros (i & x & Hi & Hx & U). apply nth_error_split in Hi. destruct Hi as (l1 & l2 & -> & El). exists l1, x, l2. split; auto. split; auto.
    split; apply Forall_forall; intros y Hy Py; apply In_nth_error in Hy; destruct Hy as [j Hj].
    + assert (Hl : j < length l1) by (apply nth_error_Some; congruence). specialize (U j y). rewrite nth_error_app1 in U by auto. specialize (U Hj Py). lia.
    + specialize (U (length l1 + S j) y). rewrite nth_error_app2 in U by lia. replace (length l1 + S j - length l1) with (S j) in U by lia.
      specialize (U Hj Py). lia.
Qed.

  Lemma NoDup_nth {A} (l : list A) : NoDup l <-> forall i j x, i < j -> nth_error l i = Some x -> nth_error l j <> Some x.
  Proof.
    split.
    - intros N i j x Hij Hi Hj. rewrite NoDup_nth_error in N. specialize (N i j). rewrite Hi, Hj in N. assert (i < length l) by (apply nth_error_Some; congruence).
      specialize (N H eq_refl). lia.
    - intros H. rewrite NoDup_nth_error. intros i j Hi E. destruct (nth_error l i) as [x|] eqn:Ex; [|apply nth_error_None in Ex; lia].
      destruct (Nat.lt_trichotomy i j) as [L|[L|L]]; auto; exfalso; [eapply (H i j)|eapply (H j i)]; eauto.
  Qed.

Lemma value_kind v : (exists s, v = VNum s) \/ (exists s, v = VStr s) \/ (exists l, v = VArr l) \/ (exists o, v = VMap o) \/
  ((forall s, v <> VNum s) /\ (forall s, v <> VStr s) /\ (forall l, v <> VArr l) /\ (forall o, v <> VMap o)).
Proof. destruct v; eauto 6; do 4 right; repeat split; discriminate. Qed.
Lemma Forall_and_iff {A} (P Q : A -> Prop) l : Forall (fun x => P x /\ Q x) l <-> Forall P l /\ Forall Q l.
Proof. rewrite !Forall_forall. split; [intros H; split; intros x Hx; apply H; auto|intros [H1 H2] x Hx; split; auto]. Qed.

Section Link.
  Set Default Proof Using "All".
  Variable env : goenv.
  Notation lim := (e_ratlim env).
  Variable h : heap.
  Variable kid : nat -> draft -> value -> Prop.
  Hypothesis kid_fun : forall id d x d' x', kid id d x -> kid id d' x' -> d = d' /\ x = x'.
  Variable V : draft -> value -> value -> Prop.

  (** The verdict of a cell is that of the schema it stands for. *)
  Definition cell_sem (id : nat) (v : value) : Prop := exists d x, kid id d x /\ V d x v.
  Lemma cell_sem_iff id d x v : kid id d x -> (cell_sem id v <-> V d x v).
  Proof using kid_fun.
    intros K. split; [|intros H; exists d, x; auto]. intros (d' & x' & K' & H). destruct (kid_fun _ _ _ _ _ K K'). subst. auto.
  Qed.

  Definition pat (p s : string) : Prop := e_re_match env p s = true.
  Definition fmt (f : string) (v : value) : Prop := f = "" \/ e_is_format env f v = true.
  Definition same : value -> value -> Prop := equal same_float.

  Variable d : draft.
  Variable m : list (string * value).
  Variable n : node.
  Hypothesis Hm : doc_ok (VMap m).
  Hypothesis Hreg : regular lim m.

  Variable v : value.
  Hypothesis Hv : suited lim m v.

  Lemma m_member k x : assoc k m = Some x -> doc_ok x.
  Proof using Hm. apply doc_ok_member. auto. Qed.
  Lemma m_number k s : assoc k m = Some (VNum s) -> json_number s = true.
  Proof using Hm. intros E. destruct (m_member _ _ E) as [S _]. inversion S; auto. Qed.

  Lemma type_iff t : type_of_value env v t <-> has_type t v.
  Proof.
    unfold has_type, is_int, is_num. pose proof Hv as Hw. destruct v as [|b|s|f|s|l|o|o]; simpl.
    - split; [intros ->; left; auto|]. intros [[-> _]|[[_ [b E]]|[[_ (q & s & E & _)]|[[_ (z & s & E & _)]|[[_ [s E]]|[[_ [l E]]|[_ [l E]]]]]]]]; auto; discriminate.
    - split; [intros ->; right; left; eauto|]. intros [[_ E]|[[-> _]|[[_ (q & s & E & _)]|[[_ (z & s & E & _)]|[[_ [s E]]|[[_ [l E]]|[_ [l E]]]]]]]]; auto; discriminate.
    - destruct (suited_num _ _ _ Hw) as (Hj & q & Eq & Hq). rewrite (checkJSONInteger_iff lim s q Hq). split.
      + intros [-> | [-> [_ [z Hz]]]].
        * do 2 right. left. split; auto. exists q, s. auto.
        * do 3 right. left. split; auto. exists z, s. split; auto. eapply denotes_ext; eauto.
      + intros [[_ E]|[[_ [b E]]|[[-> _]|[[-> (z & s' & E & Hz)]|[[_ [s' E]]|[[_ [l E]]|[_ [l E]]]]]]]]; try discriminate; auto.
        injection E as <-. right. split; auto. split; [|exists z; eapply denotes_unique; eauto].
        apply rat_of_moderate; eauto.
    - destruct Hw as ([_ P] & _). discriminate.
    - split; [intros ->; do 4 right; left; eauto|]. intros [[_ E]|[[_ [b E]]|[[_ (q & s' & E & _)]|[[_ (z & s' & E & _)]|[[-> _]|[[_ [l E]]|[_ [l E]]]]]]]]; auto; discriminate.
    - split; [intros ->; do 5 right; left; eauto|]. intros [[_ E]|[[_ [b E]]|[[_ (q & s' & E & _)]|[[_ (z & s' & E & _)]|[[_ [s E]]|[[-> _]|[_ [l' E]]]]]]]]; auto; discriminate.
    - split; [intros ->; do 6 right; eauto|]. intros [[_ E]|[[_ [b E]]|[[_ (q & s' & E & _)]|[[_ (z & s' & E & _)]|[[_ [s E]]|[[_ [l' E]]|[-> _]]]]]]]; auto; discriminate.
    - destruct Hw as ([_ P] & _). discriminate.
  Qed.

  Lemma type_link : type_ok m (n_types n) -> (types_sem env n v <-> s_type m v).
  Proof.
    intros [H _]. unfold types_sem, s_type, kw. destruct Hreg as (HT & _).
    destruct (assoc "type" m) as [x|] eqn:E.
    - destruct x; try tauto.
      + rewrite H. split.
        * intros [H0|H0] x [= <-]; [discriminate|]. split; [|discriminate]. intros t [= <-].
          inversion H0 as [? ? H1|? ? H1]; subst; [apply type_iff; auto|inversion H1].
        * intros H0. right. constructor. apply type_iff. apply (H0 _ eq_refl). auto.
      + split.
        * intros [H0|H0] x [= <-].
          -- rewrite H0 in H. subst. simpl in HT; congruence.
          -- split; [discriminate|]. intros ts [= <-]. apply Exists_exists in H0. destruct H0 as (t & Ht & H0). exists t. split.
             ++ rewrite H. apply in_map. auto.
             ++ apply type_iff. auto.
        * intros H0. right. destruct (H0 _ eq_refl) as [_ H1]. destruct (H1 _ eq_refl) as (t & Ht & H2). apply Exists_exists. exists t. split.
          -- rewrite H in Ht. apply in_map_iff in Ht. destruct Ht as (t' & [= ->] & Ht). auto.
          -- apply type_iff. auto.
    - split; [intros _ x; discriminate|auto].
  Qed.

  (** *** const, enum, format *)

  Lemma mwn_same x t : compares m -> doc_ok x -> marshalWithoutNumber x = Some t -> (marshalWithoutNumber v = Some t <-> same v x).
  Proof.
    intros Q [S P] E. destruct Hv as ([S' P'] & R & _). rewrite <- E. apply mwn_equal; auto. eapply mwn_range; eauto.
  Qed.

  Lemma const_link : const_ok d m (n_const n) ->
    (match n_const n with Some k => marshalWithoutNumber v = Some k | None => True end <-> s_const same d m v).
  Proof.
    unfold const_ok, s_const, kw. intros H. destruct (draft_ge6 d) eqn:Eg.
    - apply since6_ge in Eg. destruct (assoc "const" m) as [x|] eqn:E.
      + destruct H as [Hn H]. destruct (n_const n) as [k|]; [|congruence]. symmetry in H. rewrite (mwn_same x k); auto; [|left; congruence|eapply m_member; eauto].
        split; [intros H0 _ y [= <-]; auto|auto].
      + rewrite H. split; auto. intros _ _ x. discriminate.
    - rewrite H. split; auto. intros _ Hs. apply since6_ge in Hs. congruence.
  Qed.

  Lemma enum_link : enum_ok m (n_enum n) ->
    (n_enum n = [] \/ Exists (fun k => marshalWithoutNumber v = Some k) (n_enum n) <-> s_enum same m v).
  Proof.
    unfold enum_ok, s_enum, kw. intros H. destruct Hreg as (_ & HE & _). destruct (assoc "enum" m) as [x|] eqn:E.
    - destruct x; try tauto. pose proof (m_member _ _ E) as HD. apply doc_ok_arr in HD. rewrite Forall_forall in HD.
      assert (Q : compares m) by (right; left; congruence). split.
      + intros [H0|H0] x [= <-].
        * rewrite H0 in H. destruct l; [congruence|discriminate].
        * intros l' [= <-]. apply Exists_exists in H0. destruct H0 as (k & Hk & Ek).
          assert (Hi : In (Some k) (map marshalWithoutNumber l)) by (rewrite H; apply in_map; auto).
          apply in_map_iff in Hi. destruct Hi as (x & Ex & Hx). exists x. split; auto. apply (mwn_same x k); auto.
      + intros H0. right. destruct (H0 _ eq_refl _ eq_refl) as (x & Hx & Hs).
        assert (Hi : In (marshalWithoutNumber x) (map Some (n_enum n))) by (rewrite <- H; apply in_map; auto).
        apply in_map_iff in Hi. destruct Hi as (k & Ek & Hk). apply Exists_exists. exists k. split; auto. apply (mwn_same x k); auto.
    - rewrite H. split; auto. intros _ x. discriminate.
  Qed.

  Lemma format_link : format_ok m (n_format n) -> (n_format n = "" \/ e_is_format env (n_format n) v = true <-> s_format fmt m v).
  Proof.
    unfold format_ok, s_format, kw, fmt. intros H. destruct (assoc "format" m) as [x|].
    - destruct x; try tauto. rewrite H. split; [intros H0 x [= <-] f [= <-]; auto|]. intros H0. apply (H0 _ eq_refl). auto.
    - split; auto. intros _ x. discriminate.
  Qed.

  (** *** Combinators *)

  Lemma allOf_link : schemas_ok kid d m "allOf" (n_allOf n) -> (Forall (fun id => cell_sem id v) (n_allOf n) <-> s_allOf V d m v).
  Proof.
    unfold schemas_ok, s_allOf, kw. intros H. destruct (assoc "allOf" m) as [x|].
    - destruct x; try tauto. split.
      + intros H0 x [= <-] l' [= <-] s Hs. destruct (Forall2_in_l _ _ _ _ H Hs) as (id & Hid & K). rewrite Forall_forall in H0.
        apply (cell_sem_iff _ _ _ v K). auto.
      + intros H0. apply Forall_forall. intros id Hid. destruct (Forall2_in_r _ _ _ _ H Hid) as (s & Hs & K).
        apply (cell_sem_iff _ _ _ v K). eapply H0; eauto.
    - rewrite H. split; auto. intros _ x. discriminate.
  Qed.
  Lemma anyOf_link : schemas_ok kid d m "anyOf" (n_anyOf n) ->
    (n_anyOf n = [] \/ Exists (fun id => cell_sem id v) (n_anyOf n) <-> s_anyOf V d m v).
  Proof.
    unfold schemas_ok, s_anyOf, kw. intros H. destruct Hreg as (_ & _ & HA & _). destruct (assoc "anyOf" m) as [x|].
    - destruct x; try tauto. split.
      + intros [H0|H0] x [= <-] l' [= <-].
        * rewrite H0 in H. inversion H; subst. congruence.
        * apply Exists_exists in H0. destruct H0 as (id & Hid & H0). destruct (Forall2_in_r _ _ _ _ H Hid) as (s & Hs & K).
          exists s. split; auto. apply (cell_sem_iff _ _ _ v K). auto.
      + intros H0. right. destruct (H0 _ eq_refl _ eq_refl) as (s & Hs & H1). destruct (Forall2_in_l _ _ _ _ H Hs) as (id & Hid & K).
        apply Exists_exists. exists id. split; auto. apply (cell_sem_iff _ _ _ v K). auto.
    - rewrite H. split; auto. intros _ x. discriminate.
  Qed.
  Lemma oneOf_link : schemas_ok kid d m "oneOf" (n_oneOf n) ->
    (n_oneOf n = [] \/ one_of (fun id => cell_sem id v) (n_oneOf n) <-> s_oneOf V d m v).
  Proof.
    unfold schemas_ok, s_oneOf, kw. intros H. destruct Hreg as (_ & _ & _ & HA & _). rewrite one_of_nth. destruct (assoc "oneOf" m) as [x|].
    - destruct x; try tauto. split.
      + intros [H0|H0] x [= <-] l' [= <-].
        * rewrite H0 in H. inversion H; subst. congruence.
        * destruct H0 as (i & id & Hi & H0 & U). destruct (Forall2_nth_r _ _ _ _ _ H Hi) as (s & Hs & K).
          exists i, s. split; auto. split; [apply (cell_sem_iff _ _ _ v K); auto|].
          intros j s' Hj H1. destruct (Forall2_nth_l _ _ _ _ _ H Hj) as (id' & Hid' & K'). apply (U j id' Hid'). apply (cell_sem_iff _ _ _ v K'). auto.
      + intros H0. right. destruct (H0 _ eq_refl _ eq_refl) as (i & s & Hi & H1 & U). destruct (Forall2_nth_l _ _ _ _ _ H Hi) as (id & Hid & K).
        exists i, id. split; auto. split; [apply (cell_sem_iff _ _ _ v K); auto|].
        intros j id' Hj H2. destruct (Forall2_nth_r _ _ _ _ _ H Hj) as (s' & Hs' & K'). apply (U j s' Hs'). apply (cell_sem_iff _ _ _ v K'). auto.
    - rewrite H. split; auto. intros _ x. discriminate.
  Qed.
  Lemma not_link : opt_ok kid d m "not" (n_not n) ->
    (match n_not n with Some id => ~ cell_sem id v | None => True end <-> s_not V d m v).
  Proof.
    unfold opt_ok, s_not, kw. intros H. destruct (assoc "not" m) as [x|].
    - destruct H as (id & -> & K). rewrite (cell_sem_iff _ _ _ v K). split; [intros H y [= <-]; auto|auto].
    - rewrite H. split; auto. intros _ x. discriminate.
  Qed.
  Lemma if_link : gated (draft_ge7 d) (n_if n) (opt_ok kid d m "if" (n_if n)) ->
    gated (draft_ge7 d) (n_then n) (opt_ok kid d m "then" (n_then n)) ->
    gated (draft_ge7 d) (n_else n) (opt_ok kid d m "else" (n_else n)) ->
    (match n_if n with
     | None => True
     | Some i =>
         match n_then n with Some t => cell_sem i v -> cell_sem t v | None => True end /\
         match n_else n with Some e => ~ cell_sem i v -> cell_sem e v | None => True end
     end <-> s_if V d m v).
  Proof.
    unfold gated, opt_ok, s_if, kw. intros H1 H2 H3. destruct (draft_ge7 d) eqn:Eg.
    - apply since7_ge in Eg. destruct (assoc "if" m) as [x|].
      + destruct H1 as (i & -> & K). pose proof (cell_sem_iff _ _ _ v K) as KI.
        assert (HT : match n_then n with Some t => cell_sem i v -> cell_sem t v | None => True end <-> (V d x v -> forall y, assoc "then" m = Some y -> V d y v)).
        { destruct (assoc "then" m) as [y|].
          - destruct H2 as (t & -> & Kt). rewrite (cell_sem_iff _ _ _ v Kt), KI. split; [intros H Hx y0 [= <-]; auto|auto].
          - rewrite H2. split; auto. discriminate. }
        assert (HE : match n_else n with Some t => ~ cell_sem i v -> cell_sem t v | None => True end <-> (~ V d x v -> forall y, assoc "else" m = Some y -> V d y v)).
        { destruct (assoc "else" m) as [y|].
          - destruct H3 as (t & -> & Kt). rewrite (cell_sem_iff _ _ _ v Kt), KI. split; [intros H Hx y0 [= <-]; auto|auto].
          - rewrite H3. split; auto. discriminate. }
        rewrite HT, HE. split; [intros H _ x0 [= <-]; auto|auto].
      + rewrite H1. split; auto. intros _ _ x. discriminate.
    - rewrite H1. split; auto. intros _ Hs. apply since7_ge in Hs. congruence.
  Qed.

  (** *** Numbers *)

  Lemma num_keyword key q : forall x, assoc key m = Some x -> mustBeNumber lim x = Some q -> exists s, x = VNum s /\ denotes s q.
  Proof using Hm. intros x E H. destruct x as [| |s| | | | |]; try discriminate. simpl in H. exists s. split; auto. eapply rat_of_denotes; eauto. eapply m_number; eauto. Qed.

  Lemma multipleOf_link s : v = VNum s -> mult_ok lim m (n_multipleOf n) ->
    (match n_multipleOf n with Some b => exists q, rat_of lim s = Some q /\ exists k : Z, (q == inject_Z k * b)%Q | None => True end <->
     s_multipleOf m v).
  Proof.
    intros -> H. unfold mult_ok, s_multipleOf, kw in *. destruct (suited_num _ _ _ Hv) as (Hj & q0 & Eq & Hq).
    destruct (assoc "multipleOf" m) as [x|] eqn:Ex.
    - destruct H as (b & -> & Hb & _). destruct (num_keyword _ _ _ Ex Hb) as (t & -> & Ht). split.
      + intros (q & E & k & Hk) x [= <-] q' b' (s' & [= <-] & Hq') (t' & [= <-] & Ht'). rewrite Eq in E. injection E as <-.
        exists k. rewrite (denotes_unique _ _ _ Hq' Hq), (denotes_unique _ _ _ Ht' Ht). exact Hk.
      + intros H. exists q0. split; auto. apply (H _ eq_refl q0 b).
        * exists s. auto.
        * exists t. auto.
    - rewrite H. split; auto. intros _ x. discriminate.
  Qed.

  Section Bound.
    Variables key xkey : string.
    Variables le lt : Q -> Q -> Prop.
    Hypothesis le_ext : forall a b a' b', (a == a')%Q -> (b == b')%Q -> le a b -> le a' b'.
    Hypothesis lt_ext : forall a b a' b', (a == a')%Q -> (b == b')%Q -> lt a b -> lt a' b'.
    Hypothesis lt_le : forall a b, lt a b -> le a b.
    Hypothesis Hx : forall t, assoc xkey m = Some (VNum t) -> moderate lim t.

    Notation sg_bound w := (kw m key (fun x =>
      forall q b, is_num w q -> is_num x b -> le q b /\ (strict d m xkey -> lt q b))).
    Notation sg_exclusive w := (since6 d -> kw m xkey (fun x =>
      forall q b, is_num w q -> is_num x b -> lt q b)).

    Lemma bound_link s r1 r2 : v = VNum s -> bound_ok lim d m key xkey r1 r2 ->
      (match r1 with Some b => exists q, rat_of lim s = Some q /\ le q b | None => True end /\
       match r2 with Some b => exists q, rat_of lim s = Some q /\ lt q b | None => True end <-> sg_bound v /\ sg_exclusive v).
    Proof.
      intros -> (incl & H1 & H2). destruct (suited_num _ _ _ Hv) as (Hj & q0 & Eq & Hq).
      assert (Hle : forall b, (exists q, rat_of lim s = Some q /\ le q b) <-> le q0 b).
      { intros b. split; [intros (q & E & L); congruence|eauto]. }
      assert (Hlt : forall b, (exists q, rat_of lim s = Some q /\ lt q b) <-> lt q0 b).
      { intros b. split; [intros (q & E & L); congruence|eauto]. }
      assert (N0 : is_num (VNum s) q0) by (exists s; auto).
      assert (NU : forall q, is_num (VNum s) q -> (q0 == q)%Q). { intros q (s' & [= <-] & Hq'). eapply denotes_unique; eauto. }
      (* the plain bound *)
      assert (HB : (match incl with Some b => le q0 b | None => True end /\ (strict d m xkey -> match incl with Some b => lt q0 b | None => True end)) <-> sg_bound (VNum s)).
      { unfold kw. destruct (assoc key m) as [x|] eqn:Ex.
        - destruct H1 as (b & Hb & ->). destruct (num_keyword _ _ _ Ex Hb) as (t & -> & Ht). split.
          + intros [L1 L2] x [= <-] q b' Nq (t' & [= <-] & Ht'). pose proof (denotes_unique _ _ _ Ht Ht').
            split; [eapply le_ext; [apply NU; exact Nq| |exact L1]|intros St; eapply lt_ext; [apply NU; exact Nq| |exact (L2 St)]]; auto.
          + intros H. apply (H _ eq_refl q0 b); auto. exists t. auto.
        - subst incl. split; [intros _ x; discriminate|auto]. }
      set (SB := sg_bound (VNum s)) in HB |- *. clearbody SB. unfold strict in HB. unfold kw. destruct (assoc xkey m) as [x|] eqn:Ex.
      - destruct x as [|b|s0| | | | |]; try tauto.
        + destruct H2 as (Hd & q & -> & H2). rewrite <- HB.
          assert (HX : forall x0, Some (VBool b) = Some x0 -> forall q b, is_num (VNum s) q -> is_num x0 b -> lt q b).
          { intros x0 [= <-] q1 b1 _ (t & E & _). discriminate. }
          destruct b; destruct H2 as [-> ->]; rewrite ?Hle, ?Hlt.
          * split.
            -- intros [_ L]. split; auto.
            -- intros [[_ L] _]. split; auto.
          * split.
            -- intros [L _]. split; [|auto]. split; auto. intros [_ E]. discriminate.
            -- intros [[L _] _]. auto.
        + destruct H2 as (Hd & -> & ->). destruct (proj1 (rat_of_moderate lim s0 (m_number _ _ Ex)) (Hx _ eq_refl)) as [b Eb].
          pose proof (rat_of_denotes _ _ _ (m_number _ _ Ex) Eb) as Ht. rewrite Eb, Hlt, <- HB.
          assert (H3 : match incl with Some b0 => exists q, rat_of lim s = Some q /\ le q b0 | None => True end <-> match incl with Some b0 => le q0 b0 | None => True end).
          { destruct incl; auto. tauto. }
          rewrite H3. split.
          * intros [L1 L2]. split; [split; auto; intros [_ E]; discriminate|]. intros _ x [= <-] q b' Nq (t & [= <-] & Ht').
            eapply lt_ext; [apply NU; exact Nq|exact (denotes_unique _ _ _ Ht Ht')|exact L2].
          * intros [[L1 _] L2]. split; auto. apply (L2 Hd _ eq_refl q0 b); auto. exists s0. auto.
      - destruct H2 as [-> ->]. rewrite <- HB. split.
        + intros [L _]. split; [split|]; auto.
          * destruct incl; auto. apply Hle; auto.
          * intros [_ E]. discriminate.
          * intros _ x. discriminate.
        + intros [[L _] _]. split; auto. destruct incl; auto. apply Hle; auto.
    Qed.
  End Bound.

  Lemma maximum_link s : v = VNum s -> bound_ok lim d m "maximum" "exclusiveMaximum" (n_maximum n) (n_exclusiveMaximum n) ->
    (match n_maximum n with Some b => exists q, rat_of lim s = Some q /\ (q <= b)%Q | None => True end /\
     match n_exclusiveMaximum n with Some b => exists q, rat_of lim s = Some q /\ (q < b)%Q | None => True end <->
     s_maximum d m v /\ s_exclusiveMaximum d m v).
  Proof.
    intros E H. refine (bound_link "maximum" "exclusiveMaximum" Qle Qlt _ _ _ _ s _ _ E H).
    - intros a b a' b' Ea Eb. rewrite Ea, Eb. auto.
    - intros a b a' b' Ea Eb. rewrite Ea, Eb. auto.
    - intros a b. apply Qlt_le_weak.
    - apply Hreg.
  Qed.
  Lemma minimum_link s : v = VNum s -> bound_ok lim d m "minimum" "exclusiveMinimum" (n_minimum n) (n_exclusiveMinimum n) ->
    (match n_minimum n with Some b => exists q, rat_of lim s = Some q /\ (b <= q)%Q | None => True end /\
     match n_exclusiveMinimum n with Some b => exists q, rat_of lim s = Some q /\ (b < q)%Q | None => True end <->
     s_minimum d m v /\ s_exclusiveMinimum d m v).
  Proof.
    intros E H. refine (bound_link "minimum" "exclusiveMinimum" (fun a b => b <= a)%Q (fun a b => b < a)%Q _ _ _ _ s _ _ E H).
    - intros a b a' b' Ea Eb. rewrite Ea, Eb. auto.
    - intros a b a' b' Ea Eb. rewrite Ea, Eb. auto.
    - intros a b. apply Qlt_le_weak.
    - apply Hreg.
  Qed.

  (** *** Integer keywords *)

  Lemma nat_keyword key r : nat_ok lim m key r ->
    match r with
    | Some z => exists x, assoc key m = Some x /\ is_int x z
    | None => assoc key m = None
    end.
  Proof using Hm.
    unfold nat_ok. destruct (assoc key m) as [x|] eqn:E.
    - intros (z & Hz & _ & ->). exists x. split; auto. destruct x as [| |s| | | | |]; try discriminate. simpl in Hz. exists s. split; auto.
      destruct (checkJSONInteger lim s); [|discriminate]. eapply parse_int64_value; eauto. eapply m_number; eauto.
    - intros ->. auto.
  Qed.
  Lemma is_int_unique x a b : is_int x a -> is_int x b -> a = b.
  Proof using.
    intros (s & -> & H) (s' & [= <-] & H'). apply inject_Z_injective. exact (denotes_unique _ _ _ H H').
  Qed.
  (** P compares the measured size with the keyword. *)
  Lemma nat_link key r (P : Z -> Prop) : nat_ok lim m key r ->
    (match r with Some z => P z | None => True end <-> kw m key (fun x => forall z, is_int x z -> P z)).
  Proof using Hm.
    intros H. apply nat_keyword in H. unfold kw. destruct r as [z|].
    - destruct H as (x & -> & Hz). split; [intros Hp y [= <-] z' Hz'; rewrite (is_int_unique _ _ _ Hz' Hz); auto|]. intros Hp. eapply Hp; eauto.
    - rewrite H. split; auto. intros _ x. discriminate.
  Qed.

  Lemma minLength_link s : v = VStr s -> nat_ok lim m "minLength" (n_minLength n) ->
    (match n_minLength n with Some k => (k <= rune_count s)%Z | None => True end <-> s_minLength m v).
  Proof.
    intros -> H. rewrite (nat_link _ _ (fun k => (k <= rune_count s)%Z) H). unfold s_minLength, kw.
    split.
    - intros H0 x E z s' cps Hz [= <-] Ht. rewrite <- (rune_count_text _ _ Ht). eauto.
    - intros H0 x E z Hz. destruct Hv as ([S _] & _). inversion S as [| | | |? [cps Hu]| |]; subst. rewrite (rune_count_text _ _ Hu). eauto.
  Qed.
  Lemma maxLength_link s : v = VStr s -> nat_ok lim m "maxLength" (n_maxLength n) ->
    (match n_maxLength n with Some k => (rune_count s <= k)%Z | None => True end <-> s_maxLength m v).
  Proof.
    intros -> H. rewrite (nat_link _ _ (fun k => (rune_count s <= k)%Z) H). unfold s_maxLength, kw.
    split.
    - intros H0 x E z s' cps Hz [= <-] Ht. rewrite <- (rune_count_text _ _ Ht). eauto.
    - intros H0 x E z Hz. destruct Hv as ([S _] & _). inversion S as [| | | |? [cps Hu]| |]; subst. rewrite (rune_count_text _ _ Hu). eauto.
  Qed.
  Lemma pattern_link s : v = VStr s -> pattern_ok (e_re_ok env) m (n_pattern n) ->
    (match n_pattern n with Some p => e_re_match env p s = true | None => True end <-> s_pattern pat m v).
  Proof.
    intros -> H. unfold pattern_ok, s_pattern, kw, pat in *. destruct (assoc "pattern" m) as [x|].
    - destruct x; try tauto. destruct H as [_ ->]. split; [intros H x [= <-] p s' [= <-] [= <-]; auto|]. intros H. eapply H; eauto.
    - rewrite H. split; auto. intros _ x. discriminate.
  Qed.

  (** *** Arrays *)

  Lemma minItems_link l : v = VArr l -> nat_ok lim m "minItems" (n_minItems n) ->
    (match n_minItems n with Some k => (k <= Z.of_nat (length l))%Z | None => True end <-> s_minItems m v).
  Proof.
    intros -> H. rewrite (nat_link _ _ (fun k => (k <= Z.of_nat (length l))%Z) H). unfold s_minItems, kw.
    split; [intros H0 x E z l' Hz [= <-]; eauto|intros H0 x E z Hz; eauto].
  Qed.
  Lemma maxItems_link l : v = VArr l -> nat_ok lim m "maxItems" (n_maxItems n) ->
    (match n_maxItems n with Some k => (Z.of_nat (length l) <= k)%Z | None => True end <-> s_maxItems m v).
  Proof.
    intros -> H. rewrite (nat_link _ _ (fun k => (Z.of_nat (length l) <= k)%Z) H). unfold s_maxItems, kw.
    split; [intros H0 x E z l' Hz [= <-]; eauto|intros H0 x E z Hz; eauto].
  Qed.

  Lemma unique_link l : v = VArr l -> unique_ok m (n_uniqueItems n) ->
    ((n_uniqueItems n = true -> NoDup (map marshalWithoutNumber l)) <-> s_uniqueItems same m v).
  Proof.
    intros -> H. unfold unique_ok, s_uniqueItems, kw in *.
    assert (HN : assoc "uniqueItems" m = Some (VBool true) -> NoDup (map marshalWithoutNumber l) <-> forall i j a b, i < j -> nth_error l i = Some a -> nth_error l j = Some b -> ~ same a b).
    { intros Q. assert (Ho : ordinary lim (VArr l)) by (destruct Hv as (Q1 & Q2 & Q3); split; auto; split; auto; apply Q2; right; right; auto).
      assert (HM : forall a b, In a l -> In b l -> (marshalWithoutNumber a = marshalWithoutNumber b <-> same a b)).
      { intros a b Ha Hb. destruct (ordinary_arr _ _ _ Ho Ha) as ([S1 _] & R1 & _). destruct (ordinary_arr _ _ _ Ho Hb) as ([S2 _] & R2 & _). apply mwn_equal; auto. }
      rewrite NoDup_nth. split.
      - intros N i j a b Hij Ha Hb E. apply HM in E; eauto using nth_error_In. apply (N i j (marshalWithoutNumber a) Hij).
        + apply map_nth_error. auto.
        + rewrite E. apply map_nth_error. auto.
      - intros N i j x Hij Hi Hj. rewrite nth_error_map in Hi, Hj. destruct (nth_error l i) as [a|] eqn:Ea; [|discriminate]. destruct (nth_error l j) as [b|] eqn:Eb; [|discriminate].
        apply (N i j a b); auto. apply HM; eauto using nth_error_In. simpl in Hi, Hj. congruence. }
    destruct (assoc "uniqueItems" m) as [x|].
    - destruct x; try tauto. rewrite H. split.
      + intros H0 x [= <-] l' [= ->] [= <-]. apply HN; auto.
      + intros H0 ->. apply HN; auto. intros i j a b. apply (H0 _ eq_refl l eq_refl eq_refl).
    - rewrite H. split; [intros _ x; discriminate|discriminate].
  Qed.
  Lemma contains_link l : v = VArr l -> gated (draft_ge6 d) (n_contains n) (opt_ok kid d m "contains" (n_contains n)) ->
    (match n_contains n with Some id => Exists (cell_sem id) l | None => True end <-> s_contains V d m v).
  Proof.
    intros -> H. unfold gated, opt_ok, s_contains, kw in *. destruct (draft_ge6 d) eqn:Eg.
    - apply since6_ge in Eg. destruct (assoc "contains" m) as [x|].
      + destruct H as (id & -> & K). rewrite Exists_exists. split.
        * intros (e & He & H) _ y [= <-] l' [= <-]. exists e. split; auto. apply (cell_sem_iff _ _ _ e K). auto.
        * intros H. destruct (H Eg _ eq_refl _ eq_refl) as (e & He & H1). exists e. split; auto. apply (cell_sem_iff _ _ _ e K). auto.
      + rewrite H. split; auto. intros _ _ x. discriminate.
    - rewrite H. split; auto. intros _ Hs. apply since6_ge in Hs. congruence.
  Qed.
  Lemma items_link l : v = VArr l -> items_ok kid d m (n_items n) (n_items_single n) -> addl_ok kid d m "additionalItems" (n_additionalItems n) ->
    (items_sem cell_sem n l <-> s_items V d m v /\ s_additionalItems V d m v).
  Proof.
    intros -> H HA. unfold items_sem, items_ok, s_items, s_additionalItems, kw in *.
    destruct Hreg as (_ & _ & _ & _ & HI & _).
    destruct (assoc "items" m) as [x|] eqn:Ex.
    - assert (HS : (forall ss, x <> VArr ss) -> n_items_single n = true /\ (exists id, n_items n = [id] /\ kid id d x)).
      { intros Hn. destruct x; auto. congruence. }
      assert (DEC : (exists ss, x = VArr ss) \/ (forall ss, x <> VArr ss)) by (destruct x; try (right; discriminate); eauto).
      destruct DEC as [[ss ->]|Hn].
      + destruct H as [-> HF]. split.
        * intros Hs. split.
          -- intros y [= <-] l' [= <-]. split; [|intros Hc; destruct (Hc ss eq_refl)]. intros ss' [= <-] i s e Hi He.
             destruct (Forall2_nth_l _ _ _ _ _ HF Hi) as (id & Hid & K). apply (cell_sem_iff _ _ _ e K).
             destruct (n_items n) as [|id0 ids] eqn:En; [destruct i; discriminate|]. destruct Hs as [Hs _]. eapply Hs; eauto.
          -- intros a Ea l' ss' [= <-] [= <-] e He. destruct (n_items n) as [|id0 ids] eqn:En.
             ++ inversion HF; subst. rewrite Ea in HI. destruct (HI eq_refl) as [E|E]; [discriminate|]. injection E as ->.
                split; [discriminate|]. intros Hc. destruct (Hc true eq_refl).
             ++ assert (EL : length (id0 :: ids) = length ss) by (symmetry; eapply Forall2_length; eauto). destruct Hs as [_ Hs]. unfold addl_ok in HA. rewrite Ea in HA.
                split.
                ** intros ->. rewrite HA in Hs. rewrite EL in Hs. rewrite skipn_all2 in He by lia. destruct He.
                ** intros Hb. assert (HK : exists id, n_additionalItems n = Some (AddlSchema id) /\ kid id d a) by (destruct a; auto; destruct (Hb b eq_refl)).
                   destruct HK as (id & E & K). rewrite E, EL, Forall_forall in Hs. apply (cell_sem_iff _ _ _ e K). auto.
        * intros [H1 H2]. destruct (n_items n) as [|id0 ids] eqn:En; [exact I|]. rewrite <- En in *.
          assert (EL : length (n_items n) = length ss) by (symmetry; eapply Forall2_length; eauto). split.
          -- intros i id x Hi Hx. destruct (Forall2_nth_r _ _ _ _ _ HF Hi) as (s & Hs & K). apply (cell_sem_iff _ _ _ x K).
             destruct (H1 _ eq_refl _ eq_refl) as [H3 _]. eapply H3; eauto.
          -- unfold addl_ok in HA. destruct (assoc "additionalItems" m) as [a|] eqn:Ea; [|rewrite HA; exact I].
             specialize (H2 _ eq_refl l ss eq_refl eq_refl).
             assert (DB : (exists b, a = VBool b) \/ (forall b, a <> VBool b)) by (destruct a; try (right; discriminate); eauto).
             destruct DB as [[b ->]|Hb].
             ++ rewrite HA. destruct b; [exact I|]. rewrite EL. destruct (skipn (length ss) l) as [|e r] eqn:Es.
                ** assert (Hl := f_equal (@length _) Es). rewrite skipn_length in Hl. simpl in Hl. lia.
                ** destruct (H2 e (or_introl eq_refl)) as [H3 _]. destruct (H3 eq_refl).
             ++ assert (HK : exists id, n_additionalItems n = Some (AddlSchema id) /\ kid id d a) by (destruct a; auto; destruct (Hb b eq_refl)).
                destruct HK as (id & -> & K). rewrite EL. apply Forall_forall. intros e He. apply (cell_sem_iff _ _ _ e K). apply (H2 e He). auto.
      + destruct (HS Hn) as (-> & id & -> & K). rewrite Forall_forall. split.
        * intros H0. split.
          -- intros y [= <-] l' [= <-]. split; [intros ss E; destruct (Hn ss E)|]. intros _ e He. apply (cell_sem_iff _ _ _ e K). auto.
          -- intros a _ l' ss _ [= E]. destruct (Hn ss E).
        * intros [H0 _] e He. apply (cell_sem_iff _ _ _ e K). apply (H0 _ eq_refl _ eq_refl); auto.
    - destruct H as [-> ->]. split; auto. intros _. split; [intros x; discriminate|]. intros a _ l' ss _. discriminate.
  Qed.

  (** *** Objects *)

  Lemma inst_keys o : v = VMap o -> NoDup (map fst o).
  Proof. intros ->. destruct Hv as (D & _). apply doc_ok_map in D. tauto. Qed.

  Lemma minProperties_link o : v = VMap o -> nat_ok lim m "minProperties" (n_minProperties n) ->
    (match n_minProperties n with Some k => (k <= Z.of_nat (length o))%Z | None => True end <-> s_minProperties m v).
  Proof.
    intros -> H. rewrite (nat_link _ _ (fun k => (k <= Z.of_nat (length o))%Z) H). unfold s_minProperties, kw.
    split; [intros H0 x E z l' Hz [= <-]; eauto|intros H0 x E z Hz; eauto].
  Qed.
  Lemma maxProperties_link o : v = VMap o -> nat_ok lim m "maxProperties" (n_maxProperties n) ->
    (match n_maxProperties n with Some k => (Z.of_nat (length o) <= k)%Z | None => True end <-> s_maxProperties m v).
  Proof.
    intros -> H. rewrite (nat_link _ _ (fun k => (Z.of_nat (length o) <= k)%Z) H). unfold s_maxProperties, kw.
    split; [intros H0 x E z l' Hz [= <-]; eauto|intros H0 x E z Hz; eauto].
  Qed.
  Lemma required_link o : v = VMap o -> required_ok m (n_required n) ->
    (Forall (fun k => assoc k o <> None) (n_required n) <-> s_required m v).
  Proof.
    intros -> H. unfold required_ok, s_required, kw in *. rewrite Forall_forall. destruct (assoc "required" m) as [x|].
    - destruct x; try tauto. subst. split.
      + intros H0 x [= <-] ks o' [= <-] [= <-] k Hk. apply in_map_iff in Hk. destruct Hk as (k' & [= ->] & Hk). apply assoc_present. auto.
      + intros H0 k Hk. apply assoc_present. eapply (H0 _ eq_refl); eauto. apply in_map. auto.
    - rewrite H. split; [intros _ x; discriminate|intros _ k []].
  Qed.
  Lemma propertyNames_link o : v = VMap o -> gated (draft_ge6 d) (n_propertyNames n) (opt_ok kid d m "propertyNames" (n_propertyNames n)) ->
    (match n_propertyNames n with Some id => Forall (fun e => cell_sem id (VStr (fst e))) o | None => True end <-> s_propertyNames V d m v).
  Proof.
    intros -> H. unfold gated, opt_ok, s_propertyNames, kw in *. destruct (draft_ge6 d) eqn:Eg.
    - apply since6_ge in Eg. destruct (assoc "propertyNames" m) as [x|].
      + destruct H as (id & -> & K). rewrite Forall_forall. split.
        * intros H _ y [= <-] o' [= <-] k Hk. apply in_map_iff in Hk. destruct Hk as (e & <- & He). apply (cell_sem_iff _ _ _ _ K). auto.
        * intros H e He. apply (cell_sem_iff _ _ _ _ K). apply (H Eg _ eq_refl _ eq_refl). apply in_map. auto.
      + rewrite H. split; auto. intros _ _ x. discriminate.
    - rewrite H. split; auto. intros _ Hs. apply since6_ge in Hs. congruence.
  Qed.

  Variable named : nat -> string -> Prop.
  Hypothesis named_fun : forall id k, named id k <-> name_of h id k.
  Lemma name_of_fun id k k' : name_of h id k -> name_of h id k' -> k = k'.
  Proof using. intros (c & E & <-) (c' & E' & <-). congruence. Qed.

  Lemma properties_link o : v = VMap o -> props_ok kid named d m (n_props n) ->
    (Forall (fun id => forall p x, name_of h id p -> assoc p o = Some x -> cell_sem id x) (n_props n) <-> s_properties V d m v).
  Proof.
    intros Ev H. pose proof (inst_keys o Ev) as N. subst v. unfold props_ok, s_properties, kw in *. rewrite Forall_forall. destruct (assoc "properties" m) as [x|].
    - destruct x as [| | | | | |ps|]; try tauto. destruct H as (es & HP & HF). split.
      + intros H0 x [= <-] ps' o' [= <-] [= <-] k s e Hk He. apply (Permutation_in _ HP) in Hk.
        destruct (Forall2_in_l _ _ _ _ HF Hk) as (id & Hid & K & Nm). apply (cell_sem_iff _ _ _ _ K). apply (H0 id Hid k); [apply named_fun; auto|].
        apply assoc_NoDup; auto.
      + intros H0 id Hid p x Hn Hx. destruct (Forall2_in_r _ _ _ _ HF Hid) as ([k s] & Hk & K & Nm). simpl in *. apply named_fun in Nm.
        rewrite (name_of_fun _ _ _ Hn Nm) in *. apply (cell_sem_iff _ _ _ _ K). eapply (H0 _ eq_refl _ o eq_refl eq_refl k).
        * eapply Permutation_in; [symmetry; exact HP|exact Hk].
        * apply assoc_In. auto.
    - rewrite H. split; [intros _ x; discriminate|intros _ id []].
  Qed.

  Lemma pattern_matches p k : e_re_ok env p = true -> re_matches env p k = e_re_match env p k.
  Proof using. intros E. unfold re_matches. rewrite E. reflexivity. Qed.

  Lemma patternProperties_link o : v = VMap o -> pats_ok (e_re_ok env) kid d m (n_patternProperties n) ->
    (Forall (fun e => Forall (fun q => re_matches env (fst q) (fst e) = true -> cell_sem (snd q) (snd e)) (n_patternProperties n)) o <->
     s_patternProperties pat V d m v).
  Proof.
    intros -> H. unfold pats_ok, s_patternProperties, kw, pat in *. rewrite Forall_forall. destruct (assoc "patternProperties" m) as [x|].
    - destruct x as [| | | | | |ps|]; try tauto. destruct H as (es & HP & HF). split.
      + intros H0 x [= <-] ps' o' [= <-] [= <-] p s k e Hp He Hm'. apply (Permutation_in _ HP) in Hp.
        destruct (Forall2_in_l _ _ _ _ HF Hp) as (q & Hq & E1 & E2 & K). simpl in *. apply (cell_sem_iff _ _ _ _ K).
        specialize (H0 _ He). rewrite Forall_forall in H0. apply (H0 q Hq). simpl. rewrite E1, pattern_matches; auto.
      + intros H0 [k e] He. apply Forall_forall. intros q Hq Hm'. simpl in *. destruct (Forall2_in_r _ _ _ _ HF Hq) as ([p s] & Hp & E1 & E2 & K). simpl in *.
        rewrite E1, pattern_matches in Hm' by auto. apply (cell_sem_iff _ _ _ _ K).
        eapply (H0 _ eq_refl _ _ eq_refl eq_refl p s k e); auto. eapply Permutation_in; [symmetry; exact HP|exact Hp].
    - rewrite H. split; [intros _ x; discriminate|]. intros _ e He. constructor.
  Qed.

  Lemma additional_link k : props_ok kid named d m (n_props n) -> pats_ok (e_re_ok env) kid d m (n_patternProperties n) ->
    (Forall (fun id => ~ name_of h id k) (n_props n) /\ Forall (fun e => re_matches env (fst e) k = false) (n_patternProperties n) <->
     additional pat m k).
  Proof.
    intros H1 H2. unfold additional. apply and_iff.
    - unfold props_ok, kw in *. rewrite Forall_forall. destruct (assoc "properties" m) as [x|].
      + destruct x as [| | | | | |ps|]; try tauto. destruct H1 as (es & HP & HF). split.
        * intros H0 x [= <-] ps' [= <-] Hk. apply in_map_iff in Hk. destruct Hk as (e & <- & He). apply (Permutation_in _ HP) in He.
          destruct (Forall2_in_l _ _ _ _ HF He) as (id & Hid & K & Nm). apply (H0 id Hid). apply named_fun. auto.
        * intros H0 id Hid Hn. destruct (Forall2_in_r _ _ _ _ HF Hid) as (e & He & K & Nm). apply named_fun in Nm.
          rewrite (name_of_fun _ _ _ Hn Nm) in *. apply (H0 _ eq_refl _ eq_refl). apply in_map. eapply Permutation_in; [symmetry; exact HP|exact He].
      + rewrite H1. split; [intros _ x; discriminate|intros _ id []].
    - unfold pats_ok, kw, pat in *. rewrite Forall_forall. destruct (assoc "patternProperties" m) as [x|].
      + destruct x as [| | | | | |ps|]; try tauto. destruct H2 as (es & HP & HF). split.
        * intros H0 x [= <-] ps' [= <-] p s Hp Hm'. apply (Permutation_in _ HP) in Hp.
          destruct (Forall2_in_l _ _ _ _ HF Hp) as (q & Hq & E1 & E2 & K). simpl in *. specialize (H0 _ Hq). rewrite E1, pattern_matches in H0 by auto. congruence.
        * intros H0 q Hq. destruct (Forall2_in_r _ _ _ _ HF Hq) as ([p s] & Hp & E1 & E2 & K). simpl in *. rewrite E1, pattern_matches by auto.
          destruct (e_re_match env p k) eqn:Em; auto. exfalso. eapply (H0 _ eq_refl _ eq_refl p s); auto. eapply Permutation_in; [symmetry; exact HP|exact Hp].
      + rewrite H2. split; [intros _ x; discriminate|intros _ e []].
  Qed.

  Lemma additionalProperties_link o : v = VMap o -> props_ok kid named d m (n_props n) -> pats_ok (e_re_ok env) kid d m (n_patternProperties n) ->
    addl_ok kid d m "additionalProperties" (n_additionalProperties n) ->
    (Forall (fun e => Forall (fun id => ~ name_of h id (fst e)) (n_props n) ->
       Forall (fun q => re_matches env (fst q) (fst e) = false) (n_patternProperties n) ->
       match n_additionalProperties n with
       | Some (AddlBool false) => False
       | Some (AddlSchema id) => cell_sem id (snd e)
       | _ => True
       end) o <-> s_additionalProperties pat V d m v).
  Proof.
    intros Ev H1 H2 HA. pose proof (fun k => additional_link k H1 H2) as AL. rewrite Ev. clear Ev. unfold s_additionalProperties, kw. rewrite Forall_forall. unfold addl_ok in HA. destruct (assoc "additionalProperties" m) as [a|].
    - assert (DB : (exists b, a = VBool b) \/ (forall b, a <> VBool b)) by (destruct a; try (right; discriminate); eauto).
      destruct DB as [[b ->]|Hb].
      + rewrite HA. split.
        * intros H x [= <-] o' [= <-] k e He Ha. apply AL in Ha. destruct Ha as [A1 A2]. specialize (H _ He A1 A2).
          split; [intros [= ->]; auto|]. intros Hc. destruct (Hc b eq_refl).
        * intros H [k e] He A1 A2. simpl in *. destruct b; auto. destruct (H _ eq_refl _ eq_refl k e He) as [H3 _]; [|auto].
          apply AL; auto.
      + assert (HK : exists id, n_additionalProperties n = Some (AddlSchema id) /\ kid id d a) by (destruct a; auto; destruct (Hb b eq_refl)).
        destruct HK as (id & -> & K). split.
        * intros H x [= <-] o' [= <-] k e He Ha. apply AL in Ha. destruct Ha as [A1 A2]. specialize (H _ He A1 A2).
          split; [intros ->; destruct (Hb false eq_refl)|]. intros _. apply (cell_sem_iff _ _ _ _ K). auto.
        * intros H [k e] He A1 A2. simpl in *. apply (cell_sem_iff _ _ _ _ K). destruct (H _ eq_refl _ eq_refl k e He) as [_ H3]; [|auto].
          apply AL; auto.
    - rewrite HA. split; auto. intros _ x. discriminate.
  Qed.

  (** What the compiled dependencies say about one name. *)
  Lemma deps_assoc es ls k : NoDup (map fst es) -> Forall2 (dep_ok kid d) es ls ->
    match assoc k es with
    | None => assoc k (concat ls) = None
    | Some (VArr ks) => exists names, ks = map VStr names /\
        assoc k (concat ls) = match names with [] => None | _ => Some (DepKeys names) end
    | Some a => exists id, assoc k (concat ls) = Some (DepSchema id) /\ kid id d a
    end.
  Proof using.
    intros N HF. induction HF as [|[k0 a0] l es ls He HF IH]; [reflexivity|]. inversion N as [|? ? Hni N']; subst. specialize (IH N').
    simpl concat. cbn [assoc]. unfold dep_ok in He. cbn [fst snd] in *.
    assert (HL : forall x y, assoc k ((k0, x) :: y) = if String.eqb k k0 then Some x else @assoc dep k y) by reflexivity.
    destruct (String.eqb_spec k k0) as [->|Hne].
    - assert (HN0 : assoc k0 es = None) by (apply assoc_None; auto). rewrite HN0 in IH.
      destruct a0; try (destruct He as (id & -> & K); exists id; simpl; rewrite String.eqb_refl; auto; fail).
      destruct He as (names & -> & ->). exists names. split; auto. destruct names as [|a names]; [exact IH|]. simpl. rewrite String.eqb_refl. auto.
    - assert (EL : assoc k (l ++ concat ls) = assoc k (concat ls)).
      { destruct a0; try (destruct He as (id & -> & K); simpl; destruct (String.eqb_spec k k0); [congruence|auto]; fail).
        destruct He as (names & _ & ->). destruct names; auto. simpl. destruct (String.eqb_spec k k0); [congruence|auto]. }
      rewrite EL. exact IH.
  Qed.

  Lemma dependencies_link : deps_ok kid d m (n_dependencies n) ->
    (match v with VMap o => Forall (fun e => dep_sem cell_sem n v o (fst e)) o | _ => True end <-> s_dependencies V d m v).
  Proof.
    intros H. unfold deps_ok, s_dependencies, kw in *. destruct v as [| | | | | |o|] eqn:Ev;
      try (split; [intros _ x _ ds o _; discriminate|auto]). rewrite Forall_forall.
    destruct (assoc "dependencies" m) as [x|] eqn:Ex.
    - destruct x as [| | | | | |ds|]; try tauto. destruct H as (es & ls & HP & HF & En).
      assert (ND : NoDup (map fst ds)) by (apply (doc_ok_map ds), (m_member _ _ Ex)).
      assert (NE : NoDup (map fst es)) by (eapply Permutation_NoDup; [apply Permutation_map; exact HP|auto]).
      pose proof (fun k => deps_assoc es ls k NE HF) as HD. rewrite <- En in HD. split.
      + intros H0 x [= <-] ds' o' [= <-] [= <-] k a Hk Hin. apply in_map_iff in Hin. destruct Hin as (e & <- & He). specialize (H0 _ He). unfold dep_sem in H0.
        apply (Permutation_in _ HP) in Hk. apply (assoc_NoDup _ _ _ NE) in Hk. specialize (HD (fst e)). rewrite Hk in HD.
        split.
        * intros ks -> k' Hk'. destruct HD as (names & -> & Ea). rewrite Ea in H0. apply in_map_iff in Hk'. destruct Hk' as (k0 & [= ->] & Hk').
          destruct names; [destruct Hk'|]. rewrite Forall_forall in H0. apply assoc_present. auto.
        * intros Hn. assert (HK : exists id, assoc (fst e) (n_dependencies n) = Some (DepSchema id) /\ kid id d a) by (destruct a; auto; destruct (Hn l eq_refl)).
          destruct HK as (id & Ea & K). rewrite Ea in H0. apply (cell_sem_iff _ _ _ _ K). auto.
      + intros H0 e He. unfold dep_sem. specialize (HD (fst e)). destruct (assoc (fst e) es) as [a|] eqn:Ea; [|rewrite HD; exact I].
        apply assoc_In in Ea. assert (Hk : In (fst e, a) ds) by (eapply Permutation_in; [symmetry; exact HP|exact Ea]).
        destruct (H0 _ eq_refl _ o eq_refl eq_refl (fst e) a Hk (in_map fst _ _ He)) as [H1 H2].
        assert (DA : (exists ks, a = VArr ks) \/ (forall ks, a <> VArr ks)) by (destruct a; try (right; discriminate); eauto).
        destruct DA as [[ks ->]|Hn].
        * destruct HD as (names & -> & Ed). rewrite Ed. destruct names as [|a names]; [exact I|]. apply Forall_forall. intros k Hk'. apply assoc_present.
          apply (H1 _ eq_refl). apply (in_map VStr (a :: names)). auto.
        * assert (HK : exists id, assoc (fst e) (n_dependencies n) = Some (DepSchema id) /\ kid id d a) by (destruct a; auto; destruct (Hn l eq_refl)).
          destruct HK as (id & Ed & K). rewrite Ed. apply (cell_sem_iff _ _ _ _ K). auto.
    - split; [intros _ x; discriminate|]. intros _ e He. unfold dep_sem. rewrite H. exact I.
  Qed.
End Link.
Unset Default Proof Using.

(** Every child of a described node stands for a part of the schema. *)
Lemma describes_parts (kd : nat -> draft -> value -> Prop) nm lm ro dd mm n : describes lm ro kd nm dd mm n ->
  Forall (fun id => exists x, kd id dd x /\ part_here dd mm x) (same_kids n) /\
  Forall (fun id => exists x, kd id dd x /\ part_item dd mm x) (item_kids n) /\
  Forall (fun id => exists x, kd id dd x /\ part_prop mm x) (member_kids n) /\
  Forall (fun id => exists x, kd id dd x /\ part_name dd mm x) (opt_list (n_propertyNames n)).
Proof.
  intros H. unfold describes in H. repeat (destruct H as [? H]).
  assert (OPT : forall (P : value -> Prop) key r, (forall x, assoc key mm = Some x -> P x) ->
    opt_ok kd dd mm key r -> Forall (fun id => exists x, kd id dd x /\ P x) (opt_list r)).
  { intros P key r Hk Ho. unfold opt_ok in Ho. destruct (assoc key mm) eqn:E; [|subst; simpl; auto].
    destruct Ho as (id & -> & K). constructor; auto. eexists. split; [exact K|auto]. }
  assert (GOPT : forall (P : value -> Prop) b key r, (b = true -> forall x, assoc key mm = Some x -> P x) ->
    gated b r (opt_ok kd dd mm key r) -> Forall (fun id => exists x, kd id dd x /\ P x) (opt_list r)).
  { intros P b key r Hk Ho. unfold gated in Ho. destruct b; [eapply OPT; eauto|]. subst. constructor. }
  assert (G6 : draft_ge6 dd = true -> since6 dd) by (intros G E; subst; discriminate).
  assert (G7 : draft_ge7 dd = true -> since7 dd) by (intros G; destruct dd; try discriminate; unfold since7; auto).
  assert (SC : forall key ids, In key ["allOf"; "anyOf"; "oneOf"] -> schemas_ok kd dd mm key ids -> Forall (fun id => exists x, kd id dd x /\ part_here dd mm x) ids).
  { intros key ids Hk Ho. unfold schemas_ok in Ho. destruct (assoc key mm) as [x|] eqn:E; [|subst; auto]. destruct x; try tauto.
    apply Forall_forall. intros id Hid. destruct (Forall2_in_r _ _ _ _ Ho Hid) as (x & Hx & K). exists x. split; auto. eapply here_element; eauto. }
  assert (AD : forall (P : value -> Prop) key r, (forall x, assoc key mm = Some x -> P x) -> addl_ok kd dd mm key r ->
    Forall (fun id => exists x, kd id dd x /\ P x) (addl_ids r)).
  { intros P key r Hk Ho. unfold addl_ok in Ho. destruct (assoc key mm) as [x|] eqn:E; [|subst; constructor].
    specialize (Hk x eq_refl). destruct x; try (subst; constructor; fail); destruct Ho as (id & -> & K); (constructor; [eauto|constructor]). }
  unfold same_kids, item_kids, member_kids. rewrite !Forall_app.
  repeat match goal with |- _ /\ _ => apply conj end;
    try (eapply OPT; [|eassumption]; intros y Ey; apply here_not; exact Ey);
    try (eapply GOPT; [|eassumption]; intros G y Ey; eapply here_if; [auto| |exact Ey]; simpl; tauto);
    try (eapply GOPT; [|eassumption]; intros G y Ey; eapply item_contains; [auto|exact Ey]);
    try (eapply GOPT; [|eassumption]; intros G y Ey; split; [auto|exact Ey]);
    try (eapply SC; [|eassumption]; simpl; tauto);
    try (eapply AD; [|eassumption]; intros y Ey; eapply item_value; [|exact Ey]; simpl; tauto);
    try (eapply AD; [|eassumption]; intros y Ey; eapply prop_value; exact Ey).
  - match goal with X : deps_ok _ _ _ _ |- _ => rename X into Hd end. unfold deps_ok in Hd. destruct (assoc "dependencies" mm) as [x|] eqn:E; [|rewrite Hd; constructor].
    destruct x as [| | | | | |ds|]; try tauto. destruct Hd as (es & ls & HP & HF & ->). apply Forall_forall. intros id Hid. unfold dep_ids in Hid.
    apply in_flat_map in Hid. destruct Hid as ([k dp] & Hk & Hid). apply in_concat in Hk. destruct Hk as (l & Hl & Hk).
    destruct (Forall2_in_r _ _ _ _ HF Hl) as ([k' x] & He & Hd). unfold dep_ok in Hd. cbn [fst snd] in *.
    assert (P : part_here dd mm x). { eapply (here_dependency dd mm ds k'); [exact E|]. eapply Permutation_in; [symmetry; exact HP|exact He]. }
    destruct x; try (destruct Hd as (id' & -> & K); destruct Hk as [Hk|[]]; injection Hk as <- <-; destruct Hid as [<-|[]]; eauto; fail).
    destruct Hd as (names & _ & ->). destruct names; [destruct Hk|]. destruct Hk as [Hk|[]]. injection Hk as <- <-. destruct Hid.
  - match goal with X : items_ok _ _ _ _ _ |- _ => rename X into Hi end. unfold items_ok in Hi. destruct (assoc "items" mm) as [x|] eqn:E; [|destruct Hi as [-> _]; constructor].
    assert (P : part_item dd mm x) by (eapply item_value; [|exact E]; simpl; tauto).
    destruct x as [| | | | |l| |]; try (destruct Hi as [_ (id & -> & K)]; constructor; [eauto|constructor]; fail).
    destruct Hi as [_ HF]. apply Forall_forall. intros id Hid. destruct (Forall2_in_r _ _ _ _ HF Hid) as (x & Hx & K). exists x. split; auto. eapply item_element; eauto.
  - match goal with X : props_ok _ _ _ _ _ |- _ => rename X into Hi end. unfold props_ok in Hi. destruct (assoc "properties" mm) as [x|] eqn:E; [|rewrite Hi; constructor].
    destruct x as [| | | | | |ds|]; try tauto. destruct Hi as (es & HP & HF). apply Forall_forall. intros id Hid.
    destruct (Forall2_in_r _ _ _ _ HF Hid) as ([k x] & Hx & K & _). exists x. split; auto. eapply (prop_member mm "properties" ds k); [simpl; tauto|exact E|]. eapply Permutation_in; [symmetry; exact HP|exact Hx].
  - match goal with X : pats_ok _ _ _ _ _ |- _ => rename X into Hi end. unfold pats_ok in Hi. destruct (assoc "patternProperties" mm) as [x|] eqn:E; [|rewrite Hi; constructor].
    destruct x as [| | | | | |ds|]; try tauto. destruct Hi as (es & HP & HF). apply Forall_forall. intros id Hid. apply in_map_iff in Hid. destruct Hid as (q & <- & Hq).
    destruct (Forall2_in_r _ _ _ _ HF Hq) as ([k x] & Hx & _ & _ & K). exists x. split; auto. eapply (prop_member mm "patternProperties" ds k); [simpl; tauto|exact E|]. eapply Permutation_in; [symmetry; exact HP|exact Hx].
Qed.

Section Keywords.
  Variable env : goenv.
  Notation lim := (e_ratlim env).
  Variable h : heap.
  Variable kid : nat -> draft -> value -> Prop.
  Hypothesis kid_fun : forall id d x d' x', kid id d x -> kid id d' x' -> d = d' /\ x = x'.
  Variable named : nat -> string -> Prop.
  Hypothesis named_fun : forall id k, named id k <-> name_of h id k.
  Variable V : draft -> value -> value -> Prop.

  (** Keywords about another kind of value say nothing. *)
  Lemma not_number m d v : (forall s, v <> VNum s) -> s_multipleOf m v /\ s_maximum d m v /\ s_minimum d m v /\ s_exclusiveMaximum d m v /\ s_exclusiveMinimum d m v.
  Proof.
    intros H. unfold s_multipleOf, s_maximum, s_minimum, s_exclusiveMaximum, s_exclusiveMinimum, kw.
    repeat match goal with |- _ /\ _ => apply conj end; intros; match goal with X : is_num v _ |- _ => destruct X as (s & E & _); destruct (H s E) end.
  Qed.
  Lemma not_string p m v : (forall s, v <> VStr s) -> s_maxLength m v /\ s_minLength m v /\ s_pattern p m v.
  Proof.
    intros H. unfold s_maxLength, s_minLength, s_pattern, kw. repeat match goal with |- _ /\ _ => apply conj end; intros; subst; exfalso; eapply H; eauto.
  Qed.
  Lemma not_array sm d m v : (forall l, v <> VArr l) -> s_items V d m v /\ s_additionalItems V d m v /\ s_maxItems m v /\ s_minItems m v /\ s_uniqueItems sm m v /\ s_contains V d m v.
  Proof.
    intros H. unfold s_items, s_additionalItems, s_maxItems, s_minItems, s_uniqueItems, s_contains, kw.
    repeat match goal with |- _ /\ _ => apply conj end; intros; match goal with X : v = VArr _ |- _ => destruct (H _ X) end.
  Qed.
  Lemma not_object p d m v : (forall l, v <> VMap l) ->
    s_maxProperties m v /\ s_minProperties m v /\ s_required m v /\ s_properties V d m v /\ s_patternProperties p V d m v /\
    s_additionalProperties p V d m v /\ s_propertyNames V d m v.
  Proof.
    intros H. unfold s_maxProperties, s_minProperties, s_required, s_properties, s_patternProperties, s_additionalProperties, s_propertyNames, kw.
    repeat match goal with |- _ /\ _ => apply conj end; intros; match goal with X : v = VMap _ |- _ => destruct (H _ X) end.
  Qed.

  Theorem keywords_link d m n v : doc_ok (VMap m) -> regular lim m -> suited lim m v ->
    describes lim (e_re_ok env) kid named d m n ->
    (types_sem env n v /\ comb_sem (cell_sem kid V) n v /\ common_sem env n v /\ specific_sem env h (cell_sem kid V) n v <->
     keywords (pat env) (fmt env) same V d m v).
  Proof.
    intros Hm Hr Hv H. unfold describes in H.
    destruct H as (D1 & D2 & D3 & D4 & D5 & D6 & D7 & D8 & D9 & D10 & D11 & D12 & D13 & D14 & D15 & D16 & D17 & D18 & D19 & D20 & D21 & D22 & D23 & D24 & D25 & D26 & D27 & D28 & D29 & D30 & D31).
    pose proof (type_link env h kid kid_fun V d m n Hm Hr v Hv D1) as L1.
    pose proof (anyOf_link env h kid kid_fun V d m n Hm Hr v Hv D26) as L2.
    pose proof (oneOf_link env h kid kid_fun V d m n Hm Hr v Hv D25) as L3.
    pose proof (allOf_link env h kid kid_fun V d m n Hm Hr v Hv D27) as L4.
    pose proof (not_link env h kid kid_fun V d m n Hm Hr v Hv D28) as L5.
    pose proof (if_link env h kid kid_fun V d m n Hm Hr v Hv D29 D30 D31) as L6.
    pose proof (dependencies_link env h kid kid_fun V d m n Hm Hr v Hv named named_fun D6) as L7.
    pose proof (const_link env h kid kid_fun V d m n Hm Hr v Hv D23) as L8.
    pose proof (enum_link env h kid kid_fun V d m n Hm Hr v Hv D24) as L9.
    pose proof (format_link env h kid kid_fun V d m n Hm Hr v Hv D15) as L10.
    unfold comb_sem, common_sem, keywords. rewrite L1, L2, L3, L4, L5, L6, L7, L8, L9, L10.
    assert (LS : specific_sem env h (cell_sem kid V) n v <->
      (s_multipleOf m v /\ s_maximum d m v /\ s_minimum d m v /\ s_exclusiveMaximum d m v /\ s_exclusiveMinimum d m v) /\
      (s_maxLength m v /\ s_minLength m v /\ s_pattern (pat env) m v) /\
      (s_items V d m v /\ s_additionalItems V d m v /\ s_maxItems m v /\ s_minItems m v /\ s_uniqueItems same m v /\ s_contains V d m v) /\
      (s_maxProperties m v /\ s_minProperties m v /\ s_required m v /\ s_properties V d m v /\ s_patternProperties (pat env) V d m v /\
       s_additionalProperties (pat env) V d m v /\ s_propertyNames V d m v)).
    { clear L1 L2 L3 L4 L5 L6 L7 L8 L9 L10.
      pose proof (not_number m d v) as N1. pose proof (not_string (pat env) m v) as N2. pose proof (not_array same d m v) as N3. pose proof (not_object (pat env) d m v) as N4.
      destruct (value_kind v) as [[s Ev]|[[s Ev]|[[l Ev]|[[o Ev]|(E1 & E2 & E3 & E4)]]]].
      - assert (M1 := multipleOf_link env h kid kid_fun V d m n Hm Hr v Hv s Ev D9). assert (M2 := maximum_link env h kid kid_fun V d m n Hm Hr v Hv s Ev D11).
        assert (M3 := minimum_link env h kid kid_fun V d m n Hm Hr v Hv s Ev D10). rewrite Ev in *. unfold specific_sem, num_sem.
        rewrite M1. 
        assert (N2' := N2 ltac:(discriminate)). assert (N3' := N3 ltac:(discriminate)). assert (N4' := N4 ltac:(discriminate)). clear N1 N2 N3 N4. tauto.
      - assert (M1 := minLength_link env h kid kid_fun V d m n Hm Hr v Hv s Ev D12). assert (M2 := maxLength_link env h kid kid_fun V d m n Hm Hr v Hv s Ev D13).
        assert (M3 := pattern_link env h kid kid_fun V d m n Hm Hr v Hv s Ev D14). rewrite Ev in *. unfold specific_sem, str_sem. rewrite M1, M2, M3.
        assert (N2' := N1 ltac:(discriminate)). assert (N3' := N3 ltac:(discriminate)). assert (N4' := N4 ltac:(discriminate)). clear N1 N2 N3 N4. tauto.
      - assert (M1 := minItems_link env h kid kid_fun V d m n Hm Hr v Hv l Ev D19). assert (M2 := maxItems_link env h kid kid_fun V d m n Hm Hr v Hv l Ev D20).
        assert (M3 := unique_link env h kid kid_fun V d m n Hm Hr v Hv l Ev D21). assert (M4 := contains_link env h kid kid_fun V d m n Hm Hr v Hv l Ev D22).
        assert (M5 := items_link env h kid kid_fun V d m n Hm Hr v Hv l Ev D7 D8).
        rewrite Ev in *. unfold specific_sem, arr_sem. rewrite M1, M2, M3, M4, M5.
        assert (N2' := N1 ltac:(discriminate)). assert (N3' := N2 ltac:(discriminate)). assert (N4' := N4 ltac:(discriminate)). clear N1 N2 N3 N4. tauto.
      - assert (M1 := minProperties_link env h kid kid_fun V d m n Hm Hr v Hv o Ev D16). assert (M2 := maxProperties_link env h kid kid_fun V d m n Hm Hr v Hv o Ev D17).
        assert (M3 := required_link env h kid kid_fun V d m n Hm Hr v Hv o Ev D18). assert (M4 := propertyNames_link env h kid kid_fun V d m n Hm Hr v Hv o Ev D5).
        assert (M5 := properties_link env h kid kid_fun V d m n Hm Hr v Hv named named_fun o Ev D2).
        assert (M6 := patternProperties_link env h kid kid_fun V d m n Hm Hr v Hv named named_fun o Ev D4).
        assert (M7 := additionalProperties_link env h kid kid_fun V d m n Hm Hr v Hv named named_fun o Ev D2 D4 D3).
        rewrite Ev in *. unfold specific_sem, obj_sem, member_sem. rewrite M1, M2, M3, M4, M5, Forall_and_iff, M6, M7.
        assert (N2' := N1 ltac:(discriminate)). assert (N3' := N2 ltac:(discriminate)). assert (N4' := N3 ltac:(discriminate)). clear N1 N2 N3 N4. tauto.
      - assert (N1' := N1 E1). assert (N2' := N2 E2). assert (N3' := N3 E3). assert (N4' := N4 E4). clear N1 N2 N3 N4.
        assert (HT : specific_sem env h (cell_sem kid V) n v) by (destruct v; try exact I; exfalso; first [eapply E1; reflexivity|eapply E2; reflexivity|eapply E3; reflexivity|eapply E4; reflexivity]). tauto. }
    rewrite LS. split; intros A; repeat match goal with X : _ /\ _ |- _ => destruct X end;
      repeat match goal with |- _ /\ _ => apply conj end; assumption.
  Qed.
End Keywords.

(** ** A compiled heap means what its documents mean *)
Section Heap.
  Variable ce : cenv.
  Notation env := (c_go ce).
  Notation lim := (e_ratlim env).
  Variable pd : policy.
  Variable s : cstate.
  Hypothesis W : wf ce pd s.
  Hypothesis C : forall j, j < length (st_heap s) -> cell ce s j.

  Notation kids := (kid s).
  Lemma kid_fun id d x d' x' : kid s id d x -> kid s id d' x' -> d = d' /\ x = x'.
  Proof. unfold kid. intros E E'. rewrite E in E'. injection E' as -> ->. auto. Qed.

  (** What the references of the schema were resolved to. *)
  Definition target (k : string) (d : draft) (x : value) : Prop :=
    exists r rid, u_parse ce k = Some r /\ assoc r (st_refs s) = Some rid /\ kid s rid d x.

  Lemma kid_cell id d x : kid s id d x -> exists n, nth_error (st_heap s) id = Some n /\ node_for ce s n d x.
  Proof.
    intros K. destruct W as (L & _). assert (Hl : id < length (st_heap s)).
    { rewrite <- L. apply nth_error_Some. unfold kid in K. congruence. }
    destruct (C id Hl) as (n & d' & x' & E & K' & F). destruct (kid_fun _ _ _ _ _ K K') as [-> ->]. eauto.
  Qed.

  Variables (d0 : draft) (x0 v0 : value).
  Notation need := (needed target d0 x0 v0).
  Hypothesis ORD : usual lim v0.
  Hypothesis REG : forall d m v, need d (VMap m) v -> assoc "$ref" m = None -> fits lim m v.
  Variable V : draft -> value -> value -> Prop.
  Hypothesis EQ : meaning_at (pat env) (fmt env) same target d0 x0 v0 V.

  Lemma cell_link id n d x v : nth_error (st_heap s) id = Some n -> kid s id d x -> need d x v -> usual lim v ->
    (cell_sem kids V id v <-> node_sem env (st_heap s) (cell_sem kids V) n v).
  Proof.
    intros En K R Hv. rewrite (cell_sem_iff kids kid_fun V id d x v K). rewrite (EQ d x v R).
    destruct (kid_cell id d x K) as (n' & En' & F). assert (n' = n) by congruence. subst n'. destruct F as [_ F].
    unfold node_sem, schema_sem. destruct x as [|b| | | | |m|]; try tauto.
    - destruct F as [_ ->]. tauto.
    - destruct F as [-> F]. destruct (assoc "$ref" m) as [y|] eqn:Er.
      + destruct y; try tauto. destruct F as (r & rid & Hp & Ha & ->). split.
        * intros (d' & x' & (r' & rid' & Hp' & Ha' & K') & H). exists d', x'. split; auto. congruence.
        * intros (d' & x' & K' & H). exists d', x'. split; auto. exists r, rid. auto.
      + destruct F as [-> F]. symmetry. apply keywords_link with (named := named s); auto.
        * apply kid_fun.
        * intros i k. reflexivity.
        * apply W in K. apply K.
        * apply (REG d m v R Er).
        * apply suited_iff. split; [auto|]. apply (REG d m v R Er).
  Qed.

  Lemma steps_link id n d x v id' v' : nth_error (st_heap s) id = Some n -> kid s id d x -> need d x v -> usual lim v ->
    steps n v id' v' -> (exists d' x', kid s id' d' x' /\ need d' x' v') /\ usual lim v'.
  Proof.
    intros En K R Hv [Hp St]. destruct (kid_cell id d x K) as (n' & En' & F). assert (n' = n) by congruence. subst n'. destruct F as [_ F].
    destruct x as [|b| | | | |m|]; try tauto.
    - destruct F as [_ F]. congruence.
    - destruct F as [_ F]. destruct (assoc "$ref" m) as [y|] eqn:Er.
      + destruct y as [| | | |k| | |]; try tauto. destruct F as (r & rid & Hu & Ha & E). rewrite E in St. destruct St as [-> ->]. split; auto.
        destruct W as (_ & _ & _ & WR). destruct (WR _ _ Ha) as (d' & x' & K' & _). exists d', x'. split; auto.
        eapply needed_step; [exact R|]. eapply ask_ref; eauto. exists r, rid. auto.
      + assert (Nr : forall r, assoc "$ref" m <> Some (VStr r)) by (rewrite Er; discriminate).
        destruct F as [E F]. rewrite E in St. apply describes_parts in F. destruct F as (F1 & F2 & F3 & F4). rewrite Forall_forall in F1, F2, F3, F4.
        destruct St as [v id' Hi|l id' e Hi He|o id' k e Hi He|o id' k e Hi He].
        * destruct (F1 _ Hi) as (x & Kx & P). split; auto. exists d, x. split; auto. eapply needed_step; [exact R|]. apply ask_here; auto.
        * destruct (F2 _ Hi) as (x & Kx & P). split; [|eapply usual_arr; eauto]. exists d, x. split; auto. eapply needed_step; [exact R|]. apply ask_item; auto.
        * destruct (F3 _ Hi) as (x & Kx & P). split; [|eapply usual_map; eauto]. exists d, x. split; auto. eapply needed_step; [exact R|]. eapply ask_prop; eauto.
        * assert (Hi' : In id' (opt_list (n_propertyNames n))) by (rewrite Hi; simpl; auto).
          destruct (F4 _ Hi') as (x & Kx & P). split; [|eapply usual_map; eauto]. exists d, x. split; auto. eapply needed_step; [exact R|]. apply ask_name; auto.
          change k with (fst (k, e)). apply in_map. auto.
  Qed.

  Lemma usual_shape v : usual lim v -> json_shape v.
  Proof. intros [[_ H] _]. apply plain_shape. auto. Qed.

  (** The library's verdict is the meaning of the document. *)
  Theorem valid_link k o id c r : fair o -> kid s id d0 x0 ->
    validateRecursive env (st_heap s) k o id v0 c = Ok r -> (errors r = [] <-> V d0 x0 v0).
  Proof.
    intros Ho K E. rewrite <- (cell_sem_iff kids kid_fun V id d0 x0 v0 K).
    eapply (validateRecursive_sem_on env (st_heap s) (cell_sem kids V)
              (fun id v => (exists d x, kid s id d x /\ need d x v) /\ usual lim v)); eauto.
    - intros i n w En ((d & x & Kx & R) & Hw). split; [apply usual_shape; auto|]. eapply cell_link; eauto.
    - intros i n w i' w' En ((d & x & Kx & R) & Hw) St. eapply steps_link; eauto.
    - split; auto. exists d0, x0. split; auto. constructor.
  Qed.
End Heap.
