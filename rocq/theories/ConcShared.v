(** A compiled schema used again and again, and by many goroutines. *)
From Coq Require Import List Arith Lia.
From Verif Require Import ValidateMono FormatProps ModelConc SpecConc ConcChain.
Open Scope string_scope.
Open Scope list_scope.

Definition agree (hp : heap) (r r0 : registry) : Prop :=
  forall n, In n hp -> n_format n <> "" -> assoc (n_format n) r = assoc (n_format n) r0.

Lemma le_both {A} (x y : out A) : le_out x y -> le_out y x -> x = y.
Proof. intros [->|] [|]; auto. Qed.
Lemma node_registry go hp rec rec' o n v c r r0 :
  (n_format n <> "" -> assoc (n_format n) r = assoc (n_format n) r0) ->
  (forall o id v c, rec o id v c = rec' o id v c) ->
  validateNode (with_registry go r) hp rec o n v c = validateNode (with_registry go r0) hp rec' o n v c.
Proof.
  intros E R.
  assert (C : forall v c, validateCommon (with_registry go r) n v c = validateCommon (with_registry go r0) n v c).
  { intros v' c'. unfold validateCommon, v_format. destruct (String.eqb_spec (n_format n) ""); auto.
    cbn [with_registry e_is_format]. unfold IsFormat. rewrite E by auto. reflexivity. }
  transitivity (validateNode (with_registry go r0) hp rec o n v c).
  - unfold validateNode, scalar_checks, object_checks.
    destruct (n_pass n) as [[]|]; [reflexivity..|]. destruct (n_ref n); [reflexivity|].
    destruct v; cbn zeta; rewrite ?C; try reflexivity.
    cbn [with_registry e_ratlim]. destruct (IsTyped (n_types n) && negb (Contains (n_types n) TYPE_OBJECT))%bool; [reflexivity|].
    destruct (convertDocumentNode (VIMap m)) as [w| |]; try reflexivity. cbn [obind].
    destruct w; try reflexivity. rewrite C. reflexivity.
  - apply le_both; apply le_validateNode; intros; right; auto.
Qed.

Theorem during_steady go hp (seen : registry -> Prop) r0 k : (forall r, seen r -> agree hp r r0) -> forall o id v c x,
  during go hp seen k o id v c x -> x = validateRecursive (with_registry go r0) hp k o id v c.
Proof.
  intros Ag. induction k as [|k IH]; intros o id v c x D; 
    inversion D as [|k' o' id' v' c' E|k' o' id' v' c' n r rec E Sr Rec]; subst; simpl.
  - reflexivity.
  - rewrite E. reflexivity.
  - rewrite E. apply node_registry; auto. intros N. apply Ag; auto. eapply nth_error_In; eauto.
Qed.
(** There is such a run: the registry stays what it is. *)
Lemma during_constant go hp (seen : registry -> Prop) r : seen r -> forall k o id v c,
  during go hp seen k o id v c (validateRecursive (with_registry go r) hp k o id v c).
Proof.
  intros S. induction k as [|k IH]; intros; simpl; [constructor|].
  destruct (nth_error hp id) eqn:E; [|constructor; auto]. eapply du_visit; eauto.
Qed.

(** The registry keeps what nobody changes. *)
Lemma effect_entered t H st : proper t H st -> (forall o, st = Entered o -> In (MInv t o) H) /\ forall o a, In (MNow t o a) H -> In (MInv t o) H.
Proof.
  induction 1 as [|H o P [I1 I2]|H o a P [I1 I2]|H o a P [I1 I2]|H u o s N P [I1 I2]|H u o a s N P [I1 I2]|H u o a s N P [I1 I2]];
    (split; [intros o' E|intros o' a' E]); rewrite ?in_app_iff in *; simpl in *; try discriminate E; try tauto;
    try solve [injection E as <-; tauto]; try solve [left; eauto]; try solve [destruct E as [E|[E|[]]]; [left; eauto|try discriminate E]; left; injection E as; subst; auto; congruence].
Qed.
Lemma in_turn_keeps m h m' n : in_turn m h m' -> (forall t o a, In (MNow t o a) h -> writes o = true -> op_name o <> n) -> m' n = m n.
Proof.
  induction 1 as [m|m t o h m' I IH|m t o a h m' I IH|m m1 t o a h m' A I IH]; intros Q; auto.
  - apply IH. intros t' o' a' Hi. eapply Q. right. exact Hi.
  - apply IH. intros t' o' a' Hi. eapply Q. right. exact Hi.
  - rewrite IH by (intros t' o' a' Hi; eapply Q; right; exact Hi).
    specialize (Q t o a (or_introl eq_refl)). inversion A; subst; auto; simpl in Q; specialize (Q eq_refl).
    + unfold plus. destruct (String.eqb_spec n n0); congruence.
    + unfold minus. destruct (String.eqb_spec n n0); congruence.
Qed.
Definition leaves (n : string) (h : list event) : Prop := forall t o, In (Inv t o) h -> writes o = true -> op_name o <> n.
Theorem unchanged r h s n : runs step (start r) h s -> leaves n h -> assoc n (ch_map s) = assoc n r.
Proof.
  intros R L. destruct (sd_h _ _ _ (runs_sound _ _ _ R)) as (H & m & E & I & K & P). rewrite <- K.
  rewrite (in_turn_keeps _ _ _ n I); auto. intros t o a Hi. apply (L t).
  rewrite <- E. apply in_flat_map. exists (MInv t o). split; [|left; auto].
  exact (proj2 (effect_entered _ _ _ (P t)) o a Hi).
Qed.

(** Answers about a name nobody changes. *)
Lemma return_effect t H st : proper t H st -> (forall o a, st = Effected o a -> In (MNow t o a) H) /\ forall o a, In (MRet t o a) H -> In (MNow t o a) H.
Proof.
  induction 1 as [|H o P [I1 I2]|H o a P [I1 I2]|H o a P [I1 I2]|H u o s N P [I1 I2]|H u o a s N P [I1 I2]|H u o a s N P [I1 I2]];
    (split; [intros o' a' E|intros o' a' E]); rewrite ?in_app_iff in *; simpl in *; try discriminate E; try tauto;
    try solve [injection E as <- <-; tauto]; try solve [left; eauto]; try solve [destruct E as [E|[E|[]]]; [left; eauto|try discriminate E]; left; injection E as; subst; auto; congruence].
Qed.
Lemma in_turn_answer m h m' n v : in_turn m h m' -> (forall t o a, In (MNow t o a) h -> writes o = true -> op_name o <> n) ->
  forall t a, In (MNow t (OIsFormat n v) a) h -> a = ABool (match m n with None => true | Some f => f v end).
Proof.
  induction 1 as [m|m t o h m' I IH|m t o a h m' I IH|m m1 t o a h m' A I IH]; intros Q t0 a0 Hi; [destruct Hi|..].
  - destruct Hi as [Hi|Hi]; [discriminate Hi|]. eapply IH; eauto. intros t' o' a' Hi'. eapply Q. right. exact Hi'.
  - destruct Hi as [Hi|Hi]; [discriminate Hi|]. eapply IH; eauto. intros t' o' a' Hi'. eapply Q. right. exact Hi'.
  - destruct Hi as [Hi|Hi].
    + injection Hi as -> -> ->. inversion A as [| | | |? ? ? E|? ? ? ? E]; subst; rewrite E; reflexivity.
    + assert (E : m1 n = m n).
      { specialize (Q t o a (or_introl eq_refl)). inversion A; subst; auto; simpl in Q; specialize (Q eq_refl).
        - unfold plus. destruct (String.eqb_spec n n0); congruence.
        - unfold minus. destruct (String.eqb_spec n n0); congruence. }
      rewrite <- E. eapply IH; eauto. intros t' o' a' Hi'. eapply Q. right. exact Hi'.
Qed.
Theorem steady_answer r h s n v t a : runs step (start r) h s -> leaves n h -> In (Ret t (OIsFormat n v) a) h -> a = ABool (IsFormat r n v).
Proof.
  intros R L Hi. destruct (sd_h _ _ _ (runs_sound _ _ _ R)) as (H & m & E & I & K & P).
  rewrite <- E in Hi. apply in_flat_map in Hi. destruct Hi as (x & Hx & Hv).
  destruct x; simpl in Hv; try tauto; destruct Hv as [Hv|[]]; try discriminate Hv. injection Hv as -> -> ->.
  refine (in_turn_answer _ _ _ n v I _ t a _).
  - intros t' o' a' Hi'. apply (L t'). rewrite <- E. apply in_flat_map. exists (MInv t' o'). split; [|left; auto].
    exact (proj2 (effect_entered _ _ _ (P t')) o' a' Hi').
  - exact (proj2 (return_effect _ _ _ (P t)) _ _ Hx).
Qed.

(** The registries that a goroutine can find. *)
Definition found (hp : heap) (r0 : registry) (r : registry) : Prop :=
  exists h s, runs step (start r0) h s /\ ch_map s = r /\ forall n, In n hp -> n_format n <> "" -> leaves (n_format n) h.
Theorem shared go hp r0 fuel o root v x :
  during go hp (found hp r0) fuel o root v [STRING_CONTEXT_ROOT] x -> x = validateDocument (with_registry go r0) hp fuel o root v.
Proof.
  apply during_steady. intros r (h & s & R & <- & L) n Hn N. eapply unchanged; eauto.
Qed.

(** One call after the other. *)
Definition keeps_format (hp : heap) (u : use) : Prop :=
  match u with UValidate _ _ => True | UAdd k _ | URemove k => forall n, In n hp -> n_format n <> "" -> n_format n <> k end.
Fixpoint each (f : oracle -> value -> out result) (l : list use) : list (out result) :=
  match l with [] => [] | UValidate o v :: l' => f o v :: each f l' | _ :: l' => each f l' end.
Lemma recursive_registry go hp r r0 : agree hp r r0 -> forall k o id v c,
  validateRecursive (with_registry go r) hp k o id v c = validateRecursive (with_registry go r0) hp k o id v c.
Proof. intros A k o id v c. apply (during_steady go hp (eq r) r0); [intros ? <-; auto|apply during_constant; auto]. Qed.
Theorem again go hp root fuel l : forall r r0, agree hp r r0 -> (forall u, In u l -> keeps_format hp u) ->
  uses go hp root fuel r l = each (fun o v => validateDocument (with_registry go r0) hp fuel o root v) l.
Proof.
  induction l as [|u l IH]; intros r r0 A F; [reflexivity|].
  assert (F' : forall u, In u l -> keeps_format hp u) by (intros; apply F; right; auto).
  specialize (F u (or_introl eq_refl)). destruct u as [o v|k f|k]; simpl.
  - f_equal; [|apply IH; auto]. apply recursive_registry; auto.
  - apply IH; auto. intros n Hn N. rewrite assoc_add. destruct (String.eqb_spec (n_format n) k) as [e|]; [|apply A; auto].
    exfalso. exact (F n Hn N e).
  - apply IH; auto. intros n Hn N. rewrite assoc_remove. destruct (String.eqb_spec (n_format n) k) as [e|]; [|apply A; auto].
    exfalso. exact (F n Hn N e).
Qed.
