(** The rules of the drafts determine a meaning: judgements obeying them agree,
    and one exists, wherever the question can be unfolded only finitely often. *)
From Verif Require Export SpecSchema.
From Verif Require Import ValidateOrder.
From Coq Require Import Lia.

Section Meaning.
  Variable pat : string -> string -> Prop.
  Variable fmt : string -> value -> Prop.
  Variable same : value -> value -> Prop.
  Variable T : string -> draft -> value -> Prop.

  Lemma kw_ext m key (P Q : value -> Prop) : (forall x, assoc key m = Some x -> (P x <-> Q x)) -> (kw m key P <-> kw m key Q).
  Proof. intros H. unfold kw. split; intros K x Hx; apply (H x Hx); auto. Qed.

  Lemma keywords_ext V V' d m v : (forall r, assoc "$ref" m <> Some (VStr r)) ->
    (forall d' s' v', asks T d (VMap m) v d' s' v' -> (V d' s' v' <-> V' d' s' v')) ->
    (keywords pat fmt same V d m v <-> keywords pat fmt same V' d m v).
  Proof.
    intros Nr H.
    assert (HH : forall x, part_here d m x -> (V d x v <-> V' d x v)) by (intros x Hx; apply H; apply ask_here; auto).
    assert (HI : forall x l e, v = VArr l -> part_item d m x -> In e l -> (V d x e <-> V' d x e)) by (intros x l e -> Hx He; apply H; apply ask_item; auto).
    assert (HP : forall x o k e, v = VMap o -> part_prop m x -> In (k, e) o -> (V d x e <-> V' d x e)) by (intros x o k e -> Hx He; apply H; eapply ask_prop; eauto).
    assert (HN : forall x o k, v = VMap o -> part_name d m x -> In k (map fst o) -> (V d x (VStr k) <-> V' d x (VStr k))) by (intros x o k -> Hx He; apply H; eapply ask_name; eauto).
    assert (HV : forall k x, since7 d -> In k ["if"; "then"; "else"] -> assoc k m = Some x -> (V d x v <-> V' d x v)) by (intros; apply HH; eapply here_if; eauto).
    assert (HE : forall k l x, In k ["allOf"; "anyOf"; "oneOf"] -> assoc k m = Some (VArr l) -> In x l -> (V d x v <-> V' d x v)) by (intros; apply HH; eapply here_element; eauto).
    assert (E1 : s_allOf V d m v <-> s_allOf V' d m v).
    { apply kw_ext. intros x Hx. split; intros K l -> s Hs; apply (HE _ _ s (or_introl eq_refl) Hx Hs); eauto. }
    assert (E2 : s_anyOf V d m v <-> s_anyOf V' d m v).
    { apply kw_ext. intros x Hx. split; intros K l ->; destruct (K _ eq_refl) as (s & Hs & K'); exists s; (split; [auto|]);
        apply (HE _ _ s (or_intror (or_introl eq_refl)) Hx Hs); auto. }
    assert (E3 : s_oneOf V d m v <-> s_oneOf V' d m v).
    { apply kw_ext. intros x Hx. assert (G : forall l s, x = VArr l -> In s l -> (V d s v <-> V' d s v)).
      { intros l s -> Hs. eapply HE; [|exact Hx|exact Hs]. simpl; auto. }
      split; intros K l El; destruct (K _ El) as (i & s & Hi & K1 & K2); exists i, s; (split; [auto|]);
        (split; [apply (G l); eauto using nth_error_In|]); intros j s' Hj K'; apply (K2 j s' Hj); apply (G l); eauto using nth_error_In. }
    assert (E4 : s_not V d m v <-> s_not V' d m v).
    { apply kw_ext. intros x Hx. rewrite (HH x); [tauto|apply here_not; auto]. }
    assert (E5 : s_if V d m v <-> s_if V' d m v).
    { assert (F : since7 d -> kw m "if" (fun i => (V d i v -> kw m "then" (fun s => V d s v)) /\ (~ V d i v -> kw m "else" (fun s => V d s v))) <->
                  kw m "if" (fun i => (V' d i v -> kw m "then" (fun s => V' d s v)) /\ (~ V' d i v -> kw m "else" (fun s => V' d s v)))).
      { intros H7. apply kw_ext. intros x Hx. rewrite (HV "if" x) by (simpl; auto).
        rewrite (kw_ext m "then" (fun s => V d s v) (fun s => V' d s v)) by (intros; eapply HV; eauto; simpl; auto).
        rewrite (kw_ext m "else" (fun s => V d s v) (fun s => V' d s v)) by (intros; eapply HV; eauto; simpl; auto). tauto. }
      unfold s_if. tauto. }
    assert (E6 : s_items V d m v <-> s_items V' d m v).
    { apply kw_ext. intros x Hx. assert (G : forall l e, v = VArr l -> In e l -> (V d x e <-> V' d x e)).
      { intros l e El He. eapply HI; eauto. eapply item_value; [|exact Hx]. simpl; auto. }
      assert (G' : forall l ss s e, v = VArr l -> x = VArr ss -> In s ss -> In e l -> (V d s e <-> V' d s e)).
      { intros l ss s e El -> Hs He. eapply HI; eauto. eapply item_element; eauto. }
      split; intros K l El; destruct (K l El) as [K1 K2]; split.
      - intros ss Es i s e Hi He. apply (G' l ss s e); eauto using nth_error_In.
      - intros Hn e He. apply (G l e); auto.
      - intros ss Es i s e Hi He. apply (G' l ss s e); eauto using nth_error_In.
      - intros Hn e He. apply (G l e); auto. }
    assert (SK : forall (l : list value) n e, In e (skipn n l) -> In e l).
    { intros l n e He. rewrite <- (firstn_skipn n l). apply in_or_app. auto. }
    assert (E7 : s_additionalItems V d m v <-> s_additionalItems V' d m v).
    { apply kw_ext. intros x Hx. split; intros K l ss El Es e He; destruct (K l ss El Es e He) as [K1 K2]; (split; [auto|]); intros Hb;
        (eapply HI; [exact El| |eapply SK; exact He|auto]); (eapply item_value; [|exact Hx]); simpl; auto. }
    assert (E8 : s_contains V d m v <-> s_contains V' d m v).
    { assert (F : since6 d -> kw m "contains" (fun s => forall l, v = VArr l -> exists e, In e l /\ V d s e) <-> kw m "contains" (fun s => forall l, v = VArr l -> exists e, In e l /\ V' d s e)).
      { intros H6. apply kw_ext. intros x Hx. split; intros K l El; destruct (K l El) as (e & He & K'); exists e; (split; [auto|]);
          (eapply HI; [exact El| |exact He|auto]); (eapply item_contains; [auto|exact Hx]). }
      unfold s_contains. tauto. }
    assert (E9 : s_properties V d m v <-> s_properties V' d m v).
    { apply kw_ext. intros x Hx. split; intros K ps o -> Eo k s e Hs He; specialize (K ps o eq_refl Eo k s e Hs He);
        (eapply HP; [exact Eo| |exact He|exact K]); (eapply prop_member; [|exact Hx|exact Hs]); simpl; auto. }
    assert (E10 : s_patternProperties pat V d m v <-> s_patternProperties pat V' d m v).
    { apply kw_ext. intros x Hx. split; intros K ps o -> Eo p s k e Hs He Hp; specialize (K ps o eq_refl Eo p s k e Hs He Hp);
        (eapply HP; [exact Eo| |exact He|exact K]); (eapply prop_member; [|exact Hx|exact Hs]); simpl; auto. }
    assert (E11 : s_additionalProperties pat V d m v <-> s_additionalProperties pat V' d m v).
    { apply kw_ext. intros x Hx. split; intros K o Eo k e He Ha; destruct (K o Eo k e He Ha) as [K1 K2]; (split; [auto|]); intros Hb;
        (eapply HP; [exact Eo| |exact He|auto]); (eapply prop_value; exact Hx). }
    assert (E12 : s_propertyNames V d m v <-> s_propertyNames V' d m v).
    { assert (F : since6 d -> kw m "propertyNames" (fun s => forall o, v = VMap o -> forall k, In k (map fst o) -> V d s (VStr k)) <->
                  kw m "propertyNames" (fun s => forall o, v = VMap o -> forall k, In k (map fst o) -> V' d s (VStr k))).
      { intros H6. apply kw_ext. intros x Hx. split; intros K o Eo k Hk; specialize (K o Eo k Hk); eapply HN; eauto; split; auto. }
      unfold s_propertyNames. tauto. }
    assert (E13 : s_dependencies V d m v <-> s_dependencies V' d m v).
    { apply kw_ext. intros x Hx. split; intros K ds o -> Eo k a Ha Hk; destruct (K ds o eq_refl Eo k a Ha Hk) as [K1 K2]; (split; [auto|]); intros Hn;
        (apply HH; [|auto]); eapply here_dependency; eauto. }
    unfold keywords. rewrite E1, E2, E3, E4, E5, E6, E7, E8, E9, E10, E11, E12, E13. reflexivity.
  Qed.

  Lemma schema_sem_ext V V' d s v : (forall d' s' v', asks T d s v d' s' v' -> (V d' s' v' <-> V' d' s' v')) ->
    (schema_sem pat fmt same V T d s v <-> schema_sem pat fmt same V' T d s v).
  Proof.
    intros H. unfold schema_sem. destruct s as [| | | | | |m|]; try tauto.
    assert (K : (forall r, assoc "$ref" m <> Some (VStr r)) -> (keywords pat fmt same V d m v <-> keywords pat fmt same V' d m v)).
    { intros N. apply keywords_ext; auto. }
    destruct (assoc "$ref" m) as [y|] eqn:E; [|apply K; discriminate]. destruct y; try (apply K; discriminate).
    split; intros (d' & s' & HT & HV); exists d', s'; (split; [auto|]); (apply (H d' s' v); [eapply ask_ref; eauto|auto]).
  Qed.

  Definition question : Type := draft * value * value.
  Definition subquestion (a b : question) : Prop :=
    asks T (fst (fst b)) (snd (fst b)) (snd b) (fst (fst a)) (snd (fst a)) (snd a).
  (** The question can be unfolded only finitely often. *)
  Definition well_founded_at (d : draft) (s v : value) : Prop := Acc subquestion (d, s, v).

  Lemma wf_ask d s v d' s' v' : well_founded_at d s v -> asks T d s v d' s' v' -> well_founded_at d' s' v'.
  Proof. intros [H] Ha. apply H. exact Ha. Qed.
  Lemma wf_needed d0 s0 v0 d s v : well_founded_at d0 s0 v0 -> needed T d0 s0 v0 d s v -> well_founded_at d s v.
  Proof. intros H N. induction N; auto. eapply wf_ask; eauto. Qed.

  (** Two judgements obeying the rules agree. *)
  Theorem meaning_unique V V' d s v : well_founded_at d s v ->
    meaning_at pat fmt same T d s v V -> meaning_at pat fmt same T d s v V' -> (V d s v <-> V' d s v).
  Proof.
    intros H M M'.
    assert (G : forall q, Acc subquestion q -> needed T d s v (fst (fst q)) (snd (fst q)) (snd q) ->
                 (V (fst (fst q)) (snd (fst q)) (snd q) <-> V' (fst (fst q)) (snd (fst q)) (snd q))).
    { intros q Hq. induction Hq as [q _ IH]. destruct q as [[d1 s1] v1]. cbn [fst snd] in *. intros N.
      rewrite (M _ _ _ N), (M' _ _ _ N). apply schema_sem_ext. intros d' s' v' Ha.
      apply (IH (d', s', v')); [exact Ha|]. eapply needed_step; eauto. }
    apply (G (d, s, v) H). constructor.
  Qed.

  (** One judgement obeys them all. *)
  Fixpoint judge (q : question) (H : Acc subquestion q) {struct H} : Prop :=
    schema_sem pat fmt same
      (fun d' s' v' => exists Ha : subquestion (d', s', v') q, judge (d', s', v') (Acc_inv H Ha)) T
      (fst (fst q)) (snd (fst q)) (snd q).
  Lemma judge_irrelevant q (H : Acc subquestion q) : forall H', judge q H <-> judge q H'.
  Proof.
    induction H as [q H IH] using Acc_inv_dep. intros [H']. cbn [judge]. apply schema_sem_ext. intros d' s' v' Ha. split.
    - intros [Hb K]. exists Hb. apply (IH _ Hb). exact K.
    - intros [Hb K]. exists Hb. apply (IH _ Hb) in K. exact K.
  Qed.
  Definition meaning (d : draft) (s v : value) : Prop := exists H : well_founded_at d s v, judge (d, s, v) H.

  Theorem meaning_rules d s v : well_founded_at d s v -> (meaning d s v <-> schema_sem pat fmt same meaning T d s v).
  Proof.
    intros W. assert (E : meaning d s v <-> judge (d, s, v) W).
    { split; [intros [H K]; apply (judge_irrelevant _ H); auto|exists W; auto]. }
    rewrite E. clear E. destruct W as [W]. cbn [judge]. cbn [fst snd]. apply schema_sem_ext. intros d' s' v' Ha. split.
    - intros [Hb K]. exists (W _ Hb). exact K.
    - intros [H K]. assert (Hb : subquestion (d', s', v') (d, s, v)) by exact Ha. exists Hb. apply (judge_irrelevant _ H). exact K.
  Qed.
  Theorem meaning_exists d s v : well_founded_at d s v -> meaning_at pat fmt same T d s v meaning.
  Proof. intros W d' s' v' N. apply meaning_rules. eapply wf_needed; eauto. Qed.
End Meaning.

(** ** When a question can be unfolded only finitely often *)

Fixpoint weight (v : value) : nat :=
  match v with
  | VArr l => S (list_sum (map weight l))
  | VMap m | VIMap m => S (list_sum (map (fun e => S (weight (snd e))) m))
  | _ => 1
  end.
Lemma list_sum_in x l : In x l -> x <= list_sum l.
Proof. induction l as [|y l IH]; simpl; [tauto|]. intros [-> | H]; [lia|]. specialize (IH H). lia. Qed.
Lemma weight_arr l x : In x l -> weight x < weight (VArr l).
Proof. intros H. cbn [weight]. pose proof (list_sum_in (weight x) (map weight l) (in_map weight l x H)). lia. Qed.
Lemma weight_map m k x : In (k, x) m -> S (weight x) < weight (VMap m).
Proof.
  intros H. cbn [weight]. pose proof (list_sum_in (S (weight x)) (map (fun e => S (weight (snd e))) m)) as L.
  specialize (L (in_map (fun e : string * value => S (weight (snd e))) m (k, x) H)). lia.
Qed.
Lemma weight_pos v : 1 <= weight v.
Proof. destruct v; simpl; lia. Qed.
Lemma weight_key o k : In k (map fst o) -> weight (VStr k) < weight (VMap o).
Proof. intros H. apply in_map_iff in H. destruct H as ([k' x] & _ & H). apply weight_map in H. pose proof (weight_pos x). cbn [weight] in *. lia. Qed.

Lemma weight_member m k x : assoc k m = Some x -> weight x < weight (VMap m).
Proof. intros H. apply assoc_In in H. apply weight_map in H. lia. Qed.
Lemma weight_part d m x : part d m x -> weight x < weight (VMap m).
Proof.
  assert (A : forall k l y, assoc k m = Some (VArr l) -> In y l -> weight y < weight (VMap m)).
  { intros k l y E Hy. apply weight_member in E. apply weight_arr in Hy. lia. }
  assert (B : forall k l n y, assoc k m = Some (VMap l) -> In (n, y) l -> weight y < weight (VMap m)).
  { intros k l n y E Hy. apply weight_member in E. apply weight_map in Hy. lia. }
  intros [H|[H|[H|H]]]; destruct H; eauto using weight_member.
Qed.

Section Guarded.
  Variable T : string -> draft -> value -> Prop.
  (** One schema hands the instance itself on to another. *)
  Inductive hands_on : draft * value -> draft * value -> Prop :=
  | hands_ref d m r d' x : assoc "$ref" m = Some (VStr r) -> T r d' x -> hands_on (d', x) (d, VMap m)
  | hands_part d m x : (forall r, assoc "$ref" m <> Some (VStr r)) -> part_here d m x -> hands_on (d, x) (d, VMap m).
  (** No schema within s0 hands an instance back to itself. *)
  Definition guarded (d0 : draft) (s0 : value) : Prop :=
    forall d s, within T d0 s0 d s -> Acc hands_on (d, s).

  Lemma within_asks d0 s0 d s v d' s' v' : within T d0 s0 d s -> asks T d s v d' s' v' -> within T d0 s0 d' s'.
  Proof.
    intros H Ha. destruct Ha.
    - eapply within_ref; eauto.
    - eapply within_part; eauto. left; auto.
    - eapply within_part; eauto. right; left; auto.
    - eapply within_part; eauto. right; right; left; auto.
    - eapply within_part; eauto. right; right; right; auto.
  Qed.
  Lemma needed_within d0 s0 v0 d s v : needed T d0 s0 v0 d s v -> within T d0 s0 d s.
  Proof. induction 1; [constructor|eapply within_asks; eauto]. Qed.

  Theorem guarded_well_founded d0 s0 : guarded d0 s0 -> forall d s v, within T d0 s0 d s -> well_founded_at T d s v.
  Proof.
    intros G.
    assert (H : forall k d s v, within T d0 s0 d s -> weight v < k -> well_founded_at T d s v).
    { induction k as [|k IHk]; intros d s v Hw Hk; [lia|].
      pose proof (G d s Hw) as A. revert Hw. change s with (snd (d, s)). change d with (fst (d, s)) at 1. change d with (fst (d, s)) at 3.
      generalize dependent (d, s). clear d s. intros q A. induction A as [[d s] _ IH]. cbn [fst snd]. intros Hw.
      constructor. intros [[d' s'] v'] Ha. unfold subquestion in Ha. cbn [fst snd] in Ha. pose proof (within_asks _ _ _ _ _ _ _ _ Hw Ha) as Hw'.
      destruct Ha as [d m r v d' x Er HT|d m v x Nr P|d m l x e Nr P He|d m o x kk e Nr P He|d m o x kk Nr P He].
      - apply (IH (d', x)); auto. eapply hands_ref; eauto.
      - apply (IH (d, x)); auto. apply hands_part; auto.
      - apply IHk; auto. apply weight_arr in He. lia.
      - apply IHk; auto. apply weight_map in He. lia.
      - apply IHk; auto. apply weight_key in He. lia. }
    intros d s v Hw. apply (H (S (weight v))); auto.
  Qed.

  (** Documents without references are guarded. *)
  Theorem no_refs_guarded d0 s0 : (forall d m, within T d0 s0 d (VMap m) -> forall r, assoc "$ref" m <> Some (VStr r)) -> guarded d0 s0.
  Proof.
    intros N d s. assert (H : forall k d s, weight s < k -> within T d0 s0 d s -> Acc hands_on (d, s)).
    { induction k as [|k IH]; intros d1 s1 Hk Hw; [lia|]. constructor. intros q Hq. inversion Hq as [d2 m r d' x Er HT|d2 m x Nr P]; subst.
      - destruct (N _ _ Hw r Er).
      - apply IH.
        + assert (weight x < weight (VMap m)) by (apply (weight_part d1); left; auto). lia.
        + eapply within_part; eauto. left; auto. }
    apply (H (S (weight s))). lia.
  Qed.
End Guarded.

Lemma within_ext (T T' : string -> draft -> value -> Prop) d0 s0 : (forall r d x, T r d x <-> T' r d x) -> forall d s, within T d0 s0 d s -> within T' d0 s0 d s.
Proof. intros H d s W. induction W; [constructor|eapply within_part; eauto|eapply within_ref; eauto; apply H; auto]. Qed.
Lemma guarded_ext (T T' : string -> draft -> value -> Prop) d0 s0 : (forall r d x, T r d x <-> T' r d x) -> guarded T d0 s0 -> guarded T' d0 s0.
Proof.
  intros H G d s W. assert (A : Acc (hands_on T) (d, s)) by (apply G; eapply within_ext; [|exact W]; intros; symmetry; apply H).
  clear W. induction A as [q _ IH]. constructor. intros q' Hq. apply IH. inversion Hq; subst; [eapply hands_ref; eauto; apply H; auto|apply hands_part; auto].
Qed.
