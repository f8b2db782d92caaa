(** Every schema the compiler accepts, corner cases included. *)
From Coq Require Import Lia.
From Verif Require Import CompileSem CompileRefs CompileFetch LoadFetch Meaning NumExact.
From Verif Require Export SpecReading.
Open Scope string_scope.
Open Scope list_scope.
Open Scope nat_scope.

(** ** Keywords depend on what is found under each name *)
Section Assoc.
  Variable pat : string -> string -> Prop.
  Variable fmt : string -> value -> Prop.
  Variable same : value -> value -> Prop.
  Variable V : draft -> value -> value -> Prop.
  Variable d : draft.
  Lemma kw_assoc m m' key P : assoc key m = assoc key m' -> kw m key P -> kw m' key P.
  Proof. unfold kw. intros E K x. rewrite <- E. apply K. Qed.
  Lemma keywords_assoc1 m m' v : (forall k, assoc k m = assoc k m') -> keywords pat fmt same V d m v -> keywords pat fmt same V d m' v.
  Proof.
    intros E K. unfold keywords in *. repeat match goal with X : _ /\ _ |- _ => destruct X end.
    assert (G : forall key P, kw m key P -> kw m' key P) by (intros; eapply kw_assoc; eauto).
    assert (G' : forall key P, kw m' key P -> kw m key P) by (intros key P; apply kw_assoc; auto).
    assert (S : forall k, strict d m' k -> strict d m k) by (unfold strict; intros k; rewrite E; auto).
    assert (A : forall k, additional pat m' k -> additional pat m k) by (unfold additional; intros k [A1 A2]; split; apply G'; auto).
    repeat match goal with |- _ /\ _ => apply conj end;
      try (match goal with X : ?s m v |- ?s m' v => exact (G _ _ X) end);
      try (match goal with X : ?s |- ?t => exact (G _ _ X) end);
      try (match goal with X : _ -> kw m _ _ |- _ => intros HH; exact (G _ _ (X HH)) end);
      try (unfold s_const, s_exclusiveMaximum, s_exclusiveMinimum, s_contains, s_propertyNames in *; intros HH;
           match goal with X : since6 d -> kw m ?k ?P |- kw m' ?k ?P => exact (G _ _ (X HH)) end).
    - unfold s_if in *. intros S7. match goal with X : since7 d -> kw m "if" _ |- _ => specialize (X S7); intros x Hx; rewrite <- E in Hx; destruct (X x Hx) as [X1 X2] end.
      split; intros Y; apply G; auto.
    - unfold s_maximum in *. intros x Hx q b Hq Hb. rewrite <- E in Hx. match goal with X : kw m "maximum" _ |- _ => destruct (X x Hx q b Hq Hb) as [X1 X2] end. auto.
    - unfold s_minimum in *. intros x Hx q b Hq Hb. rewrite <- E in Hx. match goal with X : kw m "minimum" _ |- _ => destruct (X x Hx q b Hq Hb) as [X1 X2] end. auto.
    - unfold s_additionalItems in *. intros x Hx l ss Hl Hs. rewrite <- E in Hx, Hs. match goal with X : kw m "additionalItems" _ |- _ => apply (X x Hx l ss Hl Hs) end.
    - unfold s_additionalProperties in *. intros x Hx o Ho k e He Ha. rewrite <- E in Hx. match goal with X : kw m "additionalProperties" _ |- _ => apply (X x Hx o Ho k e He) end. auto.
  Qed.
  Lemma keywords_assoc m m' v : (forall k, assoc k m = assoc k m') -> (keywords pat fmt same V d m v <-> keywords pat fmt same V d m' v).
  Proof. intros E. split; apply keywords_assoc1; auto. Qed.
End Assoc.

(** ** The heeded keywords *)
Section Heed.
  Variable lim : Z.
  Definition unheeded_b (e : string * value) : bool :=
    match snd e with
    | VArr [] => if in_dec string_dec (fst e) ["type"; "enum"; "anyOf"; "oneOf"; "items"] then true else false
    | VNum s => if in_dec string_dec (fst e) ["exclusiveMinimum"; "exclusiveMaximum"] then match rat_of lim s with None => true | Some _ => false end else false
    | _ => false
    end.
  Definition heed (m : list (string * value)) : list (string * value) := filter (fun e => negb (unheeded_b e)) m.

  Lemma unheeded_iff k x : (forall s, x = VNum s -> json_number s = true) -> (unheeded_b (k, x) = true <-> unheeded lim k x).
  Proof.
    intros HN. unfold unheeded_b. cbn [fst snd]. split.
    - destruct x as [| |s| | |[|]| |]; try discriminate.
      + destruct (in_dec _ _ _) as [H|]; [|discriminate]. destruct (rat_of lim s) eqn:E; [discriminate|]. intros _. apply unheeded_bound; auto.
        intros M. apply (rat_of_moderate lim s (HN _ eq_refl)) in M. destruct M as [q M]. congruence.
      + destruct (in_dec _ _ _) as [H|]; [|discriminate]. intros _. apply unheeded_empty; auto.
    - intros U. inversion U as [k' H|k' s H M]; subst.
      + destruct (in_dec _ _ _) as [|N]; [auto|contradiction].
      + destruct (in_dec _ _ _) as [|N]; [|contradiction]. destruct (rat_of lim s) as [q|] eqn:E; auto. exfalso. apply M. apply (rat_of_moderate lim s (HN _ eq_refl)). eauto.
  Qed.
  Lemma assoc_heed m k : NoDup (map fst m) -> assoc k (heed m) = match assoc k m with Some x => if unheeded_b (k, x) then None else Some x | None => None end.
  Proof.
    induction m as [|[k' x] m IH]; intros N; [reflexivity|]. inversion N as [|? ? N1 N2]; subst. cbn [heed filter]. fold (heed m). specialize (IH N2).
    cbn [fst] in N1. assert (A : assoc k' m = None). { destruct (assoc k' m) as [y|] eqn:E; auto. apply assoc_In in E. exfalso. apply N1. change k' with (fst (k', y)). apply in_map. auto. }
    cbn [assoc]. destruct (String.eqb k k') eqn:E.
    - apply String.eqb_eq in E. subst k'. destruct (unheeded_b (k, x)) eqn:U; cbn [negb].
      + rewrite IH, A. reflexivity.
      + cbn [assoc]. rewrite String.eqb_refl. reflexivity.
    - destruct (unheeded_b (k', x)); cbn [negb]; [exact IH|]. cbn [assoc]. rewrite E. exact IH.
  Qed.
  Lemma doc_numbers m k x : doc_ok (VMap m) -> assoc k m = Some x -> forall s, x = VNum s -> json_number s = true.
  Proof. intros D E s ->. apply (doc_ok_member _ _ _ D) in E. destruct E as [E _]. inversion E. auto. Qed.
  Lemma heed_heeded m : doc_ok (VMap m) -> heeded lim m (heed m).
  Proof.
    intros D k x. rewrite assoc_heed by apply (doc_ok_map m D). destruct (assoc k m) as [y|] eqn:E; [|split; [discriminate|intros [X _]; discriminate]].
    pose proof (unheeded_iff k y (doc_numbers _ _ _ D E)) as U. destruct (unheeded_b (k, y)).
    - split; [discriminate|]. intros [[= <-] X]. destruct X. apply U. auto.
    - split; [intros [= <-]; split; auto; rewrite <- U; discriminate|intros [[= <-] _]; auto].
  Qed.
  Lemma heeded_unique m a b : heeded lim m a -> heeded lim m b -> forall k, assoc k a = assoc k b.
  Proof.
    intros A B k. destruct (assoc k a) as [x|] eqn:E.
    - apply A, B in E. auto.
    - destruct (assoc k b) as [x|] eqn:E'; auto. apply B, A in E'. congruence.
  Qed.
  Lemma heeded_sub m m' k x : heeded lim m m' -> assoc k m' = Some x -> assoc k m = Some x.
  Proof. intros H E. apply H in E. apply E. Qed.
  Lemma heed_sub m k x : doc_ok (VMap m) -> assoc k (heed m) = Some x -> assoc k m = Some x.
  Proof. intros D. apply heeded_sub. apply heed_heeded. auto. Qed.
  Lemma heed_other m k : NoDup (map fst m) -> (if in_dec string_dec k ["type"; "enum"; "anyOf"; "oneOf"; "items"; "exclusiveMinimum"; "exclusiveMaximum"] then true else false) = false ->
    assoc k (heed m) = assoc k m.
  Proof.
    intros N H. rewrite assoc_heed by auto. destruct (assoc k m) as [x|]; auto. destruct (unheeded_b (k, x)) eqn:U; auto. exfalso.
    destruct (in_dec _ _ _) as [|X] in H; [discriminate|]. apply X. unfold unheeded_b in U. cbn [fst snd] in U.
    destruct x as [| |s| | |[|]| |]; try discriminate; destruct (in_dec _ _ _) as [Y|] in U; try discriminate; simpl in Y |- *; tauto.
  Qed.
  Lemma heed_regular m : doc_ok (VMap m) -> regular lim (heed m).
  Proof.
    intros D. pose proof (heed_heeded m D) as H.
    assert (L : forall k, In k ["type"; "enum"; "anyOf"; "oneOf"; "items"] -> assoc k (heed m) <> Some (VArr [])).
    { intros k Hk E. apply H in E. destruct E as [_ E]. apply E. constructor. auto. }
    assert (B : forall k s, In k ["exclusiveMinimum"; "exclusiveMaximum"] -> assoc k (heed m) = Some (VNum s) -> moderate lim s).
    { intros k s Hk E. pose proof (heed_sub _ _ _ D E) as E0. pose proof (doc_numbers _ _ _ D E0 s eq_refl) as J. apply (rat_of_moderate lim s J).
      rewrite assoc_heed in E by apply (doc_ok_map m D). rewrite E0 in E. unfold unheeded_b in E. cbn [fst snd] in E.
      destruct (in_dec _ _ _) as [|X] in E; [|contradiction]. destruct (rat_of lim s); [eauto|discriminate]. }
    unfold regular. repeat match goal with |- _ /\ _ => apply conj end; try (apply L; simpl; tauto); try (intros s; apply B; simpl; tauto).
    intros E. destruct (L "items"); auto. simpl; tauto.
  Qed.
  Lemma heed_doc m : doc_ok (VMap m) -> doc_ok (VMap (heed m)).
  Proof.
    intros [S P]. inversion S as [| | | | | |? N F]; subst. split.
    - constructor.
      + clear - N. induction m as [|[k x] m IH]; [constructor|]. inversion N as [|? ? N1 N2]; subst. cbn [heed filter]. fold (heed m). destruct (negb _); auto. cbn [map]. constructor; auto.
        intros X. apply N1. apply in_map_iff in X. destruct X as (e & E & X). apply filter_In in X. apply in_map_iff. exists e. split; [exact E|apply X].
      + rewrite Forall_forall in *. intros e He. apply filter_In in He. apply F. apply He.
    - cbn [plain] in *. rewrite forallb_forall in *. intros e He. apply filter_In in He. apply P. apply He.
  Qed.
  Lemma heed_compares m : doc_ok (VMap m) -> compares (heed m) -> compares m.
  Proof.
    intros D [H|[H|H]].
    - left. rewrite heed_other in H; auto. apply (doc_ok_map m D).
    - right. left. destruct (assoc "enum" (heed m)) as [x|] eqn:E; [|congruence]. rewrite (heed_sub _ _ _ D E). discriminate.
    - right. right. apply (heed_sub _ _ _ D H).
  Qed.

  Lemma heed_describes re kd nm d m n : doc_ok (VMap m) -> describes lim re kd nm d m n -> describes lim re kd nm d (heed m) n.
  Proof.
    intros D H. pose proof (doc_ok_map m D) as [N _].
    assert (HO : forall k, (if in_dec string_dec k ["type"; "enum"; "anyOf"; "oneOf"; "items"; "exclusiveMinimum"; "exclusiveMaximum"] then true else false) = false -> assoc k (heed m) = assoc k m) by (intros; apply heed_other; auto).
    assert (HA : forall k, assoc k (heed m) = match assoc k m with Some x => if unheeded_b (k, x) then None else Some x | None => None end) by (intros; apply assoc_heed; auto).
    unfold describes in *.
    destruct H as (D1 & D2 & D3 & D4 & D5 & D6 & D7 & D8 & D9 & D10 & D11 & D12 & D13 & D14 & D15 & D16 & D17 & D18 & D19 & D20 & D21 & D22 & D23 & D24 & D25 & D26 & D27 & D28 & D29 & D30 & D31).
    assert (B : forall key xkey r1 r2, In xkey ["exclusiveMinimum"; "exclusiveMaximum"] -> assoc key (heed m) = assoc key m ->
      bound_ok lim d m key xkey r1 r2 -> bound_ok lim d (heed m) key xkey r1 r2).
    { intros key xkey r1 r2 Hx Ek (incl & B1 & B2). exists incl. rewrite Ek. split; auto. rewrite HA. destruct (assoc xkey m) as [x|]; auto.
      destruct x as [|b|s| | | | |]; try contradiction; cbn [unheeded_b fst snd]; auto.
      destruct (in_dec _ _ _) as [|X]; [|contradiction]. destruct (rat_of lim s) eqn:Eq; destruct B2 as (B2 & B3 & B4); [repeat split; congruence|split; congruence]. }
    assert (S : forall key ids, In key ["anyOf"; "oneOf"] -> schemas_ok kd d m key ids -> schemas_ok kd d (heed m) key ids).
    { intros key ids Hk X. unfold schemas_ok in *. rewrite HA. destruct (assoc key m) as [x|]; auto. destruct x as [| | | | |l| |]; try contradiction.
      destruct l as [|x l]; cbn [unheeded_b fst snd]; auto. inversion X; subst. destruct (in_dec _ _ _); auto. }
    repeat match goal with |- _ /\ _ => apply conj end;
      try (match goal with |- bound_ok _ _ _ _ _ _ _ => apply B; [simpl; tauto|apply HO; reflexivity|assumption] end);
      try (match goal with |- schemas_ok _ _ _ "anyOf" _ => apply S; [simpl; tauto|assumption] | |- schemas_ok _ _ _ "oneOf" _ => apply S; [simpl; tauto|assumption] end);
      try (unfold props_ok, addl_ok, pats_ok, deps_ok, mult_ok, nat_ok, pattern_ok, format_ok, required_ok, unique_ok, const_ok, schemas_ok, gated, opt_ok in *; rewrite !HO by reflexivity; assumption).
    - destruct D1 as [X F]. split; auto. rewrite HA. destruct (assoc "type" m) as [x|]; auto. destruct x as [| | | | |l| |]; try contradiction; cbn [unheeded_b fst snd]; auto.
      destruct l; auto. cbn. destruct (n_types n); [auto|discriminate].
    - unfold items_ok in *. rewrite HA. destruct (assoc "items" m) as [x|]; auto. destruct x as [| |s| | |l| |]; cbn [unheeded_b fst snd]; auto.
      destruct l; auto. cbn. destruct D7 as [-> X]. inversion X. auto.
    - unfold enum_ok in *. rewrite HA. destruct (assoc "enum" m) as [x|]; auto. destruct x as [| | | | |l| |]; try contradiction; cbn [unheeded_b fst snd]; auto.
      destruct l; auto. cbn. destruct (n_enum n); [auto|discriminate].
  Qed.
End Heed.

(** ** The rules determine a meaning *)
Section Reading.
  Variable lim : Z.
  Variable pat : string -> string -> Prop.
  Variable fmt : string -> value -> Prop.
  Variable same : value -> value -> Prop.
  Variable T : string -> draft -> value -> Prop.

  Lemma heeded_asks m m' d v d' s' v' : heeded lim m m' -> (forall r, assoc "$ref" m <> Some (VStr r)) ->
    asks T d (VMap m') v d' s' v' -> asks T d (VMap m) v d' s' v'.
  Proof.
    intros H Nr A. assert (S : forall k x, assoc k m' = Some x -> assoc k m = Some x) by (intros k x E; apply (heeded_sub lim m m' k x H E)).
    inversion A as [? ? ? ? ? ? Er|? ? ? ? _ P|? ? ? ? ? _ P|? ? ? ? ? ? _ P|? ? ? ? ? _ P]; subst.
    - exfalso. eapply Nr, S; eauto.
    - apply ask_here; auto. destruct P; [apply here_not; auto|eapply here_if; eauto|eapply here_element; eauto|eapply here_dependency; eauto].
    - apply ask_item; auto. destruct P; [eapply item_value; eauto|apply item_contains; auto|eapply item_element; eauto].
    - eapply ask_prop; eauto. destruct P; [eapply prop_value; eauto|eapply prop_member; eauto].
    - eapply ask_name; eauto. destruct P; split; auto.
  Qed.
  Lemma read_sem_ext V V' d s v : (forall d' s' v', asks T d s v d' s' v' -> (V d' s' v' <-> V' d' s' v')) ->
    (read_sem lim pat fmt same V T d s v <-> read_sem lim pat fmt same V' T d s v).
  Proof.
    intros H. unfold read_sem. destruct s as [| | | | | |m|]; try tauto.
    assert (K : (forall r, assoc "$ref" m <> Some (VStr r)) -> forall m', heeded lim m m' -> (keywords pat fmt same V d m' v <-> keywords pat fmt same V' d m' v)).
    { intros N m' Hm. apply (keywords_ext pat fmt same T).
      - intros r E. apply (N r). apply (heeded_sub _ _ _ _ _ Hm E).
      - intros d' s' v' A. apply H. eapply heeded_asks; eauto. }
    assert (K' : (forall r, assoc "$ref" m <> Some (VStr r)) -> (exists m', heeded lim m m' /\ keywords pat fmt same V d m' v) <-> (exists m', heeded lim m m' /\ keywords pat fmt same V' d m' v)).
    { intros N. split; intros (m' & Hm & X); exists m'; (split; [auto|]); apply (K N m' Hm); auto. }
    destruct (assoc "$ref" m) as [y|] eqn:E; [|apply K'; discriminate]. destruct y; try (apply K'; discriminate).
    split; intros (d' & s' & HT & HV); exists d', s'; (split; [auto|]); (apply (H d' s' v); [eapply ask_ref; eauto|auto]).
  Qed.
  Fixpoint judge_read (q : question) (H : Acc (subquestion T) q) {struct H} : Prop :=
    read_sem lim pat fmt same
      (fun d' s' v' => exists Ha : subquestion T (d', s', v') q, judge_read (d', s', v') (Acc_inv H Ha)) T
      (fst (fst q)) (snd (fst q)) (snd q).
  Lemma judge_read_irrelevant q (H : Acc (subquestion T) q) : forall H', judge_read q H <-> judge_read q H'.
  Proof.
    induction H as [q H IH] using Acc_inv_dep. intros [H']. cbn [judge_read]. apply read_sem_ext. intros d' s' v' Ha. split.
    - intros [Hb K]. exists Hb. apply (IH _ Hb). exact K.
    - intros [Hb K]. exists Hb. apply (IH _ Hb) in K. exact K.
  Qed.
  (** What the schema says to the library. *)
  Definition reading (d : draft) (s v : value) : Prop := exists H : well_founded_at T d s v, judge_read (d, s, v) H.
  Theorem reading_rules d s v : well_founded_at T d s v -> (reading d s v <-> read_sem lim pat fmt same reading T d s v).
  Proof.
    intros W. assert (E : reading d s v <-> judge_read (d, s, v) W).
    { split; [intros [H K]; apply (judge_read_irrelevant _ H); auto|exists W; auto]. }
    rewrite E. clear E. destruct W as [W]. cbn [judge_read]. cbn [fst snd]. apply read_sem_ext. intros d' s' v' Ha. split.
    - intros [Hb K]. exists (W _ Hb). exact K.
    - intros [H K]. assert (Hb : subquestion T (d', s', v') (d, s, v)) by exact Ha. exists Hb. apply (judge_read_irrelevant _ H). exact K.
  Qed.
  Theorem reading_exists d s v : well_founded_at T d s v -> reading_at lim pat fmt same T d s v reading.
  Proof. intros W d' s' v' N. apply reading_rules. eapply wf_needed; eauto. Qed.
  Theorem reading_unique V V' d s v : well_founded_at T d s v ->
    reading_at lim pat fmt same T d s v V -> reading_at lim pat fmt same T d s v V' -> (V d s v <-> V' d s v).
  Proof.
    intros H M M'.
    assert (G : forall q, Acc (subquestion T) q -> needed T d s v (fst (fst q)) (snd (fst q)) (snd q) ->
                 (V (fst (fst q)) (snd (fst q)) (snd q) <-> V' (fst (fst q)) (snd (fst q)) (snd q))).
    { intros q Hq. induction Hq as [q _ IH]. destruct q as [[d1 s1] v1]. cbn [fst snd] in *. intros N.
      rewrite (M _ _ _ N), (M' _ _ _ N). apply read_sem_ext. intros d' s' v' Ha.
      apply (IH (d', s', v')); [exact Ha|]. eapply needed_step; eauto. }
    apply (G (d, s, v) H). constructor.
  Qed.

  (** Where every keyword is heeded the schema says what the drafts say. *)
  Lemma all_heeded m : (forall k x, assoc k m = Some x -> ~ unheeded lim k x) -> heeded lim m m.
  Proof. intros H k x. split; [intros E; split; eauto|tauto]. Qed.
  Theorem reading_meaning d s v : well_founded_at T d s v ->
    (forall d' m x, needed T d s v d' (VMap m) x -> (forall r, assoc "$ref" m <> Some (VStr r)) -> forall k y, assoc k m = Some y -> ~ unheeded lim k y) ->
    (reading d s v <-> meaning pat fmt same T d s v).
  Proof.
    intros W H. apply (meaning_unique pat fmt same T); auto; [|apply meaning_exists; auto].
    intros d' s' v' N. rewrite (reading_exists _ _ _ W _ _ _ N). unfold read_sem, schema_sem. destruct s' as [| | | | | |m|]; try tauto.
    assert (K : (forall r, assoc "$ref" m <> Some (VStr r)) -> (exists m', heeded lim m m' /\ keywords pat fmt same reading d' m' v') <-> keywords pat fmt same reading d' m v').
    { intros Nr. pose proof (all_heeded m (H _ _ _ N Nr)) as Hm. split.
      - intros (m' & Hm' & X). eapply keywords_assoc; [|exact X]. eapply heeded_unique; eauto.
      - intros X. exists m. auto. }
    destruct (assoc "$ref" m) as [y|]; [|apply K; discriminate]. destruct y; try tauto; apply K; discriminate.
  Qed.
End Reading.

Section ReadingRefs.
  Variable lim : Z.
  Variables (pat : string -> string -> Prop) (fmt : string -> value -> Prop) (same : value -> value -> Prop).
  Variables (T T' : string -> draft -> value -> Prop) (d0 : draft) (s0 v0 : value).
  Hypothesis H : forall d m v r, needed T d0 s0 v0 d (VMap m) v -> assoc "$ref" m = Some (VStr r) -> forall d' x, T r d' x <-> T' r d' x.
  Lemma reading_at_refs V : reading_at lim pat fmt same T' d0 s0 v0 V -> reading_at lim pat fmt same T d0 s0 v0 V.
  Proof.
    intros M d s v N. rewrite (M d s v (needed_ext_l T T' d0 s0 v0 H _ _ _ N)). unfold read_sem. destruct s as [| | | | | |m|]; try tauto.
    destruct (assoc "$ref" m) as [y|] eqn:E; try tauto. destruct y as [| | | |r| | |]; try tauto.
    split; intros (d' & s' & HT & HV); exists d', s'; (split; [|auto]); eapply H; eauto.
  Qed.
End ReadingRefs.

(** ** A compiled heap means what its documents say *)
Section Heap.
  Variable ce : cenv.
  Notation env := (c_go ce).
  Notation lim := (e_ratlim env).
  Variable pd : policy.
  Variable s : cstate.
  Hypothesis W : wf ce pd s.
  Hypothesis C : forall j, j < length (st_heap s) -> cell ce s j.
  Notation kids := (kid s).
  Notation target := (target ce s).
  Variables (d0 : draft) (x0 v0 : value).
  Notation need := (needed target d0 x0 v0).
  Hypothesis ORD : usual lim v0.
  Hypothesis REG : forall d m v, need d (VMap m) v -> assoc "$ref" m = None -> compares m -> in_float_range v.
  Variable V : draft -> value -> value -> Prop.
  Hypothesis EQ : reading_at lim (pat env) (fmt env) same target d0 x0 v0 V.

  Lemma read_cell_link id n d x v : nth_error (st_heap s) id = Some n -> kid s id d x -> need d x v -> usual lim v ->
    (cell_sem kids V id v <-> node_sem env (st_heap s) (cell_sem kids V) n v).
  Proof.
    intros En K R Hv. rewrite (cell_sem_iff kids (kid_fun s) V id d x v K). rewrite (EQ d x v R).
    destruct (kid_cell ce pd s W C id d x K) as (n' & En' & F). assert (n' = n) by congruence. subst n'. destruct F as [_ F].
    unfold node_sem, read_sem. destruct x as [|b| | | | |m|]; try tauto.
    - destruct F as [_ ->]. tauto.
    - destruct F as [-> F]. destruct (assoc "$ref" m) as [y|] eqn:Er.
      + destruct y; try tauto. destruct F as (r & rid & Hp & Ha & ->). split.
        * intros (d' & x' & (r' & rid' & Hp' & Ha' & K') & H). exists d', x'. split; auto. congruence.
        * intros (d' & x' & K' & H). exists d', x'. split; auto. exists r, rid. auto.
      + destruct F as [-> F]. assert (D : doc_ok (VMap m)) by (apply W in K; apply K).
        assert (L : types_sem env n v /\ comb_sem (cell_sem kids V) n v /\ common_sem env n v /\ specific_sem env (st_heap s) (cell_sem kids V) n v <->
                    keywords (pat env) (fmt env) same V d (heed lim m) v).
        { apply keywords_link with (named := named s).
          - apply kid_fun.
          - intros i k. reflexivity.
          - apply heed_doc; auto.
          - apply heed_regular; auto.
          - apply suited_iff. split; [auto|]. intros Q. apply (REG d m v R Er). eapply heed_compares; eauto.
          - apply heed_describes; auto. }
        rewrite L. split.
        * intros (m' & Hm & X). eapply keywords_assoc; [|exact X]. eapply heeded_unique; [apply heed_heeded; auto|exact Hm].
        * intros X. exists (heed lim m). split; [apply heed_heeded; auto|exact X].
  Qed.
  Theorem read_link k o id c r : fair o -> kid s id d0 x0 ->
    validateRecursive env (st_heap s) k o id v0 c = Ok r -> (errors r = [] <-> V d0 x0 v0).
  Proof.
    intros Ho K E. rewrite <- (cell_sem_iff kids (kid_fun s) V id d0 x0 v0 K).
    eapply (validateRecursive_sem_on env (st_heap s) (cell_sem kids V)
              (fun id v => (exists d x, kid s id d x /\ need d x v) /\ usual lim v)); eauto.
    - intros i n w En ((d & x & Kx & R) & Hw). split; [eapply usual_shape; eauto|]. eapply read_cell_link; eauto.
    - intros i n w i' w' En ((d & x & Kx & R) & Hw) St. eapply (steps_link ce pd s W C); eauto.
    - split; auto. exists d0, x0. split; auto. constructor.
  Qed.
End Heap.

Section Library.
  Variable ce : cenv.
  Variable loc : string -> spd -> Prop.
  Variable kp : pool -> Prop.
  Variable d1 : draft.
  Hypothesis Hset : settled_in loc d1.
  Hypothesis Hdocs : forall r e, loc r e -> doc_ok (sp_doc e) /\ closed_in ce loc (sp_doc e).
  Hypothesis Hfun : forall r e e', loc r e -> loc r e' -> e = e'.
  Hypothesis Hget : forall o r s dsp s', fair o -> kp (st_pool s) -> (exists e, loc r e) -> GetDocument ce o r s = COk dsp s' ->
    kp (st_pool s') /\ loc r dsp.
  Notation lim := (e_ratlim (c_go ce)).
  Notation leads := (leads_in ce loc).
  Theorem lib_read fuel o docref doc p0 id s' :
    kp p0 -> doc_ok doc -> closed_in ce loc doc -> fair o ->
    parse ce fuel o docref d1 doc (CState [] [] p0 []) = COk id s' ->
    forall v V, usual lim v ->
    (forall d m w, needed (leads d1) d1 doc v d (VMap m) w -> assoc "$ref" m = None -> compares m -> in_float_range w) ->
    reading_at lim (pat (c_go ce)) (fmt (c_go ce)) same (leads d1) d1 doc v V ->
    forall k o' c, fair o' -> validateRecursive (c_go ce) (st_heap s') k o' id v c <> Panic /\
      forall r, validateRecursive (c_go ce) (st_heap s') k o' id v c = Ok r -> (errors r = [] <-> V d1 doc v).
  Proof.
    intros HP Hd Hc F E v V ORD REG EQ k o' c F'.
    destruct (parse_ok ce (lib_policy ce loc kp d1) (lib_fetch ce loc kp d1 Hdocs Hget) fuel o docref d1 doc p0 id s' F HP (conj Hd Hc) (or_intror eq_refl) E) as (-> & W & L & K & C).
    assert (HT : forall d m w t, needed (target ce s') d1 doc v d (VMap m) w -> assoc "$ref" m = Some (VStr t) ->
      forall d' x, target ce s' t d' x <-> leads d1 t d' x).
    { intros d m w t N Er. apply needed_within in N.
      destruct (within_kid ce (lib_policy ce loc kp d1) s' W C d1 doc 0 K _ _ N) as [[i Ki]|Nm]; [|destruct (Nm m eq_refl)].
      eapply (lib_same ce loc kp d1 Hset Hfun Hget); eauto. }
    assert (REG' : forall d m w, needed (target ce s') d1 doc v d (VMap m) w -> assoc "$ref" m = None -> compares m -> in_float_range w).
    { intros d m w N Er. eapply REG; [|exact Er]. eapply needed_ext_l; eauto. }
    split; [eapply fits_no_panic; eauto|]. intros r ER.
    eapply (read_link ce (lib_policy ce loc kp d1) s' W C d1 doc v ORD); eauto.
    eapply reading_at_refs; eauto.
  Qed.
End Library.

Section Every.
  Variable w : world.
  Hypothesis HU : url_laws w.
  Hypothesis HW : web_laws w.
  Notation lim := (e_ratlim (w_go w)).
  Theorem source_reads fuel o sl l p doc sch sl' :
    fair o -> loader_fit l -> sl_ok sl -> sl_validate sl = false -> source w sl l p doc ->
    let d := root_draft w sl doc in
    all_found (view w sl l) p doc -> settled_in (found (view w sl l) p doc) d ->
    Compile w fuel o sl l = LOk sch sl' ->
    let T := heads_to (view w sl l) p doc d in
    guarded T d doc ->
    forall v, usual lim v ->
    (forall d' m x, needed T d doc v d' (VMap m) x -> assoc "$ref" m = None -> compares m -> in_float_range x) ->
    forall V, reading_at lim (pat (w_go w)) (fmt (w_go w)) same T d doc v V ->
    forall o', fair o' ->
    exists r, returns (w_go w) (s_heap sch) (s_root sch) o' v r /\ (Valid r = true <-> V d doc v).
  Proof.
    intros F Hfit Hs Hv S. destruct (compile_source w HU HW fuel o sl l p doc F Hfit Hs Hv S) as [(H1 & H2 & H3) (p1 & o1 & ref & F1 & Gr & EC)].
    intros d Hc Hset E T G v ORD REG V M o' F'.
    pose proof (web_fetch_laws w (with_factory (LoaderFactory l) sl) HU HW) as HL. fold (view w sl l) in HL. rewrite E in EC.
    destruct (parse (view w sl l) fuel o1 ref _ doc _) as [id s|e s| |] eqn:EP; try discriminate EC. injection EC as -> ->. cbn [s_heap s_root].
    pose proof (fetch_acyclic (view w sl l) HL p H1 doc H2 Hc d Hset fuel o1 ref p1 id s Gr F1 EP G) as AC.
    pose proof (lib_read (view w sl l) (found (view w sl l) p doc) (grown (view w sl l) p) d Hset
      (found_docs (view w sl l) HL p H1 doc H2 Hc) (found_fun (view w sl l) p doc) (found_get (view w sl l) HL p H1 doc H2)
      fuel o1 ref doc p1 id s Gr H2 (found_closed (view w sl l) p doc Hc) F1 EP v _ ORD REG M) as LK.
    assert (VE : forall r, Valid r = true <-> errors r = []) by (intros r; unfold Valid; destruct (errors r); split; congruence).
    destruct (terminates (w_go w) (st_heap s) id v o' F' AC) as [[r R]|[k P]].
    - exists r. split; auto. destruct R as [k R]. rewrite VE. apply (proj2 (LK k o' _ F') r R).
    - exfalso. exact (proj1 (LK k o' _ F') P).
  Qed.
End Every.
Lemma guarded_reading lim pat fmt same T d s : guarded T d s -> forall v,
  reading_at lim pat fmt same T d s v (reading lim pat fmt same T) /\
  ((forall d' m x, needed T d s v d' (VMap m) x -> (forall r, assoc "$ref" m <> Some (VStr r)) -> forall k y, assoc k m = Some y -> ~ unheeded lim k y) ->
   (reading lim pat fmt same T d s v <-> meaning pat fmt same T d s v)).
Proof.
  intros G v. assert (W : well_founded_at T d s v) by (eapply guarded_well_founded; [exact G|constructor]).
  split; [apply reading_exists; auto|apply reading_meaning; auto].
Qed.
