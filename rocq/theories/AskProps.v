(** Compile reads no other documents than those it is asked to. *)
From Coq Require Import Lia Permutation.
From Verif Require Export LoadFetch MetaDrafts SpecAsks.
Open Scope string_scope.
Open Scope list_scope.
Open Scope nat_scope.

Lemma aset_entries {B} k (v : B) m x : In x (aset k v m) -> x = (k, v) \/ In x m.
Proof.
  induction m as [|[k' v'] m IH]; cbn [aset]; [intros [H|[]]; auto|]. destruct (String.eqb k k'); intros [H|H]; auto; [right; right; auto|right; left; auto|].
  destruct (IH H); auto. right; right; auto.
Qed.
Lemma pick_in {A} o (l : list A) x : fair o -> In x (pick o l) -> In x l.
Proof. intros F. apply Permutation_in. apply Permutation_sym. apply pick_perm. exact F. Qed.
Lemma within_trans x y z : within x y -> within y z -> within x z.
Proof. intros H. induction 1; auto; [eapply within_item; eauto|eapply within_member; eauto]. Qed.

Lemma assoc_None_In {B} k (m : list (string * B)) : assoc k m = None -> forall v, ~ In (k, v) m.
Proof.
  induction m as [|[k' v'] m IH]; intros E v Hi; [destruct Hi|]. cbn [assoc] in E. destruct (String.eqb_spec k k') as [->|N]; [discriminate|].
  destruct Hi as [Hi|Hi]; [congruence|exact (IH E v Hi)].
Qed.

(** ** The invariant: every reference in sight may be asked for *)
Section Clean.
  Variable ce : cenv.
  Variable A : string -> Prop.
  Variable V : Prop.
  Definition okmap (m : list (string * value)) : Prop :=
    (forall s r, In ("$ref", VStr s) m -> u_parse ce s = Some r -> A r) /\
    (V -> forall s r, In ("$schema", VStr s) m -> u_parse ce s = Some r -> A r).
  Definition clean (v : value) : Prop := forall m, within (VMap m) v -> okmap m.
  (** The pool: such documents only, under such URLs only, and none of those it
      held at first is gone. *)
  Variable K0 : string -> Prop.
  Variable G0 : string -> Prop.
  Definition pclean (p : pool) : Prop := (forall r e, In (r, e) p -> clean (sp_doc e) /\ G0 r) /\ (forall k, K0 k -> assoc k p <> None).

  Lemma clean_item l y : clean (VArr l) -> In y l -> clean y.
  Proof. intros H Hi m Hm. apply H. eapply within_item; eauto. Qed.
  Lemma clean_member m k y : clean (VMap m) -> In (k, y) m -> clean y.
  Proof. intros H Hi m' Hm. apply H. eapply within_member; eauto. Qed.
  Lemma clean_assoc m k y : clean (VMap m) -> assoc k m = Some y -> clean y.
  Proof. intros H E. eapply clean_member; eauto. apply assoc_In. eauto. Qed.
  Lemma clean_arr l : (forall y, In y l -> clean y) -> clean (VArr l).
  Proof. intros H m Hm. inversion Hm; subst. eapply H; eauto. Qed.
  Lemma clean_map m : (forall k y, In (k, y) m -> clean y) -> okmap m -> clean (VMap m).
  Proof. intros H H0 m' Hm. inversion Hm; subst; auto. eapply H; eauto. Qed.
  Lemma clean_pointer ts : forall v x, clean v -> pointer_get ts v = Some x -> clean x.
  Proof.
    induction ts as [|t ts IH]; intros v x H E; cbn [pointer_get] in E; [injection E as <-; auto|].
    destruct v as [| | | | |l|m|]; try discriminate.
    - destruct (atoi t) as [i|]; try discriminate. destruct (i <? 0)%Z; try discriminate. destruct (nth_error l (Z.to_nat i)) as [y|] eqn:En; try discriminate.
      apply (IH y); auto. eapply clean_item; eauto. eapply nth_error_In; eauto.
    - destruct (assoc (unescape_token t) m) as [y|] eqn:En; try discriminate. apply (IH y); auto. eapply clean_assoc; eauto.
  Qed.
  Lemma pclean_aset r e p : pclean p -> clean (sp_doc e) -> G0 r -> pclean (aset r e p).
  Proof.
    intros [H H1] H0 HG. split.
    - intros r' e' Hi. apply aset_entries in Hi. destruct Hi as [Hi|Hi]; [injection Hi as <- <-; auto|eauto].
    - intros k Hk. apply H1 in Hk. clear H H0 H1. induction p as [|[k' x] p IH]; [destruct (Hk eq_refl)|]. cbn [aset assoc] in *.
      destruct (String.eqb_spec r k') as [->|N]; cbn [assoc]; destruct (String.eqb k k'); try discriminate; auto.
  Qed.
  Lemma pclean_assoc r e p : pclean p -> assoc r p = Some e -> clean (sp_doc e).
  Proof. intros [H _] E. apply assoc_In in E. apply H in E. apply E. Qed.

  (** *** parseReferences keeps it *)
  Section Rewrite.
    Variable doc : value.
    Variable B : string -> Prop.
    Hypothesis HB : forall b k s r b', B b -> k = "id" \/ k = "$id" -> says doc k s -> u_parse ce s = Some r -> u_inherits ce b r = Some b' -> B b'.
    Hypothesis HR : forall s r, says doc "$ref" s -> u_parse ce s = Some r -> A r.
    Hypothesis HI : forall s r b a r', says doc "$ref" s -> u_parse ce s = Some r -> B b -> u_inherits ce b r = Some a -> u_parse ce a = Some r' -> A r'.
    Hypothesis HS : V -> forall s r, says doc "$schema" s -> u_parse ce s = Some r -> A r.
    Hypothesis HG : forall b, B b -> G0 b.
    Definition sub (x : value) : Prop := forall m, within (VMap m) x -> within (VMap m) doc.
    Lemma sub_clean x : sub x -> clean x.
    Proof. intros H m Hm. apply H in Hm. split; [intros s r Hi; apply HR; exists m; auto|intros HV s r Hi; apply HS; auto; exists m; auto]. Qed.
    Lemma sub_item l y : sub (VArr l) -> In y l -> sub y.
    Proof. intros H Hi m Hm. apply H. eapply within_item; eauto. Qed.
    Lemma sub_member m k y : sub (VMap m) -> In (k, y) m -> sub y.
    Proof. intros H Hi m' Hm. apply H. eapply within_member; eauto. Qed.
    Definition kept (x : value) (r : value) (p : pool) : Prop := clean r /\ pclean p /\ (forall s, r = VStr s -> x = VStr s).

    Section Node.
      Variable rec : oracle -> value -> string -> option draft -> pool -> out prr.
      Hypothesis Hrec : forall o x b d p r, fair o -> sub x -> B b -> pclean p -> rec o x b d p = Ok r -> kept x (pr_doc r) (pr_pool r).
      Lemma list_clean l : forall o i b d p r, fair o -> (forall y, In y l -> sub y) -> B b -> pclean p -> prr_list rec o i b d l p = Ok r ->
        (forall y, In y (fst r) -> clean y) /\ pclean (snd r).
      Proof.
        induction l as [|x l IH]; intros o i b d p r F H Hb Hp E; cbn [prr_list] in E; [injection E as <-; split; auto; intros y []|].
        apply obind_ok in E. destruct E as (q & E1 & E). apply obind_ok in E. destruct E as (q' & E2 & E). injection E as <-.
        apply Hrec in E1; auto; [|apply shift_fair; auto|apply H; left; auto]. destruct E1 as (K1 & K2 & _).
        apply IH in E2; auto; [|intros y Hy; apply H; right; auto]. destruct E2 as [K3 K4]. split; auto. intros y [<-|Hy]; auto.
      Qed.
      (** What a map may become: clean members, and strings only where they were allowed. *)
      Definition mapok (m : list (string * value)) : Prop := (forall k y, In (k, y) m -> clean y) /\ okmap m.
      Lemma mapok_aset m k x y : mapok m -> clean y -> (forall s, y = VStr s -> x = VStr s) -> In (k, x) m -> mapok (aset k y m).
      Proof.
        intros [H1 [H2 H3]] Hy Hs Hi. split; [|split].
        - intros k' y' H. apply aset_entries in H. destruct H as [H|H]; [injection H as <- <-; auto|eauto].
        - intros s r H. apply aset_entries in H. destruct H as [H|H]; [injection H as <- E|eauto]. symmetry in E. apply Hs in E. subst x. eauto.
        - intros HV s r H. apply aset_entries in H. destruct H as [H|H]; [injection H as <- E|eauto]. symmetry in E. apply Hs in E. subst x. eauto.
      Qed.
      Lemma mapok_put m k x y : mapok m -> clean y -> (forall s, y = VStr s -> x = VStr s) ->
        (forall s r, k = "$ref" -> x = VStr s -> u_parse ce s = Some r -> A r) -> (V -> forall s r, k = "$schema" -> x = VStr s -> u_parse ce s = Some r -> A r) -> mapok (aset k y m).
      Proof.
        intros [H1 [H2 H3]] Hy Hs Hr Hv. split; [|split].
        - intros k' y' H. apply aset_entries in H. destruct H as [H|H]; [injection H as <- <-; auto|eauto].
        - intros s r H. apply aset_entries in H. destruct H as [H|H]; [injection H as <- E|eauto]. symmetry in E. apply Hs in E. eauto.
        - intros HV s r H. apply aset_entries in H. destruct H as [H|H]; [injection H as <- E|eauto]. symmetry in E. apply Hs in E. eauto.
      Qed.
      Definition entry_ok (e : string * value) : Prop :=
        sub (snd e) /\ (forall s r, fst e = "$ref" -> snd e = VStr s -> u_parse ce s = Some r -> A r) /\
        (V -> forall s r, fst e = "$schema" -> snd e = VStr s -> u_parse ce s = Some r -> A r).
      Lemma map_clean es : forall m o i b d p r, fair o -> (forall e, In e es -> entry_ok e) -> mapok m -> B b -> pclean p -> prr_map rec o i b d es m p = Ok r ->
        mapok (fst r) /\ pclean (snd r).
      Proof.
        induction es as [|[k x] es IH]; intros m o i b d p r F H Hm Hb Hp E; cbn [prr_map] in E; [injection E as <-; auto|].
        apply obind_ok in E. destruct E as (q & E1 & E). destruct (H (k, x) (or_introl eq_refl)) as (S1 & S2 & S3). cbn [fst snd] in *.
        apply Hrec in E1; auto; [|apply shift_fair; auto]. destruct E1 as (K1 & K2 & K3).
        apply IH in E; auto; [intros e He; apply H; right; auto|]. eapply mapok_put; eauto.
      Qed.
      Lemma sub_mapok m : sub (VMap m) -> mapok m /\ forall e, In e m -> entry_ok e.
      Proof.
        intros H. pose proof (sub_clean _ H) as C. assert (O : okmap m) by (apply C; constructor). split.
        - split; auto. intros k y Hi. eapply clean_member; eauto.
        - intros [k y] Hi. split; [eapply sub_member; eauto|]. cbn [fst snd]. destruct O as [O1 O2]. split; [intros s r -> ->; eauto|intros HV s r -> ->; eauto].
      Qed.
      Lemma member_clean o b d k x p r : fair o -> sub x -> B b -> pclean p -> prr_member rec o b d k x p = Ok r -> kept x (fst r) (snd r).
      Proof.
        intros F H Hb Hp E. unfold prr_member in E. destruct (literal_key k); [injection E as <-; split; [apply sub_clean; auto|split; auto]|].
        destruct (map_key k).
        - destruct x as [| | | | | |m|]; try (injection E as <-; split; [apply sub_clean; auto|split; auto]).
          apply obind_ok in E. destruct E as (q & E1 & E). injection E as <-. destruct (sub_mapok m H) as [M1 M2].
          apply map_clean in E1; auto; [|apply shift_fair; auto|intros e He; apply M2; eapply pick_in; [|exact He]; apply shift_fair; auto].
          destruct E1 as [[K1 K2] K3]. split; [apply clean_map; auto|split; auto]. intros s E. discriminate.
        - apply obind_ok in E. destruct E as (q & E1 & E). injection E as <-. apply Hrec in E1; auto.
      Qed.
      Lemma members_clean es : forall m o i b d p r, fair o -> (forall e, In e es -> entry_ok e) -> mapok m -> B b -> pclean p -> prr_members rec o i b d es m p = Ok r ->
        mapok (fst r) /\ pclean (snd r).
      Proof.
        induction es as [|[k x] es IH]; intros m o i b d p r F H Hm Hb Hp E; cbn [prr_members] in E; [injection E as <-; auto|].
        apply obind_ok in E. destruct E as (q & E1 & E). destruct (H (k, x) (or_introl eq_refl)) as (S1 & S2 & S3). cbn [fst snd] in *.
        apply member_clean in E1; auto; [|apply shift_fair; auto]. destruct E1 as (K1 & K2 & K3).
        apply IH in E; auto; [intros e He; apply H; right; auto|]. eapply mapok_put; eauto.
      Qed.
      Lemma string_sub s : sub (VStr s).
      Proof. intros m H. inversion H. Qed.
      Lemma string_clean s : clean (VStr s).
      Proof. intros m H. inversion H. Qed.
      (** The map with its "$ref" made absolute. *)
      Lemma absolute_clean b m m1 : sub (VMap m) -> B b -> absolute_ref ce b m = Ok m1 -> mapok m1 /\ forall e, In e m1 -> entry_ok e.
      Proof.
        intros H Hb E. pose proof (sub_mapok m H) as SM. unfold absolute_ref in E. destruct (assoc "$ref" m) as [v|] eqn:Ea; [|injection E as <-; auto].
        apply obind_ok in E. destruct E as (k & _ & E). destruct (negb k); [injection E as <-; auto|]. destruct v as [| | | |s| | |]; try discriminate.
        destruct (u_parse ce s) as [r|] eqn:Ep; [|injection E as <-; auto]. destruct (u_inherits ce b r) as [a|] eqn:Ei; [|injection E as <-; auto]. injection E as <-.
        apply assoc_In in Ea. assert (HA : forall r', u_parse ce a = Some r' -> A r') by (intros r' Er; apply (HI s r b a r'); auto; exists m; split; auto; apply H; constructor).
        destruct SM as [M1 M2]. split.
        - apply (mapok_put m "$ref" (VStr a)); auto; [apply string_clean|intros s' r' _ E; injection E as <-; auto|intros _ s' r' E; discriminate].
        - intros e He. apply aset_entries in He. destruct He as [->|He]; auto. split; [apply string_sub|]. cbn [fst snd]. split; [intros s' r' _ E; injection E as <-; auto|intros _ s' r' E; discriminate].
      Qed.
      Lemma id_scope b m r : sub (VMap m) -> B b -> declared_id ce b m = Ok (Some r) -> B r.
      Proof.
        intros H Hb E. unfold declared_id in E. set (k := if existsMapKey m "id" then "id" else "$id") in E. cbv zeta in E. destruct (assoc k m) as [v|] eqn:Ea; try discriminate.
        apply obind_ok in E. destruct E as (x & _ & E). destruct (negb x); try discriminate. destruct v as [| | | |s| | |]; try discriminate.
        destruct (u_parse ce s) as [q|] eqn:Ep; try discriminate. destruct (u_inherits ce b q) as [a|] eqn:Ei; try discriminate. injection E as <-.
        apply (HB b k s q a); auto; [unfold k; destruct (existsMapKey m "id"); auto|]. exists m. split; [apply H; constructor|apply assoc_In; auto].
      Qed.
      Lemma node_clean o x b d p r : fair o -> sub x -> B b -> pclean p -> parseReferencesNode ce rec o x b d p = Ok r -> kept x (pr_doc r) (pr_pool r).
      Proof.
        intros F H Hb Hp E. unfold parseReferencesNode in E.
        destruct x as [| | | | |l|m|]; try (injection E as <-; split; [apply sub_clean; auto|split; auto]; fail).
        - apply obind_ok in E. destruct E as (q & E1 & E). injection E as <-. apply list_clean in E1; auto; [|intros y Hy; eapply sub_item; eauto].
          destruct E1 as [K1 K2]. split; [apply clean_arr; auto|split; auto]. intros s E. discriminate.
        - apply obind_ok in E. destruct E as (lid & E0 & E). destruct lid as [i|].
          + pose proof (id_scope b m i H Hb E0) as Hi. destruct (assoc i p); [injection E as <-; split; [apply sub_clean; auto|split; auto]|].
            apply obind_ok in E. destruct E as (m1 & E1 & E). apply obind_ok in E. destruct E as (q & E2 & E). injection E as <-.
            destruct (absolute_clean i m m1 H Hi E1) as [M1 M2].
            apply members_clean in E2; auto; [|apply shift_fair; auto|intros e He; apply M2; eapply pick_in; [|exact He]; apply shift_fair; auto|apply pclean_aset; auto; apply sub_clean; auto].
            destruct E2 as [[K1 K2] K3]. assert (C : clean (VMap (fst q))) by (apply clean_map; auto). split; [exact C|split; [apply pclean_aset; auto|]]. intros s E. discriminate.
          + apply obind_ok in E. destruct E as (m1 & E1 & E). apply obind_ok in E. destruct E as (q & E2 & E). injection E as <-.
            destruct (absolute_clean b m m1 H Hb E1) as [M1 M2].
            apply members_clean in E2; auto; [|apply shift_fair; auto|intros e He; apply M2; eapply pick_in; [|exact He]; apply shift_fair; auto].
            destruct E2 as [[K1 K2] K3]. assert (C : clean (VMap (fst q))) by (apply clean_map; auto). split; [exact C|split; [auto|]]. intros s E. discriminate.
      Qed.
    End Node.
    Lemma recursive_clean k : forall o x b d p r, fair o -> sub x -> B b -> pclean p -> parseReferencesRecursive ce k o x b d p = Ok r -> kept x (pr_doc r) (pr_pool r).
    Proof. induction k as [|k IH]; intros o x b d p r F H Hb Hp E; cbn [parseReferencesRecursive] in E; [discriminate|eapply node_clean; eauto]. Qed.
    Lemma references_clean o b pooled p r : fair o -> B b -> pclean p -> parseReferences ce o doc b pooled p = Ok r -> clean (pr_doc r) /\ pclean (pr_pool r).
    Proof.
      intros F Hb Hp E. assert (Hd : sub doc) by (intros m Hm; exact Hm). unfold parseReferences in E. destruct (pooled && _)%bool; [injection E as <-; split; auto; apply sub_clean; auto|].
      apply obind_ok in E. destruct E as (dr & _ & E). destruct dr as [e|d]; [injection E as <-; split; auto; apply sub_clean; auto|].
      apply obind_ok in E. destruct E as (q & E1 & E). apply recursive_clean in E1; auto. destruct E1 as (K1 & K2 & _).
      destruct pooled; injection E as <-; split; auto. apply pclean_aset; auto.
    Qed.
  End Rewrite.
End Clean.

(** ** Environments that serve differently elsewhere *)
Definition refetch (ce : cenv) (f : string -> option value) : cenv :=
  CEnv (c_go ce) (u_parse ce) (u_inherits ce) (u_strip ce) (u_fragment ce) (u_canonical ce) f (c_autodetect ce).
Lemma recursive_refetch ce f k : forall o x b d p, parseReferencesRecursive (refetch ce f) k o x b d p = parseReferencesRecursive ce k o x b d p.
Proof.
  induction k as [|k IH]; intros; cbn [parseReferencesRecursive]; [reflexivity|].
  change (parseReferencesNode (refetch ce f) (parseReferencesRecursive (refetch ce f) k) o x b d p) with (parseReferencesNode ce (parseReferencesRecursive (refetch ce f) k) o x b d p).
  revert o x b d p. generalize (parseReferencesRecursive (refetch ce f) k), (parseReferencesRecursive ce k), IH. clear. intros rec rec' H.
  assert (L : forall l o i b d p, prr_list rec o i b d l p = prr_list rec' o i b d l p).
  { induction l as [|x l IH]; intros; cbn [prr_list]; auto. rewrite H. destruct (rec' _ _ _ _ _); cbn; auto. rewrite IH. auto. }
  assert (M : forall es m o i b d p, prr_map rec o i b d es m p = prr_map rec' o i b d es m p).
  { induction es as [|[k x] es IH]; intros; cbn [prr_map]; auto. rewrite H. destruct (rec' _ _ _ _ _); cbn; auto. }
  assert (B : forall o b d k x p, prr_member rec o b d k x p = prr_member rec' o b d k x p).
  { intros. unfold prr_member. destruct (literal_key k); auto. destruct (map_key k); [destruct x; auto; rewrite M; auto|rewrite H; auto]. }
  assert (S : forall es m o i b d p, prr_members rec o i b d es m p = prr_members rec' o i b d es m p).
  { induction es as [|[k x] es IH]; intros; cbn [prr_members]; auto. rewrite B. destruct (prr_member rec' _ _ _ _ _ _); cbn; auto. }
  intros o x b d p. unfold parseReferencesNode. destruct x; auto; [rewrite L; auto|]. destruct (declared_id ce b m) as [[r|]| |]; cbn; auto.
  - destruct (assoc r p); auto. destruct (absolute_ref ce r m); cbn; auto. rewrite S. auto.
  - destruct (absolute_ref ce b m); cbn; auto. rewrite S. auto.
Qed.
Lemma references_refetch ce f o v r b p : parseReferences (refetch ce f) o v r b p = parseReferences ce o v r b p.
Proof.
  unfold parseReferences. destruct (b && _)%bool; auto. cbn [c_autodetect refetch].
  change (parseSchemaURL (refetch ce f) v) with (parseSchemaURL ce v). destruct (if c_autodetect ce then _ else _) as [[e|d]| |]; cbn [obind]; auto. rewrite recursive_refetch. reflexivity.
Qed.

Section Follow.
  Variable ce : cenv.
  Variable f : string -> option value.
  Notation ce' := (refetch ce f).
  Variable A : string -> Prop.
  Variable V : Prop.
  Variable K0 : string -> Prop.
  Notation clean := (clean ce A V).
  Variable G0 : string -> Prop.
  Hypothesis HG : forall r, A r -> G0 r.
  Notation pclean := (pclean ce A V K0 G0).
  Definition fresh (r : string) : Prop := ~ (K0 r \/ K0 (u_strip ce r)).
  Hypothesis HF : forall r, A r -> u_canonical ce r = true -> fresh r -> f r = c_fetch ce r.
  Hypothesis HD : forall r doc o p x, fair o -> A r -> u_canonical ce r = true -> fresh r -> c_fetch ce r = Some doc -> pclean p ->
    parseReferences ce o doc (u_strip ce r) true p = Ok x -> clean (pr_doc x) /\ pclean (pr_pool x).
  Definition follows {T} (c c' : comp T) (Q : T -> Prop) : Prop := forall s, pclean (st_pool s) -> c' s = c s /\
    match c s with COk a s' => pclean (st_pool s') /\ Q a | CErr _ s' => pclean (st_pool s') | _ => True end.
  Definition any {T} (_ : T) : Prop := True.
  Lemma follows_ret {T} (a : T) : follows (cret a) (cret a) any.
  Proof. intros s H. cbn. split; [reflexivity|split; [exact H|exact I]]. Qed.
  Lemma follows_fail {T} e : follows (@cfail T e) (cfail e) any.
  Proof. intros s H. cbn. auto. Qed.
  Lemma follows_panic {T} : follows (@cpanic T) cpanic any.
  Proof. intros s H. cbn. auto. Qed.
  Lemma follows_lift {T} (x : out T) : follows (lift_out x) (lift_out x) any.
  Proof. intros s H. destruct x; cbn; auto. split; [reflexivity|split; [exact H|exact I]]. Qed.
  Lemma follows_bind {T U} (c c' : comp T) (g g' : T -> comp U) Q R : follows c c' Q -> (forall a, Q a -> follows (g a) (g' a) R) -> follows (cbind c g) (cbind c' g') R.
  Proof. intros Hc Hg s H. destruct (Hc s H) as [E K]. unfold cbind. rewrite E. destruct (c s) as [a s'|e s'| |]; auto. destruct K as [K1 K2]. apply Hg; auto. Qed.
  Lemma follows_alloc prop d doc : follows (alloc prop d doc) (alloc prop d doc) any.
  Proof. intros s H. cbn. split; [reflexivity|split; [exact H|exact I]]. Qed.
  Lemma follows_store id n : follows (store id n) (store id n) any.
  Proof. intros s H. cbn. split; [reflexivity|split; [exact H|exact I]]. Qed.
  Lemma follows_refs_get r : follows (refs_get r) (refs_get r) any.
  Proof. intros s H. cbn. split; [reflexivity|split; [exact H|exact I]]. Qed.
  Lemma follows_refs_add r id : follows (refs_add r id) (refs_add r id) any.
  Proof. intros s H. cbn. split; [reflexivity|split; [exact H|exact I]]. Qed.
  Lemma follows_cmap {T U} (g g' : nat -> T -> comp U) : forall l, (forall i x, In x l -> follows (g i x) (g' i x) any) -> forall i, follows (cmap g i l) (cmap g' i l) any.
  Proof.
    induction l as [|x l IH]; intros H i; cbn [cmap]; [apply follows_ret|]. eapply follows_bind; [apply H; left; auto|]. intros y _.
    eapply follows_bind; [apply IH; intros; apply H; right; auto|]. intros ys _. apply follows_ret.
  Qed.
  Lemma GetDocument_follows o r : fair o -> A r -> follows (GetDocument ce o r) (GetDocument ce' o r) (fun e => clean (sp_doc e)).
  Proof.
    intros F HA s H. unfold GetDocument, cbind, get_pool. destruct (assoc r (st_pool s)) as [d|] eqn:Er; [cbn; split; [auto|split; [auto|eapply pclean_assoc; eauto]]|].
    cbn [u_strip u_fragment u_canonical c_fetch refetch]. destruct (assoc (u_strip ce r) (st_pool s)) as [d|] eqn:Eb.
    - destruct (pointer_get _ _) as [x|] eqn:Ex; [|cbn; auto]. cbn. assert (C : clean x) by (eapply clean_pointer; [|exact Ex]; eapply pclean_assoc; eauto).
      split; [auto|split; [apply pclean_aset; auto|auto]].
    - destruct (u_canonical ce r) eqn:Ec; [|cbn; auto]. cbn [negb].
      assert (Fr : fresh r) by (destruct H as [_ H2]; intros [K|K]; apply H2 in K; auto). rewrite (HF r HA Ec Fr). destruct (c_fetch ce r) as [v|] eqn:Ef; [|cbn; auto]. rewrite references_refetch.
      destruct (parseReferences ce o v (u_strip ce r) true (st_pool s)) as [x| |] eqn:E; cbn; auto. destruct (HD r v o _ x F HA Ec Fr Ef H E) as [C1 C2].
      change (parseSchemaURL ce' (pr_doc x)) with (parseSchemaURL ce (pr_doc x)). destruct (parseSchemaURL ce (pr_doc x)); cbn; auto.
      destruct (pointer_get _ _) as [y|] eqn:Ey; cbn; split; auto. split; auto. eapply clean_pointer; eauto.
  Qed.

  Section Parse.
    Variables rec rec' : oracle -> pargs -> nat -> value -> comp unit.
    Hypothesis Hrec : forall o a i v, fair o -> clean v -> follows (rec o a i v) (rec' o a i v) any.
    Lemma child_follows o p d i v : fair o -> clean v -> follows (child rec o p d i v) (child rec' o p d i v) any.
    Proof. intros F C. unfold child. eapply follows_bind; [apply follows_alloc|]. intros id _. eapply follows_bind; [apply Hrec; auto|]. intros ? _. apply follows_ret. Qed.
    Lemma entry_clean o m k ps e : fair o -> clean (VMap m) -> assoc k m = Some (VMap ps) -> In e (pick o ps) -> clean (snd e).
    Proof. intros F C E Hi. apply pick_in in Hi; auto. destruct e as [k' y]. eapply clean_member; [|exact Hi]. eapply clean_assoc; eauto. Qed.
    Lemma item_clean m k l y : clean (VMap m) -> assoc k m = Some (VArr l) -> In y l -> clean y.
    Proof. intros C E Hi. eapply clean_item; [|exact Hi]. eapply clean_assoc; eauto. Qed.
    Ltac dig := first
      [ assumption | (apply shift_fair; assumption) | (eapply clean_assoc; eassumption)
      | (eapply entry_clean; [|eassumption|eassumption|eassumption]; repeat apply shift_fair; assumption)
      | (eapply item_clean; eassumption) ].
    Ltac follow1 := first
      [ apply follows_ret | apply follows_fail | apply follows_panic | apply follows_lift | apply follows_alloc | apply follows_store | apply follows_refs_get | apply follows_refs_add
      | (apply child_follows; [repeat apply shift_fair; assumption|dig])
      | (eapply follows_bind; [|intros ? _]) | (apply follows_cmap; intros ? ? ?)
      | match goal with |- follows (match ?x with _ => _ end) _ _ => destruct x eqn:? end
      | match goal with |- follows (if ?x then _ else _) _ _ => destruct x end ].
    Ltac follow := repeat follow1.
    Lemma types_follows l : forall t, follows (add_types t l) (add_types t l) any.
    Proof. induction l as [|x l IH]; intros t; cbn [add_types]; [follow|]. destruct x; try follow1. unfold types_add. follow. apply IH. Qed.
    Lemma required_follows l : forall t, follows (add_required ce t l) (add_required ce' t l) any.
    Proof. induction l as [|x l IH]; intros t; cbn [add_required]; unfold ck; follow; apply IH. Qed.
    Lemma enum_follows l : forall t, follows (add_enum t l) (add_enum t l) any.
    Proof. induction l as [|x l IH]; intros t; cbn [add_enum]; follow; apply IH. Qed.
    Lemma deps_follows l : follows (dep_strings ce l) (dep_strings ce' l) any.
    Proof. induction l as [|x l IH]; cbn [dep_strings]; unfold ck; follow; apply IH. Qed.
    Ltac kids := repeat first [apply types_follows | apply required_follows | apply enum_follows | apply deps_follows | follow1].
    Lemma dependency_follows o d i e : fair o -> clean (snd e) -> follows (p_dependency ce rec o d i e) (p_dependency ce' rec' o d i e) any.
    Proof. intros F C. unfold p_dependency. destruct (snd e) as [| | | | | | |] eqn:E; try rewrite <- E in *; kids; rewrite ?E; auto; apply child_follows; auto; congruence. Qed.
    Lemma keywords_follows o a i r m : fair o -> clean (VMap m) -> follows (p_keywords ce rec o a i r m) (p_keywords ce' rec' o a i r m) any.
    Proof.
      intros F C. unfold p_keywords. cbv zeta.
      repeat (eapply follows_bind; [|intros ? _]); try apply follows_ret;
        unfold p_type, types_add, p_multipleOf, p_bound, p_natural, p_le, p_pattern, p_format, p_required, p_uniqueItems, p_const, p_enum,
          p_properties, p_additional, p_patternProperties, p_propertyNames, p_dependencies, p_items, p_contains, p_schemas, p_cond, p_schema, ck; try change (lim ce') with (lim ce); cbn [c_go refetch]; cbv zeta; subst; kids;
        try (apply dependency_follows; [repeat apply shift_fair; assumption|dig]).
    Qed.
    Lemma parseReference_follows o d i r : fair o -> A r -> follows (parseReference ce rec o d i r) (parseReference ce' rec' o d i r) any.
    Proof.
      intros F HA.
      assert (G : forall id, follows (let! _ := alloc "$ref" d VNil in
         let! _ := refs_add r id in
         let! dsp := GetDocument ce (shift o 0) r in
         let! b := ck ce (sp_doc dsp) [KMap; KBool] in
         if negb b then cfail (MustBeOfType "valid schema" TYPE_OBJECT) else
         let d' := match sp_draft dsp with Some x => x | None => d end in
         let! _ := (fun s' => COk tt (CState (st_heap s') (set_nth id (d', sp_doc dsp) (st_src s'))
                                             (st_pool s') (st_refs s'))) in
         let! _ := rec (shift o 1) (PArgs "$ref" d' false r i) id (sp_doc dsp) in
         cret id) (let! _ := alloc "$ref" d VNil in
         let! _ := refs_add r id in
         let! dsp := GetDocument ce' (shift o 0) r in
         let! b := ck ce' (sp_doc dsp) [KMap; KBool] in
         if negb b then cfail (MustBeOfType "valid schema" TYPE_OBJECT) else
         let d' := match sp_draft dsp with Some x => x | None => d end in
         let! _ := (fun s' => COk tt (CState (st_heap s') (set_nth id (d', sp_doc dsp) (st_src s'))
                                             (st_pool s') (st_refs s'))) in
         let! _ := rec' (shift o 1) (PArgs "$ref" d' false r i) id (sp_doc dsp) in
         cret id) any).
      { intros id. eapply follows_bind; [apply follows_alloc|]. intros ? _. eapply follows_bind; [apply follows_refs_add|]. intros ? _.
        eapply follows_bind; [apply GetDocument_follows; [apply shift_fair; exact F|exact HA]|]. intros e C. eapply follows_bind; [apply follows_lift|]. intros b _.
        destruct (negb b); [apply follows_fail|]. cbv zeta. eapply follows_bind with (Q := any); [intros s H; cbn; split; [reflexivity|split; [exact H|exact I]]|]. intros ? _.
        eapply follows_bind; [apply Hrec; [apply shift_fair; exact F|exact C]|]. intros ? _. apply follows_ret. }
      intros s H. unfold parseReference. exact (G _ s H).
    Qed.
    Lemma node_follows o a i v : fair o -> clean v -> follows (parseSchemaNode ce rec o a i v) (parseSchemaNode ce' rec' o a i v) any.
    Proof.
      intros F C. unfold parseSchemaNode. cbv zeta. eapply follows_bind with (Q := any); [destruct (draft_ge6 _); [apply follows_lift|apply follows_ret]|]. intros isb _.
      destruct isb; [destruct v; try apply follows_panic; apply follows_store|]. eapply follows_bind; [apply follows_lift|]. intros ism _.
      destruct (negb ism); [apply follows_fail|]. destruct v as [| | | | | |m|]; try apply follows_panic.
      eapply follows_bind with (Q := any). { unfold p_id, ck. try change (lim ce') with (lim ce). cbn [u_parse u_inherits refetch]. cbv zeta. follow. } intros myid _.
      eapply follows_bind with (Q := any). { unfold p_definitions, ck. try change (lim ce') with (lim ce). follow. } intros ? _.
      do 3 (eapply follows_bind with (Q := any); [unfold p_string_only, ck; try change (lim ce') with (lim ce); follow|intros ? _]).
      destruct (assoc "$ref" m) as [x|] eqn:Er; [destruct x as [| | | |k| | |]|];
        try (eapply follows_bind; [apply keywords_follows; assumption|intros ? _; apply follows_store]).
      change (u_parse ce' k) with (u_parse ce k). destruct (u_parse ce k) as [r|] eqn:Ek; [|apply follows_fail].
      assert (HA : A r) by (destruct (C m (within_self _)) as [O _]; apply (O k); auto; apply assoc_In; exact Er).
      eapply follows_bind; [apply follows_refs_get|]. intros hit _. destruct hit as [rid|].
      - eapply follows_bind; [apply keywords_follows; assumption|intros ? _; apply follows_store].
      - eapply follows_bind; [apply parseReference_follows; [apply shift_fair; exact F|exact HA]|intros ? _; apply follows_store].
    Qed.
  End Parse.
  Lemma parseSchema_follows k : forall o a i v, fair o -> clean v -> follows (parseSchema ce k o a i v) (parseSchema ce' k o a i v) any.
  Proof. induction k as [|k IH]; intros o a i v F C; cbn [parseSchema]; [intros s _; split; [reflexivity|exact I]|apply node_follows; auto]. Qed.
  Lemma parse_follows k o r d v : fair o -> clean v -> follows (parse ce k o r d v) (parse ce' k o r d v) any.
  Proof.
    intros F C. unfold parse. eapply follows_bind; [apply follows_alloc|]. intros id _. eapply follows_bind; [apply parseSchema_follows; assumption|]. intros ? _. apply follows_ret.
  Qed.
End Follow.

(** ** The loader *)
Section Loader.
  Variables w w' : world.
  Hypothesis HW : web_laws w.
  Hypothesis HM : meta_urls w.
  Variable sl0 : sloader.
  Variable l : loader.
  Notation A := (asked w sl0 l).
  Definition V : Prop := sl_validate sl0 = true /\ sl_auto sl0 = true.
  Definition had (k : string) : Prop := assoc k (sl_pool sl0) <> None.
  Notation K0 := had.
  Notation G0 := (entered w sl0 l).
  Hypothesis HS : serves_the_same w sl0 l w'.
  (** The loader on the way. *)
  Definition under (sl : sloader) : Prop :=
    (sl_factory sl = 0 \/ sl_factory sl = LoaderFactory l) /\ sl_auto sl = sl_auto sl0 /\ sl_draft sl = sl_draft sl0 /\ pclean (cenv_of w sl) A V K0 G0 (sl_pool sl).
  Definition carries {T} (x y : lres T) (Q : T -> Prop) : Prop :=
    y = x /\ match x with LOk a sl => under sl /\ Q a | LErr _ sl => under sl | _ => True end.
  Lemma carries_bind {T U} (x y : lres T) (g g' : T -> sloader -> lres U) Q R : carries x y Q ->
    (forall a sl, under sl -> Q a -> carries (g a sl) (g' a sl) R) -> carries (lbind x g) (lbind y g') R.
  Proof. intros [-> H] Hg. destruct x as [a sl|e sl| |]; cbn; try (split; auto; fail). destruct H as [H1 H2]. apply Hg; auto. Qed.
  Lemma world_cenv sl : cenv_of w' sl = refetch (cenv_of w sl) (loadReference w' (sl_factory sl)).
  Proof. destruct HS as (H1 & H2 & H3 & H4 & H5 & H6 & _). unfold cenv_of, refetch. cbn. congruence. Qed.
  Definition cleanw (sl : sloader) (v : value) : Prop := clean (cenv_of w sl) A V v.
  (** clean does not depend on the loader. *)
  Lemma cleanw_any sl sl' v : cleanw sl v -> cleanw sl' v.
  Proof. intros H. exact H. Qed.
  Lemma seen_clean sl o base doc pooled p x : fair o -> seen w sl0 l base doc -> pclean (cenv_of w sl) A V K0 G0 p ->
    parseReferences (cenv_of w sl) o doc base pooled p = Ok x -> cleanw sl (pr_doc x) /\ pclean (cenv_of w sl) A V K0 G0 (pr_pool x).
  Proof.
    intros F Hs Hp E. apply (references_clean (cenv_of w sl) A V K0 G0 doc (scope w base doc)) with (o := o) (b := base) (pooled := pooled) (p := p); auto.
    - intros b k s r b' Hb Hk Hsay P1 P2. eapply scope_id; eauto.
    - intros s r Hsay P1. eapply asked_ref; eauto.
    - intros s r b a r' Hsay P1 Hb P2 P3. eapply asked_resolved; eauto.
    - intros [HV1 HV2] s r Hsay P1. eapply asked_schema; eauto.
    - intros b Hb. right. right. eauto.
    - constructor.
  Qed.
  Lemma run_carries {T} sl (c c' : comp T) Q : under sl -> follows (cenv_of w sl) A V K0 G0 c c' Q ->
    carries (run_comp sl c) (run_comp sl c') (fun r => Q (fst r)).
  Proof.
    intros (U1 & U2 & U3 & U4) H. unfold run_comp. destruct (H (CState [] [] (sl_pool sl) []) U4) as [E K]. rewrite E.
    destruct (c _) as [a s|e s| |]; split; auto; [|split; [exact U1|split; [exact U2|split; [exact U3|exact K]]]]. destruct K as [K1 K2]. split; [|exact K2]. split; [exact U1|split; [exact U2|split; [exact U3|exact K1]]].
  Qed.
  Lemma fetch_same sl r : under sl -> A r -> u_canonical (cenv_of w sl) r = true -> fresh (cenv_of w sl) K0 r -> loadReference w' (sl_factory sl) r = c_fetch (cenv_of w sl) r.
  Proof. intros (U1 & _) HA Hc Hn. destruct HS as (_ & _ & _ & _ & _ & _ & _ & H). apply H; auto. Qed.
  Lemma fetch_clean sl r doc o p x : under sl -> fair o -> A r -> u_canonical (cenv_of w sl) r = true -> fresh (cenv_of w sl) K0 r -> c_fetch (cenv_of w sl) r = Some doc -> pclean (cenv_of w sl) A V K0 G0 p ->
    parseReferences (cenv_of w sl) o doc (u_strip (cenv_of w sl) r) true p = Ok x -> clean (cenv_of w sl) A V (pr_doc x) /\ pclean (cenv_of w sl) A V K0 G0 (pr_pool x).
  Proof. intros (U1 & _) F HA Hc Hn Hf Hp E. eapply seen_clean; eauto. eapply seen_fetched; eauto. Qed.
  Lemma get_carries sl o r : under sl -> fair o -> A r ->
    carries (run_comp sl (GetDocument (cenv_of w sl) o r)) (run_comp sl (GetDocument (cenv_of w' sl) o r)) (fun e => cleanw sl (sp_doc (fst e))).
  Proof.
    intros U F HA. rewrite world_cenv. apply (run_carries sl _ _ (fun e => cleanw sl (sp_doc e)) U).
    apply GetDocument_follows; auto; [intros; right; left; auto|intros; apply fetch_same; auto|intros; eapply fetch_clean; eauto].
  Qed.
  Lemma under_factory sl n : under sl -> n = 0 \/ n = LoaderFactory l -> under (with_factory n sl).
  Proof. intros (U1 & U2 & U3 & U4) H. split; [exact H|split; [exact U2|split; [exact U3|exact U4]]]. Qed.
  Lemma under_validate sl b : under sl -> under (with_validate b sl).
  Proof. intros (U1 & U2 & U3 & U4). split; [exact U1|split; [exact U2|split; [exact U3|exact U4]]]. Qed.
  Lemma parse_world : w_parse w' = w_parse w.
  Proof. apply HS. Qed.
  Lemma JsonReference_world l' : JsonReference w' l' = JsonReference w l'.
  Proof. destruct l'; cbn [JsonReference]; rewrite parse_world; reflexivity. Qed.
  (** The document: of the loader given, or of a meta-schema. *)
  Lemma doc_carries o sl l' : fair o -> under sl -> LoaderFactory l' = 0 \/ LoaderFactory l' = LoaderFactory l ->
    (forall r, JsonReference w l' = Some r -> r <> "" /\ A r \/ r = "" /\ l' = l) ->
    carries (compile_doc w o sl l') (compile_doc w' o sl l') (fun rd => forall sl1, cleanw sl1 (snd rd)).
  Proof.
    intros F U Hf Hr. unfold compile_doc. rewrite JsonReference_world. destruct (JsonReference w l') as [r|] eqn:EJ; [|split; auto].
    pose proof (under_factory sl _ U Hf) as U'. destruct (Hr r eq_refl) as [[Hn HA]|[-> ->]].
    - apply String.eqb_neq in Hn. rewrite Hn. cbn [negb]. eapply carries_bind; [apply get_carries; [exact U'|apply shift_fair; exact F|exact HA]|].
      intros a sl1 U1 C. split; [reflexivity|split; [exact U1|intros sl2; exact C]].
    - cbn [String.eqb negb]. destruct HS as (_ & _ & _ & _ & _ & _ & HL & _). rewrite (HL EJ). destruct (fst (LoadJSON w l)) as [doc|] eqn:EL; [|split; auto].
      eapply carries_bind with (Q := fun v => forall sl1, cleanw sl1 v); [|intros a sl1 U1 C; split; auto].
      unfold pool_parseReferences. rewrite world_cenv, references_refetch. set (sl1 := with_factory (LoaderFactory l) sl) in *.
      destruct (parseReferences (cenv_of w sl1) (shift o 0) doc "" true (sl_pool sl1)) as [x| |] eqn:E; cbn [run_out lbind]; try (split; auto; fail).
      pose proof U' as (U1 & U2 & U3 & U4). destruct (seen_clean sl1 (shift o 0) "" doc true (sl_pool sl1) x (shift_fair _ _ F) (seen_given _ _ _ doc EJ EL) U4 E) as [C1 C2].
      destruct (pr_err x); split; auto; [split; [exact U1|split; [exact U2|split; [exact U3|exact C2]]]|]. split; [split; [exact U1|split; [exact U2|split; [exact U3|exact C2]]]|]. intros sl2. exact C1.
  Qed.
  Lemma url_world sl v : parseSchemaURL (cenv_of w' sl) v = parseSchemaURL (cenv_of w sl) v.
  Proof. rewrite world_cenv. reflexivity. Qed.
  Variable fuel : nat.
  Definition some {T} (_ : T) : Prop := True.
  Lemma compile_parse_carries o sl r v : fair o -> under sl -> (forall sl1, cleanw sl1 v) -> carries (compile_parse w fuel o sl r v) (compile_parse w' fuel o sl r v) some.
  Proof.
    intros F U C. unfold compile_parse. rewrite url_world. eapply carries_bind with (Q := some).
    - destruct (sl_auto sl); [|split; [reflexivity|split; [exact U|exact I]]]. destruct (parseSchemaURL (cenv_of w sl) v) as [[e|[u [d|]]]| |]; cbn; (split; [reflexivity|]); auto; split; auto; exact I.
    - intros d sl1 U1 _. eapply carries_bind with (Q := some).
      + rewrite world_cenv. apply (run_carries sl1 _ _ (fun _ => True) U1). apply parse_follows; auto; [intros; right; left; auto|intros; apply fetch_same; auto|intros; eapply fetch_clean; eauto|apply shift_fair; exact F|apply C].
      + intros a sl2 U2 _. split; [reflexivity|split; [exact U2|exact I]].
  Qed.
  Lemma Compile0_carries o sl l' : fair o -> under sl -> LoaderFactory l' = 0 \/ LoaderFactory l' = LoaderFactory l ->
    (forall r, JsonReference w l' = Some r -> r <> "" /\ A r \/ r = "" /\ l' = l) ->
    carries (Compile0 w fuel o sl l') (Compile0 w' fuel o sl l') some.
  Proof.
    intros F U Hf Hr. unfold Compile0. eapply carries_bind; [apply doc_carries; auto|]. intros a sl1 U1 C. apply compile_parse_carries; auto.
  Qed.
  Lemma meta_carries o sl v : sl_validate sl0 = true -> fair o -> under sl -> (forall sl1, cleanw sl1 v) -> carries (validateMetaschema w fuel o sl v) (validateMetaschema w' fuel o sl v) some.
  Proof.
    intros HV F U C. unfold validateMetaschema. rewrite url_world.
    eapply carries_bind with (Q := fun u => u <> "" -> w_parse w u = Some u /\ A u).
    - destruct (sl_auto sl) eqn:Ea; [|split; [reflexivity|split; [exact U|intros N; destruct (N eq_refl)]]].
      destruct (parseSchemaURL (cenv_of w sl) v) as [x| |] eqn:E; cbn; try (split; auto; fail). destruct x as [e|[u d]]; split; auto. split; auto. intros N.
      unfold parseSchemaURL in E. apply obind_ok in E. destruct E as (b & _ & E). destruct b; [injection E as <- <-; destruct (N eq_refl)|].
      apply obind_ok in E. destruct E as (b & _ & E). destruct (negb b); [discriminate|]. destruct v as [| | | | | |m|]; try discriminate.
      destruct (assoc "$schema" m) as [y|] eqn:Ey; [|injection E as <- <-; destruct (N eq_refl)]. apply obind_ok in E. destruct E as (c & _ & E).
      destruct (negb c); [discriminate|]. destruct y as [| | | |s| | |]; try discriminate. cbn [u_parse cenv_of] in E. destruct (w_parse w s) as [r|] eqn:Er; [|discriminate]. injection E as <- <-.
      destruct HW as (_ & _ & _ & W4). split; [apply (W4 s r Er)|]. destruct (C sl m (within_self _)) as [_ O]. assert (HV2 : sl_auto sl0 = true) by (destruct U as (_ & U2 & _); congruence). apply (O (conj HV HV2) s); auto. apply assoc_In. exact Ey.
    - intros u sl1 U1 Hu. destruct (String.eqb_spec u "") as [->|N].
      + cbn [andb]. destruct (draft_eqb (sl_draft sl1) Hybrid) eqn:Ed; [split; [reflexivity|split; [exact U1|exact I]]|].
        assert (Nd : sl_draft sl1 <> Hybrid) by (intros E; rewrite E in Ed; discriminate). pose proof U1 as (_ & _ & U3 & _).
        destruct (HM (sl_draft sl1) Nd) as [(_ & P & _) _].
        eapply carries_bind with (Q := some).
        * apply Compile0_carries; [apply shift_fair; exact F|apply under_validate; exact U1|left; reflexivity|].
          intros r E. cbn [JsonReference] in E. left. assert (E2 : r = GetSchemaURL (sl_draft sl1)) by (change (meta_at (sl_draft sl1)) with (GetSchemaURL (sl_draft sl1)) in P; congruence).
          split; [rewrite E2; destruct (sl_draft sl1); try discriminate; congruence|]. rewrite E2, U3. apply asked_draft. exact HV.
        * intros sch sl2 U2 _. cbv zeta. destruct HS as (-> & _). destruct (validateDocument _ _ _ _ _ _) as [res| |]; cbn; try (split; auto; fail).
          destruct (Valid res); (split; [reflexivity|]); [split; [apply under_validate; exact U2|exact I]|apply under_validate; exact U2].
      + cbn [andb]. destruct (Hu N) as [P HA]. eapply carries_bind with (Q := some).
        * apply Compile0_carries; [apply shift_fair; exact F|apply under_validate; exact U1|left; reflexivity|].
          intros r E. cbn [JsonReference] in E. left. assert (r = u) by congruence. subst. auto.
        * intros sch sl2 U2 _. cbv zeta. destruct HS as (-> & _). destruct (validateDocument _ _ _ _ _ _) as [res| |]; cbn; try (split; auto; fail).
          destruct (Valid res); (split; [reflexivity|]); [split; [apply under_validate; exact U2|exact I]|apply under_validate; exact U2].
  Qed.
  Lemma under_start : under (with_factory (LoaderFactory l) sl0).
  Proof.
    split; [right; reflexivity|split; [reflexivity|split; [reflexivity|]]]. split; [|intros k Hk; exact Hk]. intros k e Hi. split; [intros m Hm; split|left; intros N; exact (assoc_None_In k (sl_pool sl0) N e Hi)].
    - intros s r Hin P. eapply asked_held; eauto. exists m. auto.
    - intros [HV Ha] s r Hin P. eapply asked_held_schema; eauto. exists m. auto.
  Qed.
  Lemma doc_factory u o n sl : compile_doc u o sl l = compile_doc u o (with_factory n sl) l \/ JsonReference u l = None.
  Proof. unfold compile_doc. destruct (JsonReference u l); auto. Qed.
  Lemma doc_validate o sl rd sl1 : compile_doc w o sl l = LOk rd sl1 -> sl_validate sl1 = sl_validate sl.
  Proof.
    unfold compile_doc. destruct (JsonReference w l); [|discriminate]. destruct (negb _).
    - unfold run_comp. destruct (GetDocument _ _ _ _) as [a s'|e s'| |]; cbn; try discriminate. intros E. injection E as <- <-. reflexivity.
    - destruct (fst (LoadJSON w l)); [|discriminate]. unfold pool_parseReferences. destruct (parseReferences _ _ _ _ _ _) as [x| |]; cbn; try discriminate.
      destruct (pr_err x); cbn; try discriminate. intros E. injection E as <- <-. reflexivity.
  Qed.
  (** What the loader holds afterwards, whether Compile succeeds or not. *)
  Lemma compile_carries o : fair o -> (JsonReference w l <> None) -> carries (Compile w fuel o sl0 l) (Compile w' fuel o sl0 l) some.
  Proof.
    intros F NJ. unfold Compile. destruct (JsonReference w l) as [r|] eqn:EJ; [|destruct (NJ eq_refl)].
    assert (H : carries (compile_doc w (shift o 0) sl0 l) (compile_doc w' (shift o 0) sl0 l) (fun rd => forall sl1, cleanw sl1 (snd rd))).
    { destruct (doc_factory w (shift o 0) (LoaderFactory l) sl0) as [->|]; [|congruence]. destruct (doc_factory w' (shift o 0) (LoaderFactory l) sl0) as [->|]; [|rewrite JsonReference_world in *; congruence].
      apply doc_carries; [apply shift_fair; exact F|apply under_start|right; reflexivity|]. intros r' E. destruct (String.eqb_spec r' "") as [->|N]; [right; auto|left; split; auto; apply asked_itself; exact E]. }
    destruct H as [E K]. rewrite E. destruct (compile_doc w (shift o 0) sl0 l) as [rd sl1|e sl1| |] eqn:ED; try (split; [reflexivity|exact K]). cbn [lbind]. destruct K as [U1 C].
    eapply carries_bind with (Q := some).
    - destruct (sl_validate sl1) eqn:Ev; [|split; [reflexivity|split; [exact U1|exact I]]]. apply meta_carries; auto; [|apply shift_fair; exact F].
      rewrite <- Ev. symmetry. eapply doc_validate; eauto.
    - intros a sl2 U2 _. apply compile_parse_carries; auto. apply shift_fair. exact F.
  Qed.
  Theorem compile_asks o : fair o -> Compile w' fuel o sl0 l = Compile w fuel o sl0 l.
  Proof.
    intros F. destruct (JsonReference w l) as [r|] eqn:EJ; [apply (compile_carries o F); congruence|].
    unfold Compile, compile_doc. rewrite JsonReference_world, EJ. reflexivity.
  Qed.
End Loader.

(** ** Consequences *)
(** The documents held afterwards. *)
Theorem compile_enters w fuel o sl l sl' : web_laws w -> meta_urls w -> fair o -> outcome_loader (Compile w fuel o sl l) sl' ->
  (forall k, assoc k (sl_pool sl') <> None -> entered w sl l k) /\ (forall k, assoc k (sl_pool sl) <> None -> assoc k (sl_pool sl') <> None).
Proof.
  intros HW HM F E. destruct (JsonReference w l) as [r|] eqn:EJ.
  - assert (HS : serves_the_same w sl l w) by (do 6 (split; [reflexivity|]); split; auto).
    assert (U : under w sl l sl').
    { destruct (compile_carries w w HW HM sl l HS fuel o F) as [_ K]; [congruence|]. destruct (Compile w fuel o sl l); cbn in E; try destruct E; [apply K|exact K]. }
    destruct U as (_ & _ & _ & [U1 U2]). split; [|exact U2]. intros k Hk. destruct (assoc k (sl_pool sl')) as [e|] eqn:Ek; [|destruct (Hk eq_refl)]. apply assoc_In in Ek. apply (U1 k e Ek).
  - unfold Compile, compile_doc in E. rewrite EJ in E. cbn in E. subst sl'. split; [intros k Hk; left; exact Hk|auto].
Qed.
(** Adding a document without checking it reads nothing else. *)
Theorem add_asks w w' fuel o url l sl : w_go w' = w_go w -> w_parse w' = w_parse w -> w_inherits w' = w_inherits w -> w_strip w' = w_strip w ->
  w_fragment w' = w_fragment w -> w_canonical w' = w_canonical w -> fst (LoadJSON w' l) = fst (LoadJSON w l) -> sl_validate sl = false ->
  AddSchema w' fuel o url l sl = AddSchema w fuel o url l sl.
Proof.
  intros H1 H2 H3 H4 H5 H6 H7 Hv. unfold AddSchema. rewrite H2, H7, Hv. destruct (w_parse w url) as [r|]; auto. destruct (fst (LoadJSON w l)) as [doc|]; auto.
  cbn [lbind]. unfold pool_parseReferences.
  assert (E : cenv_of w' sl = refetch (cenv_of w sl) (loadReference w' (sl_factory sl))) by (unfold cenv_of, refetch; cbn; congruence). rewrite E, references_refetch. reflexivity.
Qed.
(** With Validate on it reads what checking the document takes: what compiling
    the meta-schema by its URL reads. *)
Lemma compile0_asks w w' fuel o sl l : serves_the_same w sl l w' -> fair o -> Compile0 w' fuel o sl l = Compile0 w fuel o sl l.
Proof.
  intros HS F. pose proof (JsonReference_world w w' sl l HS l) as EJ. destruct (JsonReference w l) as [r|] eqn:E.
  - unfold Compile0. destruct (doc_factory l w o (LoaderFactory l) sl) as [->|]; [|congruence]. destruct (doc_factory l w' o (LoaderFactory l) sl) as [->|]; [|congruence].
    destruct (Compile0_carries w w' sl l HS fuel o (with_factory (LoaderFactory l) sl) l F (under_start w sl l)) as [X _]; [right; reflexivity| |exact X].
    intros r' E'. destruct (String.eqb_spec r' "") as [->|N]; [right; auto|left; split; auto; apply asked_itself; exact E'].
  - unfold Compile0, compile_doc. rewrite EJ, E. reflexivity.
Qed.
Lemma meta_asks w w' fuel o sl doc : w_go w' = w_go w -> w_parse w' = w_parse w -> w_inherits w' = w_inherits w -> w_strip w' = w_strip w ->
  w_fragment w' = w_fragment w -> w_canonical w' = w_canonical w -> fair o ->
  (meta_url w sl doc <> "" -> serves_the_same w (with_validate false sl) (LRef 0 (meta_url w sl doc)) w') ->
  validateMetaschema w' fuel o sl doc = validateMetaschema w fuel o sl doc.
Proof.
  intros H1 H2 H3 H4 H5 H6 F HS. unfold validateMetaschema.
  assert (EU : parseSchemaURL (cenv_of w' sl) doc = parseSchemaURL (cenv_of w sl) doc).
  { assert (E : cenv_of w' sl = refetch (cenv_of w sl) (loadReference w' (sl_factory sl))) by (unfold cenv_of, refetch; cbn; congruence). rewrite E. reflexivity. }
  rewrite EU. assert (K : forall u, u = (if sl_auto sl then declared_url (w_parse w) doc else "") ->
    (if String.eqb u "" && draft_eqb (sl_draft sl) Hybrid then LOk tt sl
     else let url := if String.eqb u "" then GetSchemaURL (sl_draft sl) else u in
       lbind (Compile0 w' fuel (shift o 0) (with_validate false sl) (LRef 0 url)) (fun sch sl => let sl := with_validate true sl in
         lbind (run_out sl (validateDocument (w_go w') (s_heap sch) fuel (shift o 1) (s_root sch) doc)) (fun r sl => if Valid r then LOk tt sl else LErr (EMeta (errors r)) sl)))%bool =
    (if String.eqb u "" && draft_eqb (sl_draft sl) Hybrid then LOk tt sl
     else let url := if String.eqb u "" then GetSchemaURL (sl_draft sl) else u in
       lbind (Compile0 w fuel (shift o 0) (with_validate false sl) (LRef 0 url)) (fun sch sl => let sl := with_validate true sl in
         lbind (run_out sl (validateDocument (w_go w) (s_heap sch) fuel (shift o 1) (s_root sch) doc)) (fun r sl => if Valid r then LOk tt sl else LErr (EMeta (errors r)) sl)))%bool).
  { intros u Eu. destruct (String.eqb u "" && draft_eqb (sl_draft sl) Hybrid)%bool eqn:Eb; auto. cbv zeta. rewrite H1.
    assert (EM : meta_url w sl doc = if (String.eqb u "") then GetSchemaURL (sl_draft sl) else u).
    { unfold meta_url. rewrite <- Eu. destruct (String.eqb u ""); auto. }
    rewrite EM in HS. rewrite (compile0_asks w w' fuel (shift o 0) (with_validate false sl) _ (HS ltac:(destruct (String.eqb_spec u ""); [destruct (sl_draft sl); discriminate|assumption])) (shift_fair _ _ F)). reflexivity. }
  destruct (sl_auto sl) eqn:Ea; [|apply (K "" eq_refl)].
  destruct (parseSchemaURL (cenv_of w sl) doc) as [x| |] eqn:E; auto. destruct x as [e|[u d]]; auto. cbn [run_out lbind]. apply (K u).
  unfold parseSchemaURL in E. apply obind_ok in E. destruct E as (b & Eb & E). destruct b.
  { injection E as <- _. unfold isKind in Eb. apply obind_ok in Eb. destruct Eb as (k & Ek & Eb). destruct doc as [| | | | | |m|]; auto. injection Ek as <-. discriminate Eb. }
  apply obind_ok in E. destruct E as (b & _ & E). destruct (negb b); [discriminate|]. destruct doc as [| | | | | |m|]; try discriminate. cbn [declared_url].
  destruct (assoc "$schema" m) as [y|]; [|injection E as <- _; reflexivity]. apply obind_ok in E. destruct E as (c & _ & E).
  destruct (negb c); [discriminate|]. destruct y as [| | | |s| | |]; try discriminate. cbn [u_parse cenv_of] in E. destruct (w_parse w s) as [r|]; [|discriminate]. injection E as <- _. reflexivity.
Qed.
Theorem add_checked_asks w w' fuel o url l sl : w_go w' = w_go w -> w_parse w' = w_parse w -> w_inherits w' = w_inherits w -> w_strip w' = w_strip w ->
  w_fragment w' = w_fragment w -> w_canonical w' = w_canonical w -> fair o -> fst (LoadJSON w' l) = fst (LoadJSON w l) ->
  (forall doc, fst (LoadJSON w l) = Some doc -> meta_url w sl doc <> "" -> serves_the_same w (with_validate false sl) (LRef 0 (meta_url w sl doc)) w') ->
  AddSchema w' fuel o url l sl = AddSchema w fuel o url l sl.
Proof.
  intros H1 H2 H3 H4 H5 H6 F H7 HS. destruct (sl_validate sl) eqn:Hv; [|apply add_asks; auto]. unfold AddSchema. rewrite H2, H7, Hv. destruct (w_parse w url) as [r|]; auto.
  destruct (fst (LoadJSON w l)) as [doc|] eqn:EL; auto. rewrite (meta_asks w w' fuel (shift o 0) sl doc); auto; [|apply shift_fair; auto].
  destruct (validateMetaschema w fuel (shift o 0) sl doc) as [u sl1|e sl1| |]; auto. cbn [lbind]. unfold pool_parseReferences.
  assert (E : cenv_of w' sl1 = refetch (cenv_of w sl1) (loadReference w' (sl_factory sl1))) by (unfold cenv_of, refetch; cbn; congruence). rewrite E, references_refetch. reflexivity.
Qed.
Theorem adds_asks w w' fuel ls : w_go w' = w_go w -> w_parse w' = w_parse w -> w_inherits w' = w_inherits w -> w_strip w' = w_strip w ->
  w_fragment w' = w_fragment w -> w_canonical w' = w_canonical w -> (forall l, In l ls -> fst (LoadJSON w' l) = fst (LoadJSON w l)) ->
  forall o sl, sl_validate sl = false -> AddSchemas w' fuel o ls sl = AddSchemas w fuel o ls sl.
Proof.
  intros H1 H2 H3 H4 H5 H6. induction ls as [|l ls IH]; intros H7 o sl Hv; [reflexivity|]. cbn [AddSchemas]. rewrite (H7 l (or_introl eq_refl)), Hv.
  destruct (fst (LoadJSON w l)) as [doc|]; auto. cbn [lbind]. unfold pool_parseReferences.
  assert (E : cenv_of w' sl = refetch (cenv_of w sl) (loadReference w' (sl_factory sl))) by (unfold cenv_of, refetch; cbn; congruence). rewrite E, references_refetch.
  match goal with |- lbind ?x _ = lbind ?x _ => destruct x as [u sl1|e sl1| |] eqn:EX; auto end. cbn [lbind]. apply IH; [intros; apply H7; right; auto|].
  revert EX. unfold run_out. destruct (parseReferences _ _ _ _ _ _) as [r| |]; cbn [lbind]; intros EX; try discriminate EX.
  destruct (pr_err r); [discriminate EX|]. injection EX as _ <-. exact Hv.
Qed.
Lemma references_enter w o sl doc ref pooled r : fair o -> parseReferences (cenv_of w sl) o doc ref pooled (sl_pool sl) = Ok r ->
  (forall k, assoc k (pr_pool r) <> None -> assoc k (sl_pool sl) <> None \/ scope w ref doc k) /\ (forall k, assoc k (sl_pool sl) <> None -> assoc k (pr_pool r) <> None).
Proof.
  intros F E. set (G := fun k => assoc k (sl_pool sl) <> None \/ scope w ref doc k).
  assert (H : clean (cenv_of w sl) (fun _ => True) False (pr_doc r) /\ pclean (cenv_of w sl) (fun _ => True) False (fun k => assoc k (sl_pool sl) <> None) G (pr_pool r)).
  { apply (references_clean (cenv_of w sl) (fun _ => True) False (fun k => assoc k (sl_pool sl) <> None) G doc (scope w ref doc)) with (o := o) (b := ref) (pooled := pooled) (p := sl_pool sl); auto.
    - intros b k s q b' Hb Hk Hsay P1 P2. eapply scope_id; eauto.
    - intros b Hb. right. exact Hb.
    - constructor.
    - split; [|auto]. intros k e Hi. split; [intros m Hm; split; auto; intros []|]. left. intros N. exact (assoc_None_In k _ N e Hi). }
  destruct H as [_ [U1 U2]]. split; [|exact U2].
  intros k Hk. destruct (assoc k (pr_pool r)) as [e|] eqn:Ek; [|destruct (Hk eq_refl)]. apply assoc_In in Ek. apply (U1 k e Ek).
Qed.
Theorem add_enters w fuel o url l sl sl' : fair o -> sl_validate sl = false -> outcome_loader (AddSchema w fuel o url l sl) sl' ->
  (forall k, assoc k (sl_pool sl') <> None -> assoc k (sl_pool sl) <> None \/
     exists ref doc, w_parse w url = Some ref /\ fst (LoadJSON w l) = Some doc /\ scope w ref doc k) /\
  (forall k, assoc k (sl_pool sl) <> None -> assoc k (sl_pool sl') <> None).
Proof.
  intros F Hv. unfold AddSchema. rewrite Hv. destruct (w_parse w url) as [ref|]; [|cbn; intros <-; split; auto].
  destruct (fst (LoadJSON w l)) as [doc|]; [|cbn; intros <-; split; auto]. cbn [lbind]. unfold pool_parseReferences.
  destruct (parseReferences (cenv_of w sl) (shift o 1) doc ref true (sl_pool sl)) as [r| |] eqn:E; cbn [run_out lbind]; try (intros []; fail). intros EO.
  destruct (references_enter w _ sl doc ref true r (shift_fair _ _ F) E) as [H1 H2].
  assert (EP : sl_pool sl' = pr_pool r) by (destruct (pr_err r); cbn in EO; subst sl'; reflexivity). rewrite EP. split; [|exact H2].
  intros k Hk. destruct (H1 k Hk); [left; auto|right; eauto].
Qed.
Theorem adds_enter w fuel ls : forall o sl sl', fair o -> sl_validate sl = false -> outcome_loader (AddSchemas w fuel o ls sl) sl' ->
  (forall k, assoc k (sl_pool sl') <> None -> assoc k (sl_pool sl) <> None \/
     exists l doc, In l ls /\ fst (LoadJSON w l) = Some doc /\ scope w "" doc k) /\
  (forall k, assoc k (sl_pool sl) <> None -> assoc k (sl_pool sl') <> None).
Proof.
  induction ls as [|l ls IH]; intros o sl sl' F Hv; cbn [AddSchemas]; [cbn; intros <-; split; auto|]. rewrite Hv.
  destruct (fst (LoadJSON w l)) as [doc|] eqn:EL; [|cbn; intros <-; split; auto]. cbn [lbind]. unfold pool_parseReferences.
  destruct (parseReferences (cenv_of w sl) (shift o 1) doc "" false (sl_pool sl)) as [r| |] eqn:E; cbn [run_out lbind]; try (intros []; fail). intros EO.
  destruct (references_enter w _ sl doc "" false r (shift_fair _ _ F) E) as [H1 H2].
  assert (D : forall k, assoc k (pr_pool r) <> None -> assoc k (sl_pool sl) <> None \/ exists l0 doc0, In l0 (l :: ls) /\ fst (LoadJSON w l0) = Some doc0 /\ scope w "" doc0 k).
  { intros k Hk. destruct (H1 k Hk); [left; auto|right]. exists l, doc. split; [left; auto|auto]. }
  destruct (pr_err r); cbn [lbind] in EO; [cbn in EO; subst sl'; split; [exact D|exact H2]|].
  apply IH in EO; [|apply shift_fair; exact F|exact Hv]. destruct EO as [K1 K2]. cbn [sl_pool with_pool] in K1, K2. split; [|intros k Hk; apply K2; apply H2; exact Hk].
  intros k Hk. destruct (K1 k Hk) as [K|(l0 & doc0 & Hi & HL & Hs)]; [apply D; exact K|right]. exists l0, doc0. split; [right; auto|auto].
Qed.
Lemma url_declared w sl doc u d : parseSchemaURL (cenv_of w sl) doc = Ok (inr (u, d)) -> u = declared_url (w_parse w) doc.
Proof.
  intros E. unfold parseSchemaURL in E. apply obind_ok in E. destruct E as (b & Eb & E). destruct b.
  { injection E as <- _. unfold isKind in Eb. apply obind_ok in Eb. destruct Eb as (k & Ek & Eb). destruct doc as [| | | | | |m|]; auto. injection Ek as <-. discriminate Eb. }
  apply obind_ok in E. destruct E as (b & _ & E). destruct (negb b); [discriminate|]. destruct doc as [| | | | | |m|]; try discriminate. cbn [declared_url].
  destruct (assoc "$schema" m) as [y|]; [|injection E as <- _; reflexivity]. apply obind_ok in E. destruct E as (c & _ & E).
  destruct (negb c); [discriminate|]. destruct y as [| | | |s| | |]; try discriminate. cbn [u_parse cenv_of] in E. destruct (w_parse w s) as [r|]; [|discriminate]. injection E as <- _. reflexivity.
Qed.
Lemma compile0_enters w fuel o sl l sl' : fair o -> outcome_loader (Compile0 w fuel o sl l) sl' ->
  (forall k, assoc k (sl_pool sl') <> None -> entered w sl l k) /\ (forall k, assoc k (sl_pool sl) <> None -> assoc k (sl_pool sl') <> None).
Proof.
  intros F E. destruct (JsonReference w l) as [r|] eqn:EJ.
  - assert (HS : serves_the_same w sl l w) by (do 6 (split; [reflexivity|]); split; auto).
    assert (U : under w sl l sl').
    { assert (C : carries w sl l (Compile0 w fuel o sl l) (Compile0 w fuel o sl l) some).
      { unfold Compile0. destruct (doc_factory l w o (LoaderFactory l) sl) as [->|]; [|congruence].
        apply (Compile0_carries w w sl l HS fuel o (with_factory (LoaderFactory l) sl) l F (under_start w sl l)); [right; reflexivity|].
        intros r' E'. destruct (String.eqb_spec r' "") as [->|N]; [right; auto|left; split; auto; apply asked_itself; exact E']. }
      destruct C as [_ K]. destruct (Compile0 w fuel o sl l); cbn in E; try destruct E; [apply K|exact K]. }
    destruct U as (_ & _ & _ & [U1 U2]). split; [|exact U2]. intros k Hk. destruct (assoc k (sl_pool sl')) as [e|] eqn:Ek; [|destruct (Hk eq_refl)]. apply assoc_In in Ek. apply (U1 k e Ek).
  - unfold Compile0, compile_doc in E. rewrite EJ in E. cbn in E. subst sl'. split; [intros k Hk; left; exact Hk|auto].
Qed.
Definition checks w (sl : sloader) (doc : value) (k : string) : Prop :=
  meta_url w sl doc <> "" /\ entered w (with_validate false sl) (LRef 0 (meta_url w sl doc)) k.
Lemma meta_enters w fuel o sl doc sl' : fair o -> outcome_loader (validateMetaschema w fuel o sl doc) sl' ->
  (forall k, assoc k (sl_pool sl') <> None -> assoc k (sl_pool sl) <> None \/ checks w sl doc k) /\ (forall k, assoc k (sl_pool sl) <> None -> assoc k (sl_pool sl') <> None).
Proof.
  intros F. unfold validateMetaschema.
  assert (K : forall u, u = (if sl_auto sl then declared_url (w_parse w) doc else "") ->
    outcome_loader (if String.eqb u "" && draft_eqb (sl_draft sl) Hybrid then LOk tt sl
     else let url := if String.eqb u "" then GetSchemaURL (sl_draft sl) else u in
       lbind (Compile0 w fuel (shift o 0) (with_validate false sl) (LRef 0 url)) (fun sch sl => let sl := with_validate true sl in
         lbind (run_out sl (validateDocument (w_go w) (s_heap sch) fuel (shift o 1) (s_root sch) doc)) (fun r sl => if Valid r then LOk tt sl else LErr (EMeta (errors r)) sl)))%bool sl' ->
    (forall k, assoc k (sl_pool sl') <> None -> assoc k (sl_pool sl) <> None \/ checks w sl doc k) /\ (forall k, assoc k (sl_pool sl) <> None -> assoc k (sl_pool sl') <> None)).
  { intros u Eu. destruct (String.eqb u "" && draft_eqb (sl_draft sl) Hybrid)%bool eqn:Eb; [cbn; intros <-; split; auto|]. cbv zeta.
    assert (EM : meta_url w sl doc = if (String.eqb u "") then GetSchemaURL (sl_draft sl) else u).
    { unfold meta_url. rewrite <- Eu. destruct (String.eqb u ""); auto. }
    assert (NM : meta_url w sl doc <> "").
    { rewrite EM. destruct (String.eqb_spec u ""); [destruct (sl_draft sl); discriminate|assumption]. }
    rewrite <- EM. intros EO.
    assert (X : exists sl1, outcome_loader (Compile0 w fuel (shift o 0) (with_validate false sl) (LRef 0 (meta_url w sl doc))) sl1 /\ sl_pool sl' = sl_pool sl1).
    { destruct (Compile0 w fuel (shift o 0) (with_validate false sl) (LRef 0 (meta_url w sl doc))) as [sch sl1|e sl1| |]; cbn [lbind] in EO; try destruct EO; [|exists sl1; split; reflexivity].
      exists sl1. split; [reflexivity|]. destruct (validateDocument _ _ _ _ _ _) as [res| |]; cbn [run_out lbind] in EO; try destruct EO. destruct (Valid res); cbn in EO; subst sl'; reflexivity. }
    destruct X as (sl1 & X1 & X2). rewrite X2. apply compile0_enters in X1; [|apply shift_fair; exact F]. destruct X1 as [Y1 Y2]. split; [|exact Y2]. intros k Hk. right. split; [exact NM|exact (Y1 k Hk)]. }
  destruct (sl_auto sl) eqn:Ea; [|apply (K "" eq_refl)].
  destruct (parseSchemaURL (cenv_of w sl) doc) as [x| |] eqn:E; cbn [run_out lbind]; try (intros []; fail). destruct x as [e|[u d]]; cbn [lbind]; [cbn; intros <-; split; auto|].
  apply (K u). eapply url_declared; eauto.
Qed.
Theorem add_checked_enters w fuel o url l sl sl' : fair o -> outcome_loader (AddSchema w fuel o url l sl) sl' ->
  (forall k, assoc k (sl_pool sl') <> None -> assoc k (sl_pool sl) <> None \/
     exists ref doc, w_parse w url = Some ref /\ fst (LoadJSON w l) = Some doc /\ (scope w ref doc k \/ sl_validate sl = true /\ checks w sl doc k)) /\
  (forall k, assoc k (sl_pool sl) <> None -> assoc k (sl_pool sl') <> None).
Proof.
  intros F. unfold AddSchema. destruct (w_parse w url) as [ref|]; [|cbn; intros <-; split; auto].
  destruct (fst (LoadJSON w l)) as [doc|]; [|cbn; intros <-; split; auto]. set (x := if sl_validate sl then _ else _).
  assert (HX : forall sl1, outcome_loader x sl1 -> (forall k, assoc k (sl_pool sl1) <> None -> assoc k (sl_pool sl) <> None \/ sl_validate sl = true /\ checks w sl doc k) /\
    (forall k, assoc k (sl_pool sl) <> None -> assoc k (sl_pool sl1) <> None)).
  { intros sl1. unfold x. destruct (sl_validate sl); [|cbn; intros <-; split; auto]. intros EX. apply meta_enters in EX; [|apply shift_fair; exact F].
    destruct EX as [E1 E2]. split; [|exact E2]. intros k Hk. destruct (E1 k Hk); auto. }
  clearbody x. destruct x as [u sl1|e sl1| |]; cbn [lbind]; try (intros []; fail).
  - destruct (HX sl1 eq_refl) as [X1 X2]. unfold pool_parseReferences.
    destruct (parseReferences (cenv_of w sl1) (shift o 1) doc ref true (sl_pool sl1)) as [r| |] eqn:E; cbn [run_out lbind]; try (intros []; fail). intros EO.
    destruct (references_enter w _ sl1 doc ref true r (shift_fair _ _ F) E) as [H1 H2].
    assert (EP : sl_pool sl' = pr_pool r) by (destruct (pr_err r); cbn in EO; subst sl'; reflexivity). rewrite EP. split; [|intros k Hk; apply H2; apply X2; exact Hk].
    intros k Hk. destruct (H1 k Hk) as [K|K]; [destruct (X1 k K) as [K1|K1]; [left; exact K1|]|]; right; exists ref, doc; auto.
  - destruct (HX sl1 eq_refl) as [X1 X2]. cbn. intros <-. split; [|exact X2]. intros k Hk. destruct (X1 k Hk) as [K|K]; [left; exact K|right; exists ref, doc; auto].
Qed.
(** A loader that holds all that may be asked for. *)
Theorem offline w w' fuel o sl l : web_laws w -> meta_urls w -> fair o ->
  w_go w' = w_go w -> w_parse w' = w_parse w -> w_inherits w' = w_inherits w -> w_strip w' = w_strip w ->
  w_fragment w' = w_fragment w -> w_canonical w' = w_canonical w -> (JsonReference w l = Some "" -> fst (LoadJSON w' l) = fst (LoadJSON w l)) ->
  (forall r, asked w sl l r -> w_canonical w r = true -> held w sl r) -> Compile w' fuel o sl l = Compile w fuel o sl l.
Proof.
  intros HW HM F H1 H2 H3 H4 H5 H6 HL H. apply compile_asks; auto.
  split; [exact H1|split; [exact H2|split; [exact H3|split; [exact H4|split; [exact H5|split; [exact H6|split; [exact HL|]]]]]]].
  intros fs r _ HA C N. destruct (N (H r HA C)).
Qed.
(** A text that refers to nothing. *)
Scheme asked_both := Minimality for asked Sort Prop with seen_both := Minimality for seen Sort Prop.
Combined Scheme asked_seen from asked_both, seen_both.
Definition given_text (l : loader) : Prop := match l with LRef _ _ => False | _ => True end.
Theorem text_asks w w' fuel o l sl doc : web_laws w -> meta_urls w -> w_canonical w "" = false -> fair o ->
  w_go w' = w_go w -> w_parse w' = w_parse w -> w_inherits w' = w_inherits w -> w_strip w' = w_strip w ->
  w_fragment w' = w_fragment w -> w_canonical w' = w_canonical w ->
  given_text l -> w_parse w "#" = Some "" -> fst (LoadJSON w l) = Some doc -> sl_validate sl = false ->
  (forall s, ~ says doc "$ref" s) -> (forall k e s, In (k, e) (sl_pool sl) -> ~ says (sp_doc e) "$ref" s) ->
  Compile w' fuel o sl l = Compile w fuel o sl l.
Proof.
  intros HW HM Hc F H1 H2 H3 H4 H5 H6 Ht Hh HL Hv Hd Hp. apply compile_asks; auto.
  assert (EJ : JsonReference w l = Some "") by (destruct l; auto; destruct Ht).
  assert (X : (forall r, asked w sl l r -> r = "") /\ (forall b d, seen w sl l b d -> d = doc)).
  { apply (asked_seen w sl l (fun r => r = "") (fun _ d => d = doc)); try (intros; congruence).
    - intros base d s r _ -> Hs. destruct (Hd s Hs).
    - intros base d s r b a r' _ -> Hs. destruct (Hd s Hs).
    - intros k e s r Hi Hs. destruct (Hp k e s Hi Hs). }
  destruct X as [X _]. repeat match goal with |- _ /\ _ => split end; auto.
  split; [auto|split; [auto|split; [auto|split; [auto|split; [auto|split; [auto|split]]]]]].
  - intros _. destruct l; auto. destruct Ht.
  - intros fs r _ HA C _. apply X in HA. subst. congruence.
Qed.

(** ** Computing what may be asked for *)
Fixpoint objects (v : value) : list (list (string * value)) :=
  match v with
  | VArr l => flat_map objects l
  | VMap m => m :: flat_map (fun e => objects (snd e)) m
  | _ => []
  end.
Lemma objects_within m v : within (VMap m) v -> In m (objects v).
Proof.
  intros H. remember (VMap m) as x eqn:E. induction H as [|l y Hi Hw IH|m' k y Hi Hw IH]; subst.
  - left. reflexivity.
  - cbn [objects]. apply in_flat_map. eauto.
  - cbn [objects]. right. apply in_flat_map. exists (k, y). auto.
Qed.
Definition said (k : string) (v : value) : list string :=
  flat_map (fun m => flat_map (fun e => match snd e with VStr s => if String.eqb (fst e) k then [s] else [] | _ => [] end) m) (objects v).
Lemma said_says k v s : says v k s -> In s (said k v).
Proof.
  intros (m & Hw & Hi). apply in_flat_map. exists m. split; [apply objects_within; auto|]. apply in_flat_map. exists (k, VStr s). split; auto. cbn. rewrite String.eqb_refl. left. auto.
Qed.
Definition opt {T} (x : option T) : list T := match x with Some y => [y] | None => [] end.
Definition isin (l : list string) (s : string) : bool := existsb (String.eqb s) l.
Lemma isin_In l s : isin l s = true -> In s l.
Proof. intros H. apply existsb_exists in H. destruct H as (x & Hx & E). apply String.eqb_eq in E. subst. auto. Qed.
Definition plus (l add : list string) : list string := fold_left (fun acc s => if isin acc s then acc else acc ++ [s]) add l.
Fixpoint iterate {T} (n : nat) (g : T -> T) (x : T) : T := match n with O => x | S n => iterate n g (g x) end.
Section Compute.
  Variables (w : world) (sl : sloader) (l : loader).
  Definition scope_next (doc : value) (bs : list string) : list string :=
    flat_map (fun s => flat_map (fun r => flat_map (fun b => opt (w_inherits w b r)) bs) (opt (w_parse w s))) (said "id" doc ++ said "$id" doc).
  Definition scopes (base : string) (doc : value) : list string := iterate 5 (fun bs => plus bs (scope_next doc bs)) [base].
  Definition scopes_b (base : string) (doc : value) : bool := (isin (scopes base doc) base && forallb (isin (scopes base doc)) (scope_next doc (scopes base doc)))%bool.
  Lemma scopes_checked base doc b : scopes_b base doc = true -> scope w base doc b -> In b (scopes base doc).
  Proof.
    intros H. apply andb_prop in H. destruct H as [H1 H2]. rewrite forallb_forall in H2. induction 1 as [|b k s r b' Hb IH Hk Hs P1 P2]; [apply isin_In; auto|].
    apply isin_In. apply H2. apply in_flat_map. exists s. split; [apply in_app_iff; destruct Hk as [->| ->]; [left|right]; apply said_says; auto|].
    rewrite P1. cbn [opt flat_map]. rewrite app_nil_r. apply in_flat_map. exists b. split; auto. rewrite P2. left. auto.
  Qed.
  Definition docs_at (us : list string) : list (string * value) :=
    match JsonReference w l with Some "" => map (pair "") (opt (fst (LoadJSON w l))) | _ => [] end ++
    flat_map (fun fs => flat_map (fun r => if w_canonical w r then map (pair (w_strip w r)) (opt (loadReference w fs r)) else []) us) [0; LoaderFactory l].
  Definition next_of (d : string * value) : list string :=
    flat_map (fun s => flat_map (fun r => r :: flat_map (fun b => flat_map (fun a => opt (w_parse w a)) (opt (w_inherits w b r))) (scopes (fst d) (snd d))) (opt (w_parse w s))) (said "$ref" (snd d)) ++
    (if (sl_validate sl && sl_auto sl)%bool then flat_map (fun s => opt (w_parse w s)) (said "$schema" (snd d)) else []).
  Definition held_says : list string :=
    flat_map (fun e => flat_map (fun s => opt (w_parse w s)) (said "$ref" (sp_doc (snd e)) ++ if (sl_validate sl && sl_auto sl)%bool then said "$schema" (sp_doc (snd e)) else [])) (sl_pool sl).
  Definition next (us : list string) : list string :=
    opt (JsonReference w l) ++ (if sl_validate sl then [GetSchemaURL (sl_draft sl)] else []) ++ flat_map next_of (docs_at us) ++ held_says.
  Definition asks (n : nat) : list string := iterate n (fun us => plus us (next us)) [].
  Definition closed_b (us : list string) : bool :=
    (forallb (isin us) (next us) && forallb (fun d => scopes_b (fst d) (snd d)) (docs_at us))%bool.
  Lemma both_checked us : closed_b us = true -> (forall r, asked w sl l r -> In r us) /\ (forall b d, seen w sl l b d -> In (b, d) (docs_at us)).
  Proof.
    intros H. unfold closed_b in H. rewrite !andb_true_iff in H. destruct H as [H1 H2]. rewrite forallb_forall in H1, H2.
    assert (Y : forall b d r, In (b, d) (docs_at us) -> In r (next_of (b, d)) -> In r us).
    { intros b d r Hd Hr. apply isin_In. apply H1. unfold next. rewrite !in_app_iff. right. right. left. apply in_flat_map. eauto. }
    assert (Z : forall r, In r held_says -> In r us) by (intros r Hr; apply isin_In; apply H1; unfold next; rewrite !in_app_iff; right; right; right; exact Hr).
    apply (asked_seen w sl l (fun r => In r us) (fun b d => In (b, d) (docs_at us))).
    - intros r E. apply isin_In. apply H1. unfold next. rewrite E. left. reflexivity.
    - intros base doc s r _ Hd Hs P. apply (Y base doc); auto. unfold next_of. apply in_app_iff. left. apply in_flat_map. exists s. split; [apply said_says; auto|].
      rewrite P. left. reflexivity.
    - intros base doc s r b a r' _ Hd Hs P Hb P2 P3. apply (Y base doc); auto. unfold next_of. apply in_app_iff. left. apply in_flat_map. exists s. split; [apply said_says; auto|].
      rewrite P. cbn [opt flat_map]. rewrite app_nil_r. right. apply in_flat_map. exists b. split; [apply scopes_checked; auto; exact (H2 _ Hd)|]. rewrite P2. cbn [opt flat_map]. rewrite app_nil_r, P3. left. reflexivity.
    - intros k e s r Hi Hs P. apply Z. apply in_flat_map. exists (k, e). split; auto. apply in_flat_map. exists s. split; [apply in_app_iff; left; apply said_says; auto|]. rewrite P. left. reflexivity.
    - intros base doc s r Hv Ha _ Hd Hs P. apply (Y base doc); auto. unfold next_of. apply in_app_iff. right. rewrite Hv, Ha. cbn [andb]. apply in_flat_map. exists s. split; [apply said_says; auto|].
      rewrite P. left. reflexivity.
    - intros k e s r Hv Ha Hi Hs P. apply Z. apply in_flat_map. exists (k, e). split; auto. apply in_flat_map. exists s. split; [apply in_app_iff; right; rewrite Hv, Ha; apply said_says; auto|]. rewrite P. left. reflexivity.
    - intros Hv. apply isin_In. apply H1. unfold next. rewrite !in_app_iff, Hv. right. left. left. reflexivity.
    - intros doc EJ EL. unfold docs_at. rewrite EJ, EL. left. reflexivity.
    - intros fs r doc Hf _ Hr Hc _ EL. unfold docs_at. apply in_app_iff. right. apply in_flat_map. exists fs. split; [destruct Hf as [->| ->]; [left|right; left]; auto|].
      apply in_flat_map. exists r. split; auto. rewrite Hc, EL. left. reflexivity.
  Qed.
  Theorem asks_checked us : closed_b us = true -> forall r, asked w sl l r -> In r us.
  Proof. intros H. apply (both_checked us H). Qed.
  Definition entries (us : list string) : list string := map fst (sl_pool sl) ++ us ++ flat_map (fun d => scopes (fst d) (snd d)) (docs_at us).
  Theorem entries_checked us : closed_b us = true -> forall k, entered w sl l k -> In k (entries us).
  Proof.
    intros H k. pose proof H as H0. unfold closed_b in H0. apply andb_prop in H0. destruct H0 as [_ H2]. rewrite forallb_forall in H2.
    destruct (both_checked us H) as [X Y]. unfold entries. rewrite !in_app_iff. intros [Hk|[Hk|(base & doc & Hk & Hs)]].
    - left. destruct (assoc k (sl_pool sl)) as [e|] eqn:E; [|destruct (Hk eq_refl)]. apply assoc_In in E. apply in_map_iff. exists (k, e). auto.
    - right. left. auto.
    - right. right. apply Y in Hk. apply in_flat_map. exists (base, doc). split; auto. apply scopes_checked; [exact (H2 _ Hk)|exact Hs].
  Qed.
End Compute.
