(** Keywords that speak about one kind of instance, and keywords a draft does not know. *)
From Coq Require Import Lia.
From Verif Require Import CompileSem CompileRefs CompileFetch LoadFetch Meaning.
From Verif Require Export LoadAlike LogicProps ReadingProps SpecKinds.
Open Scope string_scope.
Open Scope list_scope.
Open Scope nat_scope.

(** ** Kinds *)
Section Kinds.
  Variable pat : string -> string -> Prop.
  Variable fmt : string -> value -> Prop.
  Variable same : value -> value -> Prop.
  Variable V : draft -> value -> value -> Prop.

  Lemma not_num v : ~ of_kind Numbers v -> forall q, ~ is_num v q.
  Proof. intros N q (s & -> & _). apply N. exact I. Qed.
  Lemma kind_keywords k d m m' v : ~ of_kind k v -> (forall key, ~ In key (keywords_on k) -> assoc key m = assoc key m') ->
    keywords pat fmt same V d m v -> keywords pat fmt same V d m' v.
  Proof.
    intros N E H. unfold keywords in *.
    assert (A : forall key, existsb (String.eqb key) (keywords_on k) = false -> assoc key m = assoc key m').
    { intros key X. apply E. intros I. apply Bool.not_true_iff_false in X. apply X. apply existsb_exists. exists key. split; auto. apply String.eqb_refl. }
    clear E. destruct H as (K1 & K2 & K3 & K4 & K5 & K6 & K7 & K8 & K9 & K10 & K11 & K12 & K13 & K14 & K15 & K16 & K17 & K18 & K19 & K20 & K21 & K22 & K23 & K24 & K25 & K26 & K27 & K28 & K29 & K30 & K31).
    assert (G : s_type m' v /\ s_const same d m' v /\ s_enum same m' v /\ s_format fmt m' v /\ s_allOf V d m' v /\ s_anyOf V d m' v /\ s_oneOf V d m' v /\ s_not V d m' v /\ s_if V d m' v).
    { pose proof (A "type") as E1. pose proof (A "const") as E2. pose proof (A "enum") as E3. pose proof (A "format") as E4. pose proof (A "allOf") as E5. pose proof (A "anyOf") as E6.
      pose proof (A "oneOf") as E7. pose proof (A "not") as E8. pose proof (A "if") as E9. pose proof (A "then") as E10. pose proof (A "else") as E11.
      unfold s_type, s_const, s_enum, s_format, s_allOf, s_anyOf, s_oneOf, s_not, s_if, kw in *.
      rewrite <- E1, <- E2, <- E3, <- E4, <- E5, <- E6, <- E7, <- E8, <- E9, <- E10, <- E11 by (destruct k; reflexivity). tauto. }
    assert (G1 : s_multipleOf m' v /\ s_maximum d m' v /\ s_minimum d m' v /\ s_exclusiveMaximum d m' v /\ s_exclusiveMinimum d m' v).
    { destruct k; [pose proof (not_num v N) as Nn; repeat split; repeat intro; exfalso; eapply Nn; eauto|..];
        pose proof (A "multipleOf" eq_refl) as E1; pose proof (A "maximum" eq_refl) as E2; pose proof (A "minimum" eq_refl) as E3; pose proof (A "exclusiveMaximum" eq_refl) as E4; pose proof (A "exclusiveMinimum" eq_refl) as E5;
        unfold s_multipleOf, s_maximum, s_minimum, s_exclusiveMaximum, s_exclusiveMinimum, strict, kw in *; rewrite <- E1, <- E2, <- E3, <- E4, <- E5; tauto. }
    assert (G2 : s_maxLength m' v /\ s_minLength m' v /\ s_pattern pat m' v).
    { destruct k; [|repeat split; repeat intro; subst; exfalso; apply N; exact I|..];
        pose proof (A "maxLength" eq_refl) as E1; pose proof (A "minLength" eq_refl) as E2; pose proof (A "pattern" eq_refl) as E3;
        unfold s_maxLength, s_minLength, s_pattern, kw in *; rewrite <- E1, <- E2, <- E3; tauto. }
    assert (G3 : s_items V d m' v /\ s_additionalItems V d m' v /\ s_maxItems m' v /\ s_minItems m' v /\ s_uniqueItems same m' v /\ s_contains V d m' v).
    { destruct k; [| |unfold s_items, s_additionalItems, s_maxItems, s_minItems, s_uniqueItems, s_contains, kw; repeat match goal with |- _ /\ _ => split end; intros; subst; exfalso; apply N; exact I|];
        pose proof (A "items" eq_refl) as E1; pose proof (A "additionalItems" eq_refl) as E2; pose proof (A "maxItems" eq_refl) as E3; pose proof (A "minItems" eq_refl) as E4; pose proof (A "uniqueItems" eq_refl) as E5; pose proof (A "contains" eq_refl) as E6;
        unfold s_items, s_additionalItems, s_maxItems, s_minItems, s_uniqueItems, s_contains, kw in *; rewrite <- E1, <- E2, <- E3, <- E4, <- E5, <- E6; tauto. }
    assert (G4 : s_maxProperties m' v /\ s_minProperties m' v /\ s_required m' v /\ s_properties V d m' v /\ s_patternProperties pat V d m' v /\
      s_additionalProperties pat V d m' v /\ s_propertyNames V d m' v /\ s_dependencies V d m' v).
    { destruct k; [| | |unfold s_maxProperties, s_minProperties, s_required, s_properties, s_patternProperties, s_additionalProperties, s_propertyNames, s_dependencies, kw;
          repeat match goal with |- _ /\ _ => split end; intros; subst; exfalso; apply N; exact I];
        pose proof (A "maxProperties" eq_refl) as E1; pose proof (A "minProperties" eq_refl) as E2; pose proof (A "required" eq_refl) as E3; pose proof (A "properties" eq_refl) as E4; pose proof (A "patternProperties" eq_refl) as E5; pose proof (A "additionalProperties" eq_refl) as E6;
        pose proof (A "propertyNames" eq_refl) as E7; pose proof (A "dependencies" eq_refl) as E8;
        unfold s_maxProperties, s_minProperties, s_required, s_properties, s_patternProperties, s_additionalProperties, s_propertyNames, s_dependencies, additional, kw in *; rewrite <- E1, <- E2, <- E3, <- E4, <- E5, <- E6, <- E7, <- E8; tauto. }
    tauto.
  Qed.
  Lemma no_keywords d m v : (forall key, In key (keywords_on_all ++ keywords_on Numbers ++ keywords_on Strings ++ keywords_on Arrays ++ keywords_on Objects) -> assoc key m = None) ->
    keywords pat fmt same V d m v.
  Proof.
    intros E.
    assert (A : forall key P, existsb (String.eqb key) (keywords_on_all ++ keywords_on Numbers ++ keywords_on Strings ++ keywords_on Arrays ++ keywords_on Objects) = true -> kw m key P).
    { intros key P X x Ex. rewrite E in Ex; [discriminate|]. apply existsb_exists in X. destruct X as (y & Hy & X). apply String.eqb_eq in X. subst. auto. }
    unfold keywords. repeat match goal with |- _ /\ _ => split end; try (apply A; reflexivity); intros ?; apply A; reflexivity.
  Qed.
  (** An object whose keywords all speak about another kind says nothing. *)
  Lemma other_kind k d m v : ~ of_kind k v ->
    (forall key, In key (keywords_on_all ++ keywords_on Numbers ++ keywords_on Strings ++ keywords_on Arrays ++ keywords_on Objects) -> assoc key m <> None -> In key (keywords_on k)) ->
    keywords pat fmt same V d m v.
  Proof.
    intros N H. apply (kind_keywords k d (filter (fun e => negb (existsb (String.eqb (fst e)) (keywords_on k))) m) m v N).
    - clear H. intros key Hk. induction m as [|[a x] m IH]; auto. cbn [filter fst]. destruct (existsb (String.eqb a) (keywords_on k)) eqn:Ea; cbn [negb assoc]; rewrite IH; auto.
      destruct (String.eqb_spec key a) as [->|]; auto.
      exfalso. apply Hk. apply existsb_exists in Ea. destruct Ea as (y & Hy & E). apply String.eqb_eq in E. subst. auto.
    - apply no_keywords. intros key I. destruct (assoc key (filter _ m)) as [x|] eqn:E; auto. exfalso. apply assoc_In in E. apply filter_In in E. destruct E as [E X]. cbn [fst] in X.
      assert (Hn : assoc key m <> None) by (apply assoc_present; apply in_map_iff; exists (key, x); auto). specialize (H key I Hn).
      rewrite (proj2 (existsb_exists _ _)) in X; [discriminate|]. exists key. split; auto. apply String.eqb_refl.
  Qed.
End Kinds.

Lemma needed_range T d0 s0 v0 d s v : in_float_range v0 -> needed T d0 s0 v0 d s v -> in_float_range v.
Proof.
  intros H N. induction N as [|d s v d' s' v' N IH A]; auto. destruct A as [| |d m l x e _ _ Hi|d m o x k e _ _ Hi|]; auto.
  - inversion IH as [| | | | |? F|]; subst. rewrite Forall_forall in F. exact (F _ Hi).
  - inversion IH as [| | | | | |? F]; subst. rewrite Forall_forall in F. apply (F _ Hi).
  - constructor.
Qed.

Section Documents.
  Variable w : world.
  Hypothesis HU : url_laws w.
  Notation go := (w_go w).
  Notation lim := (e_ratlim go).

  Theorem other_kind_document (HW : web_laws w) fuel o sl l p m sch sl' :
    fair o -> loader_fit l -> sl_ok sl -> sl_validate sl = false -> source w sl l p (VMap m) ->
    let d := root_draft w sl (VMap m) in
    all_found (view w sl l) p (VMap m) -> settled_in (SpecFetch.found (view w sl l) p (VMap m)) d ->
    Compile w fuel o sl l = LOk sch sl' ->
    guarded (heads_to (view w sl l) p (VMap m) d) d (VMap m) ->
    forall k, (forall r, assoc "$ref" m <> Some (VStr r)) ->
    (forall key, In key (keywords_on_all ++ keywords_on Numbers ++ keywords_on Strings ++ keywords_on Arrays ++ keywords_on Objects) -> assoc key m <> None -> In key (keywords_on k)) ->
    forall v, ordinary lim v -> ~ of_kind k v ->
    forall o', fair o' -> exists r, returns go (s_heap sch) (s_root sch) o' v r /\ Valid r = true.
  Proof.
    intros F Hfit Hs Hv S d Hc Hset E G k Nr Hk v O Nk o' F'.
    destruct (compile_source w HU HW fuel o sl l p _ F Hfit Hs Hv S) as [(_ & D & _) _].
    destruct (guarded_reading lim (pat go) (fmt go) same _ d (VMap m) G v) as [M _].
    destruct (source_reads w HU HW fuel o sl l p _ sch sl' F Hfit Hs Hv S Hc Hset E G v (ordinary_usual _ _ O)) with (V := reading lim (pat go) (fmt go) same (heads_to (view w sl l) p (VMap m) d)) (o' := o') as (r & R & X); auto.
    - intros d' m' x N _ _. eapply needed_range; [apply O|exact N].
    - exists r. split; auto. apply X. apply M; [constructor|]. cbn [read_sem].
      assert (H : exists m', heeded lim m m' /\ keywords (pat go) (fmt go) same (reading lim (pat go) (fmt go) same (heads_to (view w sl l) p (VMap m) d)) d m' v).
      { exists (heed lim m). split; [apply heed_heeded; auto|]. apply (other_kind _ _ _ _ k); auto. intros key I Hn. apply Hk; auto. intros En.
        apply Hn. destruct (assoc key (heed lim m)) as [y|] eqn:Ey; auto. rewrite (heed_sub _ _ _ _ D Ey) in En. discriminate. }
      destruct (assoc "$ref" m) as [y|] eqn:Ey; auto. destruct y as [| | | |r0| | |]; auto. destruct (Nr r0 eq_refl).
  Qed.

  (** What the drafts added, in force. *)
  Theorem heard_document (HW : web_laws w) fuel o sl l p m sch sl' :
    fair o -> loader_fit l -> sl_ok sl -> sl_validate sl = false -> source w sl l p (VMap m) ->
    let d := root_draft w sl (VMap m) in
    all_found (view w sl l) p (VMap m) -> settled_in (SpecFetch.found (view w sl l) p (VMap m)) d ->
    Compile w fuel o sl l = LOk sch sl' ->
    let T := heads_to (view w sl l) p (VMap m) d in
    guarded T d (VMap m) -> (forall r, assoc "$ref" m <> Some (VStr r)) ->
    forall v, ordinary lim v -> forall V, reading_at lim (pat go) (fmt go) same T d (VMap m) v V ->
    forall o', fair o' -> exists r, returns go (s_heap sch) (s_root sch) o' v r /\ (Valid r = true ->
      s_const same d m v /\ s_contains V d m v /\ s_propertyNames V d m v /\ s_if V d m v /\
      forall a q, is_num v q ->
        (d = Draft4 \/ d = Hybrid -> forall x, is_num x a ->
          (assoc "minimum" m = Some x -> assoc "exclusiveMinimum" m = Some (VBool true) -> (a < q)%Q) /\
          (assoc "maximum" m = Some x -> assoc "exclusiveMaximum" m = Some (VBool true) -> (q < a)%Q)) /\
        (since6 d -> forall t, moderate lim t -> denotes t a ->
          (assoc "exclusiveMinimum" m = Some (VNum t) -> (a < q)%Q) /\ (assoc "exclusiveMaximum" m = Some (VNum t) -> (q < a)%Q))).
  Proof.
    intros F Hfit Hs Hv S d Hc Hset E T G Nr v O V M o' F'.
    destruct (compile_source w HU HW fuel o sl l p _ F Hfit Hs Hv S) as [(_ & D & _) _].
    destruct (source_reads w HU HW fuel o sl l p _ sch sl' F Hfit Hs Hv S Hc Hset E G v (ordinary_usual _ _ O)) with (V := V) (o' := o') as (r & R & X); auto.
    - intros d' m' x N _ _. eapply needed_range; [apply O|exact N].
    - exists r. split; auto. intros Va. apply X in Va. apply M in Va; [|constructor]. cbn [read_sem] in Va.
      assert (H : exists m', heeded lim m m' /\ keywords (pat go) (fmt go) same V d m' v).
      { destruct (assoc "$ref" m) as [y|] eqn:Ey; auto. destruct y as [| | | |r0| | |]; auto. destruct (Nr r0 eq_refl). }
      destruct H as (m' & H & K).
      assert (B : forall k x, assoc k m = Some x -> ~ unheeded lim k x -> assoc k m' = Some x) by (intros k x; intros; apply H; auto).
      assert (B' : forall k x, ~ In k ["type"; "enum"; "anyOf"; "oneOf"; "items"; "exclusiveMinimum"; "exclusiveMaximum"] -> assoc k m = Some x -> assoc k m' = Some x).
      { intros k x Hk Ex. apply B; auto. intros Hu. apply Hk. destruct Hu; cbn [In] in *; tauto. }
      destruct K as (_ & K2 & _ & _ & _ & _ & _ & _ & K9 & _ & K11 & K12 & K13 & K14 & _ & _ & _ & _ & _ & _ & _ & _ & K23 & _ & _ & _ & _ & _ & _ & K30 & _).
      assert (KW : forall k (P : value -> Prop), ~ In k ["type"; "enum"; "anyOf"; "oneOf"; "items"; "exclusiveMinimum"; "exclusiveMaximum"] -> kw m' k P -> kw m k P) by (intros k P Hk Hp x Ex; apply Hp; auto).
      split; [intros S6; apply KW; [cbn; intuition discriminate|exact (K2 S6)]|]. split; [intros S6; apply KW; [cbn; intuition discriminate|exact (K23 S6)]|].
      split; [intros S6; apply KW; [cbn; intuition discriminate|exact (K30 S6)]|]. split.
      + intros S7 i Ei. destruct (K9 S7 i) as [K9a K9b]; [apply B'; [cbn; intuition discriminate|auto]|].
        split; intros Hi; [apply (KW "then")|apply (KW "else")]; try (cbn; intuition discriminate); auto.
      + intros a q Hq. split.
        * intros Hd x Hx. split; intros E1 E2.
          -- refine (proj2 (K12 x _ q a Hq Hx) (conj Hd _)); [apply B'; [cbn; intuition discriminate|auto]|]. apply B; auto. intros Hu. inversion Hu.
          -- refine (proj2 (K11 x _ q a Hq Hx) (conj Hd _)); [apply B'; [cbn; intuition discriminate|auto]|]. apply B; auto. intros Hu. inversion Hu.
        * intros S6 t Ht Da. split; intros E1.
          -- apply (K14 S6 (VNum t)); [apply B; auto; intros Hu; inversion Hu; contradiction|auto|exists t; auto].
          -- apply (K13 S6 (VNum t)); [apply B; auto; intros Hu; inversion Hu; contradiction|auto|exists t; auto].
  Qed.

  (** Two documents that differ in the keywords of one kind only. *)
  Theorem kind_isolated k m m' v : simple w (VMap m) -> simple w (VMap m') ->
    (forall key, ~ In key (keywords_on k) -> assoc key m = assoc key m') ->
    usual lim v -> fitting w (VMap m) v -> fitting w (VMap m') v -> ~ of_kind k v ->
    exists b, verdict w (VMap m) v b /\ verdict w (VMap m') v b.
  Proof.
    intros (B & D & N & X) (B' & D' & N' & X') E U FT FT' Nk.
    destruct (bare_decided w HU _ B D N X v U FT) as (b & H & Hb). destruct (bare_decided w HU _ B' D' N' X' v U FT') as (b' & H' & Hb').
    assert (Y : forall m m', (forall key, ~ In key (keywords_on k) -> assoc key m = assoc key m') -> bare (VMap m) -> bare (VMap m') ->
      meaning (pat go) (fmt go) same nowhere Hybrid (VMap m) v -> meaning (pat go) (fmt go) same nowhere Hybrid (VMap m') v).
    { intros a a' Ea [Ba _] [Ba' _] Ma. apply meaning_rules; [eapply guarded_well_founded; [apply free_guarded; exact Ba'|constructor]|].
      apply meaning_rules in Ma; [|eapply guarded_well_founded; [apply free_guarded; exact Ba|constructor]]. cbn [schema_sem] in *.
      pose proof (fun r => free_no_ref (VMap a) a r Ba (inside_refl _)) as R1. pose proof (fun r => free_no_ref (VMap a') a' r Ba' (inside_refl _)) as R2.
      destruct (assoc "$ref" a) as [y|] eqn:Ey; [destruct y as [| | | |r0| | |]|]; try (destruct (R1 r0 eq_refl); fail);
      (destruct (assoc "$ref" a') as [y'|] eqn:Ey'; [destruct y' as [| | | |r1| | |]|]; try (destruct (R2 r1 eq_refl); fail));
      exact (kind_keywords _ _ _ _ k Hybrid a a' v Nk Ea Ma). }
    exists b. split; auto. replace b with b'; auto.
    assert (b = true <-> b' = true) by (rewrite Hb, Hb'; split; apply Y; auto; intros key Hk; symmetry; auto).
    destruct H0 as [Y1 Y2], b, b'; auto; (discriminate (Y1 eq_refl) || discriminate (Y2 eq_refl)).
  Qed.
End Documents.

(** ** Keywords a draft does not know *)
Section Trim.
  Variable d : draft.
  Definition trim_part (k : string) (x : value) : value :=
    if existsb (String.eqb k) ["properties"; "patternProperties"; "dependencies"] then
      match x with VMap c => VMap (map (fun e' : string * value => (fst e', trim d (snd e'))) c) | _ => x end
    else if existsb (String.eqb k) ["items"; "allOf"; "anyOf"; "oneOf"] then
      match x with VArr l => VArr (map (trim d) l) | _ => trim d x end
    else if existsb (String.eqb k) ["additionalItems"; "additionalProperties"; "contains"; "propertyNames"; "not"; "if"; "then"; "else"] then trim d x
    else x.
  Definition trim_map (m : list (string * value)) : list (string * value) :=
    flat_map (fun e : string * value => if known d (fst e) then [(fst e, trim_part (fst e) (snd e))] else []) m.
  Lemma trim_eq m : trim d (VMap m) = VMap (trim_map m).
  Proof.
    cbn [trim]. f_equal. apply flat_map_ext. intros [k x]. cbn [fst snd]. destruct (known d k); auto. do 2 f_equal. unfold trim_part.
    destruct (existsb _ _); [|reflexivity]. destruct x; auto. f_equal. apply map_ext. intros [n y]. reflexivity.
  Qed.
  Lemma trim_map_cons e m : trim_map (e :: m) = if known d (fst e) then (fst e, trim_part (fst e) (snd e)) :: trim_map m else trim_map m.
  Proof. unfold trim_map. cbn [flat_map]. destruct (known d (fst e)); reflexivity. Qed.
  Lemma assoc_trim m k : assoc k (trim_map m) = if known d k then option_map (trim_part k) (assoc k m) else None.
  Proof.
    induction m as [|[a x] m IH]; [cbn [trim_map flat_map assoc option_map]; destruct (known d k); reflexivity|]. rewrite trim_map_cons. cbn [fst snd]. destruct (known d a) eqn:Ka; cbn [assoc]; rewrite IH;
      destruct (String.eqb_spec k a) as [->|]; rewrite ?Ka; reflexivity.
  Qed.
  Lemma In_trim k y m : In (k, y) (trim_map m) -> exists x, In (k, x) m /\ known d k = true /\ y = trim_part k x.
  Proof.
    intros H. apply in_flat_map in H. destruct H as ([a x] & Hi & H). cbn [fst snd] in H. destruct (known d a) eqn:Ka; [|destruct H]. destruct H as [H|[]]. injection H as <- <-. eauto.
  Qed.
  Lemma NoDup_trim m : NoDup (map fst m) -> NoDup (map fst (trim_map m)).
  Proof.
    induction m as [|[a x] m IH]; intros H; [constructor|]. inversion H; subst. rewrite trim_map_cons. cbn [fst snd]. destruct (known d a); auto. cbn [map fst]. constructor; auto.
    intros I. apply in_map_iff in I. destruct I as ([b y] & E & I). cbn [fst] in E. subst b. apply In_trim in I. destruct I as (z & Hz & _). apply H2. apply in_map_iff. exists (a, z). auto.
  Qed.
  Lemma trim_str v t : trim d v = VStr t -> v = VStr t.
  Proof. destruct v; auto. rewrite trim_eq. discriminate. Qed.
  Lemma trim_part_str k v t : trim_part k v = VStr t -> v = VStr t.
  Proof.
    unfold trim_part. destruct (existsb _ _); [destruct v; auto; discriminate|]. destruct (existsb _ _); [destruct v; auto; try discriminate; apply trim_str|].
    destruct (existsb _ _); auto. apply trim_str.
  Qed.

  Section Lift.
    Variable P : value -> Prop.
    Hypothesis Parr : forall l, P (VArr l) <-> Forall P l.
    Hypothesis Pmap : forall m k x, P (VMap m) -> In (k, x) m -> P x.
    Hypothesis Pmake : forall m m', P (VMap m) -> (NoDup (map fst m) -> NoDup (map fst m')) ->
      (forall k y, In (k, y) m' -> P y /\ exists x, In (k, x) m /\ forall t, y = VStr t -> x = VStr t) -> P (VMap m').
    Lemma trim_lift n : forall v, vsize v < n -> P v -> P (trim d v).
    Proof.
      induction n as [|n IH]; intros v L H; [lia|]. destruct v as [| | | | |l|m|]; auto. rewrite trim_eq. apply (Pmake m); auto; [apply NoDup_trim|].
      intros k y Hi. apply In_trim in Hi. destruct Hi as (x & Hx & _ & ->). split; [|exists x; split; auto; intros t; apply trim_part_str].
      pose proof (vsize_member _ _ _ Hx) as [Sx _]. pose proof (Pmap _ _ _ H Hx) as Px. unfold trim_part.
      destruct (existsb _ _); [|destruct (existsb _ _); [|destruct (existsb _ _); auto; apply IH; auto; lia]].
      - destruct x as [| | | | | |c|]; auto. apply (Pmake c); auto; [rewrite map_map; cbn [fst]; auto|]. intros k' y' Hi. apply in_map_iff in Hi. destruct Hi as ([k0 z] & E & Hi). injection E as <- <-.
        split; [|exists z; split; auto; apply trim_str]. cbn [snd]. pose proof (vsize_member _ _ _ Hi) as [Sz _]. apply IH; [lia|]. eapply Pmap; eauto.
      - destruct x as [| | | | |l|m'|]; auto; [|apply IH; auto; lia]. apply Parr. apply Parr in Px. rewrite Forall_forall in *. intros y Hy. apply in_map_iff in Hy. destruct Hy as (z & <- & Hz).
        apply IH; auto. apply vsize_item in Hz. lia.
    Qed.
  End Lift.

  Lemma known_heard k : In k (plain_keywords ++ schema_keywords ++ addl_keywords ++ list_keywords ++ map_keywords ++ ["items"; "dependencies"; "$schema"]) -> heard d k -> known d k = true.
  Proof.
    intros H [H6 H7]. cbn [plain_keywords schema_keywords addl_keywords list_keywords map_keywords app In] in H.
    assert (H6' : d = Draft4 -> ~ In k ["const"; "contains"; "propertyNames"]) by (intros E I; exact (H6 I E)).
    assert (H7' : d = Draft4 \/ d = Draft6 -> ~ In k ["if"; "then"; "else"]) by (intros E I; destruct E as [E|E], (H7 I) as [X|X]; congruence).
    clear H6 H7. cbn [In] in H6', H7'.
    decompose [or] H; try contradiction; subst k; destruct d; first [reflexivity|exfalso; apply H6'; auto; fail|exfalso; apply H7'; auto].
  Qed.
  Lemma always_heard k : ~ In k ["const"; "contains"; "propertyNames"; "if"; "then"; "else"] -> heard d k.
  Proof. intros H. split; intros I; exfalso; apply H; cbn [In] in *; tauto. Qed.
  Ltac told := first [assumption | apply always_heard; cbn [In]; intuition discriminate].

  Variable T : string -> draft -> value -> Prop.
  Variable re : string -> Prop.
  Variable url : string -> Prop.
  Variable same : value -> value -> Prop.
  Notation free v := (forall m k t, inside v (VMap m) -> In k ["$ref"; "$id"; "id"] -> ~ In (k, VStr t) m).
  Notation A := (fun x y => alike T d x d y).

  Lemma trim_list l : (forall x, In x l -> alike T d x d (trim d x)) -> Forall2 A l (map (trim d) l).
  Proof. induction l as [|x l IH]; intros H; constructor; [apply H; left; auto|apply IH; intros y Hy; apply H; right; auto]. Qed.
  Lemma trim_members (P : value -> value -> Prop) c : (forall n x, In (n, x) c -> P x (trim d x)) ->
    map_part P (VMap c) (VMap (map (fun e' : string * value => (fst e', trim d (snd e'))) c)).
  Proof.
    intros H. apply (map_part_map _ _ c); auto. induction c as [|[n x] c IH]; constructor; [split; auto; apply (H n); left; auto|]. apply IH. intros a y Hy. apply (H a). right; auto.
  Qed.
  Theorem trim_alike v : well_formed re url same d v -> free v -> alike T d v d (trim d v).
  Proof.
    induction 1 as [b S|m [HH [HP HS]] W IH]; intros Fr; [apply alike_bool|]. rewrite trim_eq.
    assert (IH' : forall x, subschema d m x -> alike T d x d (trim d x)).
    { intros x Hx. apply IH; auto. eapply free_inside; [exact Fr|]. eapply inside_subschema; eauto. }
    assert (NR : assoc "$ref" m = None).
    { destruct (assoc "$ref" m) as [x|] eqn:E; auto. destruct HH as (_ & _ & _ & _ & R). destruct (R x E) as (s & -> & _). exfalso. eapply free_no_ref; eauto. constructor. }
    assert (K : forall k, In k (plain_keywords ++ schema_keywords ++ addl_keywords ++ list_keywords ++ map_keywords ++ ["items"; "dependencies"; "$schema"]) -> heard d k ->
      assoc k (trim_map m) = option_map (trim_part k) (assoc k m)) by (intros k I Hh; rewrite assoc_trim, known_heard; auto).
    destruct HS as (S1 & S2 & S3 & S4 & S5 & S6 & S7 & S8 & S9).
    apply alike_map; auto.
    - rewrite assoc_trim. destruct d; reflexivity.
    - intros k I Hh. rewrite K; [|apply in_or_app; left; auto|auto]. destruct (assoc k m) as [x|]; auto. cbn [option_map]. f_equal.
      cbn [plain_keywords In] in I. repeat (destruct I as [<-|I]; [reflexivity|]). destruct I.
    - intros k I Hh. rewrite K; [|rewrite !in_app_iff; tauto|auto]. destruct (assoc k m) as [x|] eqn:E; [|constructor]. cbn [option_map]. constructor.
      assert (Hs : subschema d m x).
      { destruct Hh as [H6 H7]. cbn [schema_keywords In] in I. decompose [or] I; subst; try contradiction; first [eapply sub_since6; [apply H6|..|exact E]; simpl; auto; fail|eapply sub_since7; [apply H7|..|exact E]; simpl; auto; fail|eapply sub_not; eauto]. }
      replace (trim_part k x) with (trim d x); auto. cbn [schema_keywords In] in I. decompose [or] I; subst; try contradiction; reflexivity.
    - intros k I. rewrite K; [|rewrite !in_app_iff; tauto|cbn [addl_keywords In] in I; decompose [or] I; subst; try contradiction; told].
      destruct (assoc k m) as [x|] eqn:E; [|constructor]. cbn [option_map]. constructor.
      assert (Hs : is_boolean x \/ is_object x) by (cbn [addl_keywords In] in I; decompose [or] I; subst; try contradiction; auto).
      replace (trim_part k x) with (trim d x); [|cbn [addl_keywords In] in I; decompose [or] I; subst; try contradiction; reflexivity].
      destruct Hs as [[b ->]|[c ->]]; [apply addl_bool|]. rewrite trim_eq. apply addl_schema. rewrite <- trim_eq. apply IH'. apply sub_additional with (k := k); [exact I|exact E|intros [b X]; discriminate].
    - intros k I. rewrite K; [|rewrite !in_app_iff; tauto|cbn [list_keywords In] in I; decompose [or] I; subst; try contradiction; told].
      destruct (assoc k m) as [x|] eqn:E; [|constructor]. cbn [option_map]. constructor.
      assert (Hs : is_array x) by (cbn [list_keywords In] in I; decompose [or] I; subst; try contradiction; auto). destruct Hs as [l ->].
      replace (trim_part k (VArr l)) with (VArr (map (trim d) l)); [|cbn [list_keywords In] in I; decompose [or] I; subst; try contradiction; reflexivity].
      constructor. apply trim_list. intros x Hx. apply IH'. apply sub_element with (k := k) (l := l); [right; exact I|exact E|exact Hx].
    - intros k I. rewrite K; [|rewrite !in_app_iff; tauto|cbn [map_keywords In] in I; decompose [or] I; subst; try contradiction; told].
      destruct (assoc k m) as [x|] eqn:E; [|constructor]. cbn [option_map]. constructor.
      assert (Hs : is_object x) by (cbn [map_keywords In] in I; decompose [or] I; subst; try contradiction; auto; destruct (S3 _ E) as (ps & -> & _); exists ps; auto). destruct Hs as [c ->].
      replace (trim_part k (VMap c)) with (VMap (map (fun e' : string * value => (fst e', trim d (snd e'))) c)); [|cbn [map_keywords In] in I; decompose [or] I; subst; try contradiction; reflexivity].
      apply trim_members. intros n x Hx. apply IH'. apply SpecShape.sub_member with (k := k) (ms := c) (n := n); [exact I|exact E|exact Hx].
    - rewrite K; [|do 5 (apply in_or_app; right); simpl; auto|told]. destruct (assoc "items" m) as [x|] eqn:E; [|constructor]. cbn [option_map]. constructor.
      destruct (S5 _ E) as [[l ->]|[[b ->]|[c ->]]].
      + constructor. apply trim_list. intros x Hx. apply IH'. eapply sub_element; eauto. simpl; auto.
      + apply item_schema. apply alike_bool.
      + apply item_schema. apply IH'. eapply sub_items; eauto. intros [l X]. discriminate.
    - rewrite K; [|do 5 (apply in_or_app; right); simpl; auto|told]. destruct (assoc "dependencies" m) as [x|] eqn:E; [|constructor]. cbn [option_map]. constructor.
      destruct (S4 _ E) as (ds & -> & Hd). change (trim_part "dependencies" (VMap ds)) with (VMap (map (fun e' : string * value => (fst e', trim d (snd e'))) ds)).
      apply trim_members. intros n x Hx. destruct (Hd _ _ Hx) as [[l El]|H]; [unfold texts in El; rewrite El; apply dep_names|]. apply dep_schema. apply IH'. eapply sub_dependency; eauto.
      intros [l ->]. destruct H as [[b X]|[c X]]; discriminate.
  Qed.

  Lemma trim_subschema m y : shapes re url same d m -> subschema d (trim_map m) y -> exists x, subschema d m x /\ y = trim d x.
  Proof.
    intros (_ & _ & (S1 & S2 & S3 & S4 & S5 & S6 & S7 & S8 & S9)) H.
    destruct H as [ds n x E Hi|k ms n x I E Hi|k x I E Nb|ds n x E Hi Na|x E Na|k l x I E Hi|k x H6 I E|k x H7 I E|x E]; rewrite assoc_trim in E.
    - replace (known d "definitions") with false in E by (destruct d; reflexivity). discriminate.
    - destruct (known d k); [|discriminate]. destruct (assoc k m) as [z|] eqn:Ez; [|discriminate]. cbn [option_map] in E.
      assert (Hs : is_object z) by (cbn [In] in I; decompose [or] I; subst; try contradiction; auto; destruct (S3 _ Ez) as (ps & -> & _); exists ps; auto). destruct Hs as [c ->].
      replace (trim_part k (VMap c)) with (VMap (map (fun e' : string * value => (fst e', trim d (snd e'))) c)) in E; [|cbn [In] in I; decompose [or] I; subst; try contradiction; reflexivity].
      injection E as <-. apply in_map_iff in Hi. destruct Hi as ([a b] & X & Hi). injection X as <- <-. exists b. split; auto. eapply SpecShape.sub_member; eauto.
    - destruct (known d k); [|discriminate]. destruct (assoc k m) as [z|] eqn:Ez; [|discriminate]. cbn [option_map] in E.
      replace (trim_part k z) with (trim d z) in E; [|cbn [In] in I; decompose [or] I; subst; try contradiction; reflexivity]. injection E as <-. exists z. split; auto.
      eapply sub_additional; eauto. intros [b ->]. apply Nb. exists b. reflexivity.
    - destruct (known d "dependencies"); [|discriminate]. destruct (assoc "dependencies" m) as [z|] eqn:Ez; [|discriminate]. cbn [option_map] in E.
      destruct (S4 _ Ez) as (c & -> & _). change (trim_part "dependencies" (VMap c)) with (VMap (map (fun e' : string * value => (fst e', trim d (snd e'))) c)) in E.
      injection E as <-. apply in_map_iff in Hi. destruct Hi as ([a b] & X & Hi). injection X as <- <-. exists b. split; auto. eapply sub_dependency; eauto.
      intros [l ->]. apply Na. exists l. reflexivity.
    - destruct (known d "items"); [|discriminate]. destruct (assoc "items" m) as [z|] eqn:Ez; [|discriminate]. cbn [option_map] in E.
      destruct (S5 _ Ez) as [[l ->]|H]; [injection E as <-; exfalso; apply Na; eexists; reflexivity|]. exists z. split.
      + eapply sub_items; eauto. intros [l ->]. destruct H as [[b X]|[c X]]; discriminate.
      + destruct H as [[b ->]|[c ->]]; injection E as <-; reflexivity.
    - destruct (known d k); [|discriminate]. destruct (assoc k m) as [z|] eqn:Ez; [|discriminate]. cbn [option_map] in E.
      replace (trim_part k z) with (match z with VArr l => VArr (map (trim d) l) | _ => trim d z end) in E; [|cbn [In] in I; decompose [or] I; subst; try contradiction; reflexivity].
      destruct z as [| | | | |l0|c|]; try discriminate. injection E as <-. apply in_map_iff in Hi. destruct Hi as (b & <- & Hi). exists b. split; auto. eapply sub_element; eauto.
    - destruct (known d k); [|discriminate]. destruct (assoc k m) as [z|] eqn:Ez; [|discriminate]. cbn [option_map] in E.
      replace (trim_part k z) with (trim d z) in E; [|cbn [In] in I; decompose [or] I; subst; try contradiction; reflexivity]. injection E as <-. exists z. split; auto. eapply sub_since6; eauto.
    - destruct (known d k); [|discriminate]. destruct (assoc k m) as [z|] eqn:Ez; [|discriminate]. cbn [option_map] in E.
      replace (trim_part k z) with (trim d z) in E; [|cbn [In] in I; decompose [or] I; subst; try contradiction; reflexivity]. injection E as <-. exists z. split; auto. eapply sub_since7; eauto.
    - destruct (known d "not"); [|discriminate]. destruct (assoc "not" m) as [z|] eqn:Ez; [|discriminate]. injection E as <-. exists z. split; auto. eapply sub_not; eauto.
  Qed.
  Lemma trim_kw m k (P Q : value -> Prop) : kw m k P -> (forall x, P x -> Q (trim_part k x)) -> kw (trim_map m) k Q.
  Proof.
    intros H HQ x E. rewrite assoc_trim in E. destruct (known d k); [|discriminate]. destruct (assoc k m) as [z|] eqn:Ez; [|discriminate]. injection E as <-. auto.
  Qed.
  Lemma unknown_kw m k P : known d k = false -> kw (trim_map m) k P.
  Proof. intros H x E. rewrite assoc_trim, H in E. discriminate. Qed.
  Lemma plain_kw m k P : (forall x, trim_part k x = x) -> kw m k P -> kw (trim_map m) k P.
  Proof. intros H K. eapply trim_kw; eauto. intros x. rewrite H. auto. Qed.
  Theorem trim_well_formed v : well_formed re url same d v -> well_formed re url same d (trim d v).
  Proof.
    induction 1 as [b S|m HM W IH]; [constructor; auto|]. rewrite trim_eq. constructor.
    - pose proof HM as (HH & HP & HS). split; [|split].
      + unfold head_shapes. repeat match goal with |- _ /\ _ => split end; try (apply unknown_kw; destruct d; reflexivity).
        apply unknown_kw. generalize (trim_map m). intros a. unfold id_keyword. destruct d; try reflexivity. destruct (assoc "id" a); reflexivity.
      + unfold plain_shapes in *.
        destruct HP as (P1 & P2 & P3 & P4 & P5 & P6 & P7 & P8 & P9 & P10 & P11 & P12 & P13 & P14 & P15 & P16 & P17 & P18 & P19 & P20).
        assert (NN : forall k, k = "minimum" \/ k = "maximum" -> assoc k m <> None -> assoc k (trim_map m) <> None).
        { intros k Hk Hn. rewrite assoc_trim. replace (known d k) with true by (destruct Hk; subst; destruct d; reflexivity). destruct (assoc k m); [discriminate|auto]. }
        repeat match goal with |- _ /\ _ => split end; try (apply plain_kw; [reflexivity|assumption]).
        * eapply trim_kw; [exact P4|]. intros x H. change (trim_part "exclusiveMinimum" x) with x. destruct H as [(H1 & H2 & H3)|H]; [left; split; [exact H1|split; [exact H2|apply NN; auto]]|right; exact H].
        * eapply trim_kw; [exact P6|]. intros x H. change (trim_part "exclusiveMaximum" x) with x. destruct H as [(H1 & H2 & H3)|H]; [left; split; [exact H1|split; [exact H2|apply NN; auto]]|right; exact H].
        * eapply trim_kw; [exact P9|]. intros x H. change (trim_part "minLength" x) with x. apply plain_kw; [reflexivity|exact H].
        * eapply trim_kw; [exact P14|]. intros x H. change (trim_part "minProperties" x) with x. apply plain_kw; [reflexivity|exact H].
        * intros S. apply plain_kw; [reflexivity|]. apply P19. exact S.
      + destruct HS as (S1 & S2 & S3 & S4 & S5 & S6 & S7 & S8 & S9). unfold schema_shapes.
        repeat match goal with |- _ /\ _ => split end.
        * eapply trim_kw; [exact S1|]. intros x [c ->]. eexists. reflexivity.
        * eapply trim_kw; [exact S2|]. intros x [[b ->]|[c ->]]; [left; exists b; reflexivity|right]. change (trim_part "additionalProperties" (VMap c)) with (trim d (VMap c)). rewrite trim_eq. eexists. reflexivity.
        * eapply trim_kw; [exact S3|]. intros x (ps & -> & H). eexists. split; [reflexivity|]. intros p s Hi. apply in_map_iff in Hi. destruct Hi as ([a b] & X & Hi). injection X as <- <-. eapply H; eauto.
        * eapply trim_kw; [exact S4|]. intros x (ps & -> & H). eexists. split; [reflexivity|]. intros k a Hi. apply in_map_iff in Hi. destruct Hi as ([k0 b] & X & Hi). injection X as <- <-. cbn [snd].
          destruct (H _ _ Hi) as [[l E]|[[bb ->]|[c ->]]]; [left; exists l; unfold texts in *; rewrite E; reflexivity|right; left; exists bb; reflexivity|right; right]. rewrite trim_eq. eexists. reflexivity.
        * eapply trim_kw; [exact S5|]. intros x [[l ->]|[[b ->]|[c ->]]]; [left; eexists; reflexivity|right; left; exists b; reflexivity|right; right].
          change (trim_part "items" (VMap c)) with (trim d (VMap c)). rewrite trim_eq. eexists. reflexivity.
        * eapply trim_kw; [exact S6|]. intros x [[b ->]|[c ->]]; [left; exists b; reflexivity|right]. change (trim_part "additionalItems" (VMap c)) with (trim d (VMap c)). rewrite trim_eq. eexists. reflexivity.
        * eapply trim_kw; [exact S7|]. intros x [l ->]. eexists. reflexivity.
        * eapply trim_kw; [exact S8|]. intros x [l ->]. eexists. reflexivity.
        * eapply trim_kw; [exact S9|]. intros x [l ->]. eexists. reflexivity.
    - intros y Hy. destruct (trim_subschema m y HM Hy) as (x & Hx & ->). auto.
  Qed.
End Trim.

Section Forget.
  Variable w : world.
  Hypothesis HU : url_laws w.
  Notation lim := (e_ratlim (w_go w)).
  Notation free v := (forall m k t, inside v (VMap m) -> In k ["$ref"; "$id"; "id"] -> ~ In (k, VStr t) m).

  Lemma trim_free d v : free v -> free (trim d v).
  Proof.
    apply (trim_lift d (fun v => free v)) with (n := S (vsize v)); auto.
    - intros l. split.
      + intros H. apply Forall_forall. intros x Hx. eapply free_inside; [exact H|]. econstructor; [exact Hx|constructor].
      + intros H m k t I. inversion I; subst. rewrite Forall_forall in H. eapply H; eauto.
    - intros m k x H Hx. eapply free_inside; [exact H|]. eapply inside_map; eauto. constructor.
    - intros m m' H _ Hm a k t I Hk Hi. inversion I; subst.
      + destruct (Hm _ _ Hi) as (_ & x & Hx & E). rewrite (E t eq_refl) in Hx. exact (H m k t (inside_refl _) Hk Hx).
      + match goal with Hy : In (_, ?x) m', J : inside ?x _ |- _ => destruct (Hm _ _ Hy) as [Fx _]; exact (Fx a k t J Hk Hi) end.
  Qed.
  Lemma trim_numbers d P v : all_numbers P v -> all_numbers P (trim d v).
  Proof.
    apply (trim_lift d (all_numbers P)) with (n := S (vsize v)); auto.
    - intros l. split; [inversion 1; auto|constructor; auto].
    - intros m k x H Hx. inversion H as [| | | | | |? F]; subst. rewrite Forall_forall in F. apply (F _ Hx).
    - intros m m' _ _ H. constructor. apply Forall_forall. intros [k y] Hy. apply (H _ _ Hy).
  Qed.
  Lemma trim_doc_ok d v : doc_ok v -> doc_ok (trim d v).
  Proof.
    apply (trim_lift d doc_ok) with (n := S (vsize v)); auto.
    - intros l. split; [apply doc_ok_arr|]. intros H. split; [constructor|cbn [plain]; apply forallb_forall; intros x Hx]; rewrite ?Forall_forall in *; [intros x Hx|]; apply H; auto.
    - intros m k x H Hx. apply doc_ok_map in H. destruct H as [_ H]. rewrite Forall_forall in H. apply (H _ Hx).
    - intros m m' [H _] Hn Hm. inversion H as [| | | | | |? N F]; subst. rewrite Forall_forall in F. split; [constructor; auto|cbn [plain]; apply forallb_forall; intros [k y] Hy; apply (Hm _ _ Hy)].
      apply Forall_forall. intros [k y] Hy. destruct (Hm _ _ Hy) as (Dy & x & Hx & _). split; [apply (F _ Hx)|apply Dy].
  Qed.
  Lemma trim_draft d sl v : root_draft w sl (trim d v) = root_draft w sl v.
  Proof.
    unfold root_draft, doc_draft. destruct v as [| | | | | |m|]; auto. rewrite trim_eq. unfold named_draft. rewrite assoc_trim. replace (known d "$schema") with true by reflexivity.
    destruct (assoc "$schema" m); reflexivity.
  Qed.
  Lemma free_contained sl doc : free doc -> sl_pool sl = [] -> self_contained w sl doc.
  Proof.
    intros Fr P.
    assert (ID : ids_of (w_parse w) (w_inherits w) "" doc = []) by (apply (free_ids _ _ (S (vsize doc))); auto).
    assert (RE : resolve (w_parse w) (w_inherits w) "" doc = doc) by (apply (resolve_mentions_none (cenv_of w sl) (S (vsize doc))); auto; apply free_mentions; auto).
    unfold self_contained. cbv zeta. rewrite ID, RE, P. split; [split; [constructor|intros r []]|]. split; [discriminate|]. split.
    - right. intros r e x. unfold known_documents, root_draft, documents. rewrite ID, RE, P. cbn [entries map app fst snd]. unfold entries. cbn [map app assoc fst snd].
      destruct (String.eqb r ""); [|discriminate]. intros [= <-]. cbn [sp_draft]. intros E. destruct (doc_draft _ doc); congruence.
    - intros k r M. destruct (free_mentions _ Fr k M).
  Qed.
  Lemma free_compiles sl doc : free doc -> doc_ok doc -> all_numbers (moderate lim) doc -> sl_pool sl = [] -> sl_validate sl = false ->
    (sl_auto sl = true -> well_declared (w_parse w) doc) ->
    well_formed (fun p => e_re_ok (w_go w) p = true) (fun s => w_parse w s <> None) same (root_draft w sl doc) doc ->
    exists sch, compiled_from w sl doc sch.
  Proof.
    intros Fr D N P V HD WF. set (fuel := S (enough_fuel w sl doc)).
    destruct (compile_plain w HU sl fuel in_order (LRaw doc) doc in_order_fair ltac:(discriminate) D eq_refl N (free_mentions _ Fr) V P) as [C _].
    - rewrite (free_ids _ _ (S (vsize doc))); auto. constructor.
    - unfold fuel. lia.
    - destruct (proj2 C (conj HD WF)) as (sch & sl' & E). exists sch, fuel, in_order, (LRaw doc), sl'. split; [apply in_order_fair|]. split; [discriminate|]. split; [exact D|].
      split; [reflexivity|]. split; [auto|]. split; [auto|]. split; [apply free_contained; auto|exact E].
  Qed.
  Theorem trimmed sl doc : free doc -> doc_ok doc -> all_numbers (moderate lim) doc -> sl_pool sl = [] -> sl_validate sl = false ->
    (sl_auto sl = true -> well_declared (w_parse w) doc) ->
    let d := root_draft w sl doc in
    well_formed (fun p => e_re_ok (w_go w) p = true) (fun s => w_parse w s <> None) same d doc ->
    exists sch sch', compiled_from w sl doc sch /\ compiled_from w sl (trim d doc) sch' /\
    forall sch sch', compiled_from w sl doc sch -> compiled_from w sl (trim d doc) sch' ->
    forall o o' v r, fair o -> fair o' -> wf_value v -> returns (w_go w) (s_heap sch) (s_root sch) o v r ->
    exists r', returns (w_go w) (s_heap sch') (s_root sch') o' v r' /\ same_result r r'.
  Proof.
    intros Fr D N P V HD d WF.
    destruct (free_compiles sl doc Fr D N P V HD WF) as [sch C].
    assert (Fr' : free (trim d doc)) by (apply trim_free; auto).
    assert (HD' : sl_auto sl = true -> well_declared (w_parse w) (trim d doc)).
    { intros Ha. destruct (HD Ha) as [[b ->]|(m & -> & H)]; [left; exists b; reflexivity|right]. rewrite trim_eq. eexists. split; [reflexivity|]. intros x. rewrite assoc_trim.
      replace (known d "$schema") with true by reflexivity. destruct (assoc "$schema" m) as [y|] eqn:E; [|discriminate]. intros [= <-]. exact (H y eq_refl). }
    destruct (free_compiles sl (trim d doc) Fr' (trim_doc_ok _ _ D) (trim_numbers _ _ _ N) P V HD') as [sch' C'].
    { rewrite trim_draft. apply trim_well_formed. exact WF. }
    exists sch, sch'. split; auto. split; auto. clear sch sch' C C'. intros sch sch' C C' o o' v r F F' W R.
    assert (RE : forall x, free x -> resolve (w_parse w) (w_inherits w) "" x = x) by (intros x Fx; apply (resolve_mentions_none (cenv_of w sl) (S (vsize x))); auto; apply free_mentions; auto).
    refine (compiled_alike w HU sl doc sch sl (trim d doc) sch' C C' _ _ o o' v r F F' W R).
    - rewrite (RE doc Fr), (RE _ Fr'), trim_draft. exact (trim_alike d _ _ _ _ doc WF Fr).
    - intros k d0 x d' y M. exfalso. destruct M as [M|(q & e & E & _)]; [rewrite RE in M; auto; exact (free_mentions _ Fr k M)|rewrite P in E; discriminate].
  Qed.
End Forget.
