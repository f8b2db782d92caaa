(** The keywords of a schema object taken apart. *)
From Verif Require Export LogicProps.
From Coq Require Import Lia.
From Verif Require Export SpecSplit.
Open Scope string_scope.
Open Scope list_scope.
Open Scope nat_scope.

Lemma assoc_chosen p m k : assoc k (chosen p m) = if p k then assoc k m else None.
Proof.
  induction m as [|[n x] m IH]; cbn [chosen filter assoc fst]; [destruct (p k); auto|]. fold (chosen p m). destruct (p n) eqn:En; cbn [assoc].
  - destruct (String.eqb_spec k n) as [->|N]; [rewrite En; auto|]. exact IH.
  - destruct (String.eqb_spec k n) as [->|N]; [|exact IH]. rewrite En in *. exact IH.
Qed.
Lemma chosen_In p m e : In e (chosen p m) -> In e m.
Proof. unfold chosen. rewrite filter_In. tauto. Qed.

Section Keywords.
  Variable pat : string -> string -> Prop.
  Variable fmt : string -> value -> Prop.
  Variable eqv : value -> value -> Prop.
  Variable V : draft -> value -> value -> Prop.
  Variable d : draft.

  (** A keyword looks at its own member, and at those of its bundle. *)
  Definition looks_at (key : string) (S : list (string * value) -> value -> Prop) : Prop :=
    (forall m v, assoc key m = None -> S m v) /\
    forall m m' v, (forall k, with_its_bundle key k = true -> assoc k m' = assoc k m) -> S m v -> S m' v.

  Lemma together p key k : keeps_together p -> p key = true -> with_its_bundle key k = true -> p k = true.
  Proof.
    intros K P W. unfold with_its_bundle in W. apply orb_prop in W. destruct W as [W|W]; [apply String.eqb_eq in W; congruence|].
    apply existsb_exists in W. destruct W as (b & Hb & W). apply andb_prop in W. destruct W as [W1 W2].
    apply existsb_exists in W1. destruct W1 as (k1 & H1 & E1). apply existsb_exists in W2. destruct W2 as (k2 & H2 & E2).
    apply String.eqb_eq in E1. apply String.eqb_eq in E2. subst k1 k2. eapply K; eauto.
  Qed.
  Lemma looks_chosen key S p m v : looks_at key S -> keeps_together p -> S m v -> S (chosen p m) v.
  Proof.
    intros [A B] K H. destruct (p key) eqn:E.
    - apply (B m); auto. intros k W. rewrite assoc_chosen, (together p key k K E W). auto.
    - apply A. rewrite assoc_chosen, E. auto.
  Qed.
  Lemma looks_covered key S ps m v : looks_at key S -> Forall keeps_together ps -> covers ps m -> (forall p, In p ps -> S (chosen p m) v) -> S m v.
  Proof.
    intros [A B] K C H. destruct (assoc key m) as [x|] eqn:E; [|apply A; auto]. apply assoc_In in E. destruct (C _ _ E) as (p & Hp & P).
    rewrite Forall_forall in K. apply (B (chosen p m)); auto. intros k W. rewrite assoc_chosen, (together p key k (K p Hp) P W). auto.
  Qed.

  Ltac look := split;
    [intros m v E; first [intros _; apply kw_absent; exact E|apply kw_absent; exact E]
    |intros m m' v E HS; revert HS;
     cbv beta delta [s_type s_const s_enum s_format s_allOf s_anyOf s_oneOf s_not s_if s_multipleOf s_maximum s_minimum s_exclusiveMaximum s_exclusiveMinimum
       s_maxLength s_minLength s_pattern s_items s_additionalItems s_maxItems s_minItems s_uniqueItems s_contains s_maxProperties s_minProperties s_required
       s_properties s_patternProperties s_additionalProperties s_propertyNames s_dependencies strict additional kw];
     rewrite ?E by reflexivity; exact (fun HS => HS)].
  Lemma keywords_split (P : (list (string * value) -> value -> Prop) -> Prop) :
    (forall key S, looks_at key S -> P S) ->
    P (s_type) /\ P (s_const eqv d) /\ P (s_enum eqv) /\ P (s_format fmt) /\
    P (s_allOf V d) /\ P (s_anyOf V d) /\ P (s_oneOf V d) /\ P (s_not V d) /\ P (s_if V d) /\
    P s_multipleOf /\ P (s_maximum d) /\ P (s_minimum d) /\ P (s_exclusiveMaximum d) /\ P (s_exclusiveMinimum d) /\
    P s_maxLength /\ P s_minLength /\ P (s_pattern pat) /\
    P (s_items V d) /\ P (s_additionalItems V d) /\ P s_maxItems /\ P s_minItems /\ P (s_uniqueItems eqv) /\ P (s_contains V d) /\
    P s_maxProperties /\ P s_minProperties /\ P s_required /\ P (s_properties V d) /\ P (s_patternProperties pat V d) /\
    P (s_additionalProperties pat V d) /\ P (s_propertyNames V d) /\ P (s_dependencies V d).
  Proof.
    intros H. repeat match goal with |- _ /\ _ => split end.
    - apply (H "type"). look.
    - apply (H "const"). look.
    - apply (H "enum"). look.
    - apply (H "format"). look.
    - apply (H "allOf"). look.
    - apply (H "anyOf"). look.
    - apply (H "oneOf"). look.
    - apply (H "not"). look.
    - apply (H "if"). look.
    - apply (H "multipleOf"). look.
    - apply (H "maximum"). look.
    - apply (H "minimum"). look.
    - apply (H "exclusiveMaximum"). look.
    - apply (H "exclusiveMinimum"). look.
    - apply (H "maxLength"). look.
    - apply (H "minLength"). look.
    - apply (H "pattern"). look.
    - apply (H "items"). look.
    - apply (H "additionalItems"). look.
    - apply (H "maxItems"). look.
    - apply (H "minItems"). look.
    - apply (H "uniqueItems"). look.
    - apply (H "contains"). look.
    - apply (H "maxProperties"). look.
    - apply (H "minProperties"). look.
    - apply (H "required"). look.
    - apply (H "properties"). look.
    - apply (H "patternProperties"). look.
    - apply (H "additionalProperties"). look.
    - apply (H "propertyNames"). look.
    - apply (H "dependencies"). look.
  Qed.
  Lemma keywords_chosen p m v : keeps_together p -> keywords pat fmt eqv V d m v -> keywords pat fmt eqv V d (chosen p m) v.
  Proof.
    intros K H. pose proof (keywords_split (fun S => S m v -> S (chosen p m) v) (fun key S L => looks_chosen key S p m v L K)) as A. cbv beta in A.
    unfold keywords in *. intuition.
  Qed.
  Lemma keywords_covered ps m v : Forall keeps_together ps -> covers ps m -> (forall p, In p ps -> keywords pat fmt eqv V d (chosen p m) v) -> keywords pat fmt eqv V d m v.
  Proof.
    intros K C H. pose proof (keywords_split (fun S => (forall p, In p ps -> S (chosen p m) v) -> S m v) (fun key S L => looks_covered key S ps m v L K C)) as A. cbv beta in A.
    unfold keywords in *.
    repeat match goal with |- _ /\ _ => split end; revert A; intros A;
      (repeat match type of A with _ /\ _ => destruct A as [?A0 A] end).
    all: match goal with A : _ -> ?g |- ?g => apply A end; intros p Hp; specialize (H p Hp); tauto.
  Qed.
End Keywords.

Section Split.
  Variable w : world.
  Hypothesis HU : url_laws w.
  Notation go := (w_go w).
  Notation lim := (e_ratlim go).
  Notation re := (fun p => e_re_ok go p = true).
  Notation url := (fun s => w_parse w s <> None).
  Notation M := (meaning (pat go) (fmt go) same nowhere).
  Variable p : string -> bool.
  Hypothesis K : keeps_together p.
  Variable m : list (string * value).

  Lemma kw_chosen k P : kw m k P -> kw (chosen p m) k P.
  Proof. intros H x E. rewrite assoc_chosen in E. destruct (p k); [apply H; auto|discriminate]. Qed.
  Lemma chosen_bare : bare (VMap m) -> bare (VMap (chosen p m)).
  Proof.
    intros [B1 B2]. split.
    - intros m' k t I Hk Hi. inversion I as [| |? n x ? Hx I']; subst.
      + apply (B1 m k t); auto; [constructor|]. eapply chosen_In; eauto.
      + apply (B1 m' k t); auto. eapply inside_map; [eapply chosen_In; eauto|auto].
    - intros m' [= <-]. rewrite assoc_chosen, (B2 m eq_refl). destruct (p "$schema"); auto.
  Qed.
  Lemma chosen_names : NoDup (map fst m) -> NoDup (map fst (chosen p m)).
  Proof.
    induction m as [|[k x] m' IH]; intros N; cbn [chosen filter fst]; [constructor|]. fold (chosen p m'). inversion N as [|? ? Ni N']; subst.
    destruct (p k); [|auto]. cbn [map fst]. constructor; auto. intros Hi. apply Ni. apply in_map_iff in Hi. destruct Hi as (e & <- & He). apply in_map, (chosen_In p), He.
  Qed.
  Lemma chosen_doc_ok : doc_ok (VMap m) -> doc_ok (VMap (chosen p m)).
  Proof.
    rewrite !doc_ok_map_iff. intros [A B]. split; [apply chosen_names; auto|]. rewrite Forall_forall in *. intros e He. apply B. eapply chosen_In; eauto.
  Qed.
  Lemma chosen_numbers P : all_numbers P (VMap m) -> all_numbers P (VMap (chosen p m)).
  Proof. intros H. inversion H as [| | | | | |? F]; subst. constructor. rewrite Forall_forall in *. intros e He. apply F. eapply chosen_In; eauto. Qed.
  Lemma chosen_subschema d x : subschema d (chosen p m) x -> subschema d m x.
  Proof.
    assert (A : forall k y, assoc k (chosen p m) = Some y -> assoc k m = Some y) by (intros k y E; rewrite assoc_chosen in E; destruct (p k); [auto|discriminate]).
    intros H. destruct H; eauto using subschema.
  Qed.
  Lemma chosen_order lo hi : ok_order m lo hi -> ok_order (chosen p m) lo hi.
  Proof. intros H. apply kw_chosen in H. intros x E. apply kw_chosen. apply (H x E). Qed.
  Lemma chosen_exclusive d key xkey : In [key; xkey] bundles -> ok_exclusive d m key xkey -> ok_exclusive d (chosen p m) key xkey.
  Proof.
    intros Hb H x E. rewrite assoc_chosen in E. destruct (p xkey) eqn:P; [|discriminate].
    rewrite assoc_chosen, (K _ xkey key Hb (or_intror (or_introl eq_refl)) (or_introl eq_refl) P). apply H. auto.
  Qed.
  Lemma chosen_shapes : bare (VMap m) -> shapes re url same Hybrid m -> shapes re url same Hybrid (chosen p m).
  Proof.
    intros B ((H1 & H2 & H3 & H4 & H5) & PS & SS).
    assert (Ni : forall k t, In k ["$ref"; "$id"; "id"] -> assoc k m <> Some (VStr t)).
    { intros k t Hk E. apply assoc_In in E. revert E. apply (proj1 B m); [constructor|auto]. }
    split; [|split].
    - unfold head_shapes. repeat match goal with |- _ /\ _ => split end; try (apply kw_chosen; assumption).
      assert (Nid : assoc "id" m = None /\ assoc "$id" m = None).
      { unfold ok_id, id_keyword in H1. destruct (assoc "id" m) as [x|] eqn:E.
        - destruct (H1 _ E) as (s & -> & _). exfalso. eapply Ni; [|exact E]. simpl. auto.
        - split; auto. destruct (assoc "$id" m) as [x|] eqn:E'; auto. destruct (H1 _ E') as (s & -> & _). exfalso. eapply Ni; [|exact E']. simpl. auto. }
      destruct Nid as [N1 N2].
      assert (C1 : assoc "id" (chosen p m) = None) by (rewrite assoc_chosen, N1; destruct (p "id"); auto).
      assert (C2 : assoc "$id" (chosen p m) = None) by (rewrite assoc_chosen, N2; destruct (p "$id"); auto).
      intros x E. unfold id_keyword in E. rewrite C1, C2 in E. discriminate.
    - unfold plain_shapes in *. repeat match goal with H : _ /\ _ |- _ => destruct H end. repeat match goal with |- _ /\ _ => split end;
        first [apply kw_chosen; assumption|apply chosen_order; assumption|apply chosen_exclusive; [simpl; tauto|assumption]|intros L; apply kw_chosen; auto].
    - unfold schema_shapes in *. repeat match goal with H : _ /\ _ |- _ => destruct H end. repeat match goal with |- _ /\ _ => split end; apply kw_chosen; assumption.
  Qed.
  Lemma chosen_simple : simple w (VMap m) -> simple w (VMap (chosen p m)).
  Proof.
    intros (B & D & N & sch & Hm). pose proof (chosen_bare B) as B'. pose proof (chosen_doc_ok D) as D'. pose proof (chosen_numbers _ N) as N'.
    split; auto. split; auto. split; auto. apply well_formed_made; auto. pose proof (made_well_formed w HU _ _ B D N Hm) as W.
    inversion W as [|? S Sub]; subst. constructor; [apply chosen_shapes; auto|]. intros x Hx. apply Sub. apply chosen_subschema; auto.
  Qed.

  Lemma chosen_assoc k y : assoc k (chosen p m) = Some y -> assoc k m = Some y.
  Proof. rewrite assoc_chosen. destruct (p k); [auto|discriminate]. Qed.
  Lemma chosen_asks v d' x v' : (forall r, assoc "$ref" m <> Some (VStr r)) -> asks nowhere Hybrid (VMap (chosen p m)) v d' x v' -> asks nowhere Hybrid (VMap m) v d' x v'.
  Proof.
    intros Nr A. inversion A as [? ? r ? ? ? E T|? ? ? ? Nr' P|? ? ? ? ? Nr' P He|? ? ? ? ? ? Nr' P He|? ? ? ? ? Nr' P He]; subst.
    - destruct T.
    - apply ask_here; auto. destruct P as [y E|k y H7 Hk E|k l y Hk E Hy|ds n y E Hy]; apply chosen_assoc in E; [eapply here_not|eapply here_if|eapply here_element|eapply here_dependency]; eauto.
    - apply ask_item; auto. destruct P as [k y Hk E|y H6 E|l' y E Hy]; apply chosen_assoc in E; [eapply item_value|eapply item_contains|eapply item_element]; eauto.
    - eapply ask_prop; eauto. destruct P as [y E|k' ms n y Hk E Hy]; apply chosen_assoc in E; [eapply prop_value|eapply prop_member]; eauto.
    - eapply ask_name; eauto. destruct P as [H6 E]. split; auto using chosen_assoc.
  Qed.
  Lemma chosen_fits v : fits lim m v -> fits lim (chosen p m) v.
  Proof.
    intros [(R1 & R2 & R3 & R4 & R5 & R6 & R7) C]. split.
    - unfold regular. repeat match goal with |- _ /\ _ => split end; try (intros E; apply chosen_assoc in E; auto; fail); try (intros s E; apply chosen_assoc in E; auto; fail).
      intros E. pose proof (chosen_assoc _ _ E) as E'. rewrite assoc_chosen in E. rewrite assoc_chosen. destruct (p "additionalItems"); auto.
    - intros C'. apply C. destruct C' as [C'|[C'|C']].
      + left. intros E. apply C'. rewrite assoc_chosen, E. destruct (p "const"); auto.
      + right. left. intros E. apply C'. rewrite assoc_chosen, E. destruct (p "enum"); auto.
      + right. right. apply chosen_assoc. auto.
  Qed.
  Lemma simple_no_ref : simple w (VMap m) -> assoc "$ref" m = None.
  Proof.
    intros (B & D & N & sch & Hm). pose proof (made_well_formed w HU _ _ B D N Hm) as W. inversion W as [|? S Sub]; subst.
    destruct S as ((_ & _ & _ & _ & R) & _). destruct (assoc "$ref" m) as [y|] eqn:E; auto. destruct (R _ E) as (s & -> & _).
    exfalso. eapply free_no_ref; [apply B|constructor|exact E].
  Qed.
  Lemma chosen_fitting v : simple w (VMap m) -> fitting w (VMap m) v -> fitting w (VMap (chosen p m)) v.
  Proof.
    intros S F d m' x N Hr. apply needed_cases in N. pose proof (simple_no_ref S) as Er.
    destruct N as [(-> & [= ->] & ->)|(d1 & x1 & v1 & A & N)].
    - apply chosen_fits. apply (F Hybrid); auto. constructor.
    - apply (F d); auto. apply chosen_asks in A; [|rewrite Er; discriminate]. clear - A N.
      induction N as [|d2 s2 v2 d3 s3 v3 N IH A']; [econstructor; [constructor|exact A]|econstructor; eauto].
  Qed.
  Lemma simple_means v : simple w (VMap m) -> (M Hybrid (VMap m) v <-> keywords (pat go) (fmt go) same M Hybrid m v).
  Proof. intros S. rewrite (free_rules w (VMap m) v (proj1 (proj1 S))). cbn [schema_sem]. rewrite (simple_no_ref S). tauto. Qed.
End Split.

Section Theorems.
  Variable w : world.
  Hypothesis HU : url_laws w.
  Notation lim := (e_ratlim (w_go w)).
  Theorem split_simple p m : keeps_together p -> simple w (VMap m) -> simple w (VMap (chosen p m)).
  Proof. intros. apply chosen_simple; auto. Qed.
  Theorem split_verdict ps m v : Forall keeps_together ps -> covers ps m -> simple w (VMap m) -> usual lim v -> fitting w (VMap m) v ->
    exists b, verdict w (VMap m) v b /\ (b = true <-> forall p, In p ps -> verdict w (VMap (chosen p m)) v true).
  Proof.
    intros Ks C S U F. rewrite Forall_forall in Ks. pose proof S as (B & D & N & X).
    destruct (bare_decided w HU _ B D N X v U F) as (b & Vb & E). exists b. split; auto. rewrite E, (simple_means w HU m v S).
    assert (A : forall p, In p ps -> simple w (VMap (chosen p m)) /\ fitting w (VMap (chosen p m)) v).
    { intros p Hp. split; [apply chosen_simple; auto|apply chosen_fitting; auto]. }
    split.
    - intros H p Hp. destruct (A p Hp) as [S' F']. pose proof S' as (B' & D' & N' & X').
      destruct (bare_decided w HU _ B' D' N' X' v U F') as (b' & Vb' & E'). replace true with b'; auto. apply E'. apply (simple_means w HU _ v S').
      apply keywords_chosen; auto.
    - intros H. apply (keywords_covered _ _ _ _ _ ps); [rewrite Forall_forall; auto|auto|]. intros p Hp. destruct (A p Hp) as [S' F'].
      apply (simple_means w HU _ v S'). destruct S' as (B' & D' & N' & X'). apply (verdict_meaning w HU _ v true B' D' N' U F' (H p Hp)). auto.
  Qed.
  (** Each keyword by itself. *)
  Lemma its_bundle k : keeps_together (with_its_bundle k).
  Proof.
    intros b k1 k2 Hb H1 H2 E. unfold with_its_bundle in *. apply orb_true_iff. right. apply existsb_exists.
    assert (In_b : forall x l, In x l -> existsb (String.eqb x) l = true) by (intros x l Hx; apply existsb_exists; exists x; split; [auto|apply String.eqb_refl]).
    assert (b_In : forall x l, existsb (String.eqb x) l = true -> In x l) by (intros x l Hx; apply existsb_exists in Hx; destruct Hx as (y & Hy & E'); apply String.eqb_eq in E'; congruence).
    apply orb_prop in E. destruct E as [E|E].
    - apply String.eqb_eq in E. subst k1. exists b. split; auto. rewrite !In_b; auto.
    - apply existsb_exists in E. destruct E as (b' & Hb' & E). apply andb_prop in E. destruct E as [E1 E2]. apply b_In in E1. apply b_In in E2.
      assert (b' = b).
      { clear - Hb Hb' H1 E2. cbn [bundles In] in Hb, Hb'. decompose [or] Hb; decompose [or] Hb'; try contradiction; subst; auto; exfalso;
          cbn [In] in H1, E2; decompose [or] H1; decompose [or] E2; try contradiction; subst; discriminate. }
      subst b'. exists b. split; auto. rewrite !In_b; auto.
  Qed.
  Theorem each_keyword m v : simple w (VMap m) -> usual lim v -> fitting w (VMap m) v ->
    exists b, verdict w (VMap m) v b /\ (b = true <-> forall k x, In (k, x) m -> verdict w (VMap (chosen (with_its_bundle k) m)) v true).
  Proof.
    intros S U F. destruct (split_verdict (map (fun e => with_its_bundle (fst e)) m) m v) as (b & Vb & E); auto.
    - rewrite Forall_forall. intros p Hp. apply in_map_iff in Hp. destruct Hp as (e & <- & _). apply its_bundle.
    - intros k x Hk. exists (with_its_bundle k). split; [apply in_map_iff; exists (k, x); auto|]. unfold with_its_bundle. rewrite String.eqb_refl. auto.
    - exists b. split; auto. rewrite E. split.
      + intros H k x Hk. apply H. apply in_map_iff. exists (k, x). auto.
      + intros H p Hp. apply in_map_iff in Hp. destruct Hp as ((k & x) & <- & Hk). eapply H; eauto.
  Qed.
End Theorems.
Theorem fewer_keywords w : url_laws w -> forall p m v, keeps_together p ->
  simple w (VMap m) -> usual (e_ratlim (w_go w)) v -> fitting w (VMap m) v -> verdict w (VMap m) v true -> verdict w (VMap (chosen p m)) v true.
Proof.
  intros HU p m v K S U F Ht. destruct (split_verdict w HU [p; fun _ => true] m v) as (b & Vb & E); auto.
  - constructor; auto. constructor; [|constructor]. intros ? ? ? _ _ _ H. auto.
  - intros k x _. exists (fun _ => true). split; [right; left; auto|auto].
  - apply E; [|left; auto]. destruct Ht as [[sch Hm] V1]. destruct Vb as [_ V2]. destruct (V1 sch in_order Hm in_order_fair) as (r & R & <-).
    destruct (V2 sch in_order Hm in_order_fair) as (r' & R' & <-). f_equal. eapply returns_unique; eauto.
Qed.
