(** The meta-schemas the library ships demand what the drafts demand. *)
From Verif Require Export SpecDrafts MetaDrafts.
From Coq Require Import Lia.
Open Scope nat_scope.

(** The keywords of a schema object, one by one. *)
Section Clauses.
  Variable pat : string -> string -> Prop.
  Variable fmt : string -> value -> Prop.
  Variable same : value -> value -> Prop.
  Variable V : draft -> value -> value -> Prop.
  Variable d : draft.
  Variable m : list (string * value).
  Variable v : value.

  Definition c_type (x : value) : Prop :=
    (forall t, x = VStr t -> has_type t v) /\ (forall ts, x = VArr ts -> exists t, In (VStr t) ts /\ has_type t v).
  Definition c_enum (x : value) : Prop := forall l, x = VArr l -> exists e, In e l /\ same v e.
  Definition c_format (x : value) : Prop := forall f, x = VStr f -> fmt f v.
  Definition c_allOf (x : value) : Prop := forall l, x = VArr l -> forall s, In s l -> V d s v.
  Definition c_anyOf (x : value) : Prop := forall l, x = VArr l -> exists s, In s l /\ V d s v.
  Definition c_minimum (x : value) : Prop := forall q b, is_num v q -> is_num x b -> (b <= q)%Q /\ (SpecSchema.strict d m "exclusiveMinimum" -> (b < q)%Q).
  Definition c_exclusiveMinimum (x : value) : Prop := since6 d -> forall q b, is_num v q -> is_num x b -> (b < q)%Q.
  Definition c_items (x : value) : Prop := forall l, v = VArr l ->
    (forall ss, x = VArr ss -> forall i s e, nth_error ss i = Some s -> nth_error l i = Some e -> V d s e) /\
    ((forall ss, x <> VArr ss) -> forall e, In e l -> V d x e).
  Definition c_minItems (x : value) : Prop := forall n l, is_int x n -> v = VArr l -> (n <= Z.of_nat (length l))%Z.
  Definition c_uniqueItems (x : value) : Prop := forall l, x = VBool true -> v = VArr l ->
    forall i j a b, i < j -> nth_error l i = Some a -> nth_error l j = Some b -> ~ same a b.
  Definition c_properties (x : value) : Prop := forall ps o, x = VMap ps -> v = VMap o -> forall k s e, In (k, s) ps -> In (k, e) o -> V d s e.
  Definition c_additionalProperties (a : value) : Prop := forall o, v = VMap o -> forall k e, In (k, e) o -> additional pat m k ->
    (a = VBool false -> False) /\ ((forall b, a <> VBool b) -> V d a e).
  Definition c_propertyNames (s : value) : Prop := since6 d -> forall o, v = VMap o -> forall k, In k (map fst o) -> V d s (VStr k).
  Definition c_dependencies (x : value) : Prop := forall ds o, x = VMap ds -> v = VMap o -> forall k a, In (k, a) ds -> In k (map fst o) ->
    (forall ks, a = VArr ks -> forall k', In (VStr k') ks -> In k' (map fst o)) /\ ((forall ks, a <> VArr ks) -> V d a v).
  (** The keywords that occur in the meta-schemas; the others, annotations aside,
      do not. *)
  Definition clauses : list (string * (value -> Prop)) :=
    [("type", c_type); ("enum", c_enum); ("format", c_format); ("allOf", c_allOf); ("anyOf", c_anyOf); ("minimum", c_minimum);
     ("exclusiveMinimum", c_exclusiveMinimum); ("items", c_items); ("minItems", c_minItems); ("uniqueItems", c_uniqueItems);
     ("properties", c_properties); ("additionalProperties", c_additionalProperties); ("propertyNames", c_propertyNames); ("dependencies", c_dependencies)].
  Definition unused : list string :=
    ["const"; "oneOf"; "not"; "if"; "multipleOf"; "maximum"; "exclusiveMaximum"; "maxLength"; "minLength"; "pattern"; "additionalItems"; "maxItems";
     "contains"; "maxProperties"; "minProperties"; "required"; "patternProperties"].
  Fixpoint conj_all (l : list Prop) : Prop := match l with [] => True | [p] => p | p :: l' => p /\ conj_all l' end.
  Lemma conj_all_cons p l : conj_all (p :: l) <-> p /\ conj_all l.
  Proof. destruct l; cbn [conj_all]; tauto. Qed.
  Definition present (cs : list (string * (value -> Prop))) : list Prop :=
    flat_map (fun c => match assoc (fst c) m with Some x => [snd c x] | None => [] end) cs.
  Lemma present_cons c cs : conj_all (present (c :: cs)) <-> kw m (fst c) (snd c) /\ conj_all (present cs).
  Proof.
    unfold present. cbn [flat_map]. destruct (assoc (fst c) m) as [x|] eqn:E; cbn [app]; [rewrite conj_all_cons|]; split; intros [H1 H2] || intros H1.
    - split; auto. intros y Ey. congruence.
    - split; auto.
    - split; auto. intros y Ey. congruence.
    - auto.
  Qed.
  Lemma keywords_present : (forall k, In k unused -> assoc k m = None) -> (keywords pat fmt same V d m v <-> conj_all (present clauses)).
  Proof.
    intros U. unfold clauses. rewrite !present_cons. cbn [fst snd].
    assert (N : forall k P, In k unused -> kw m k P) by (intros k P H x E; rewrite (U k H) in E; discriminate).
    split.
    - intros (K1 & K2 & K3 & K4 & K5 & K6 & K7 & K8 & K9 & K10 & K11 & K12 & K13 & K14 & K15 & K16 & K17 & K18 & K19 & K20 & K21 & K22 & K23 & K24 & K25 & K26 & K27 & K28 & K29 & K30 & K31).
      repeat match goal with |- _ /\ _ => split end; auto.
      + intros x E H6. apply (K14 H6 x E).
      + intros x E H6. apply (K30 H6 x E).
      + exact I.
    - intros (K1 & K2 & K3 & K4 & K5 & K6 & K7 & K8 & K9 & K10 & K11 & K12 & K13 & K14 & _). unfold keywords.
      repeat match goal with |- _ /\ _ => split end; auto; try (apply N; simpl; tauto); try (intros _; apply N; simpl; tauto).
      + intros H6 x E. apply (K7 x E H6).
      + intros H6 x E. apply (K13 x E H6).
  Qed.
End Clauses.

Lemma guarded_mem lead n L q q' : guarded_b lead n L q = true -> mem q' L = true -> guarded_b lead n L q' = true.
Proof. unfold guarded_b. intros G H. apply andb_prop in G. destruct G as [_ G]. rewrite H, G. reflexivity. Qed.
Section Meta.
  Variable env : goenv.
  Variable d : draft.
  Hypothesis Hd : d <> Hybrid.
  Notation meant := (meaning (pat env) (fmt env) same (meta_leads d)).
  Notation M := (meant d).
  (** x is one of the schemas the meta-schema consists of. *)
  Definition in_meta (x : value) : Prop := mem (d, x) (meta_within d) = true.
  Lemma in_meta_rules x v : in_meta x -> (M x v <-> schema_sem (pat env) (fmt env) same meant (meta_leads d) d x v).
  Proof.
    intros H. apply meaning_rules. eapply guarded_well_founded; [|constructor].
    apply (guarded_checked (meta_lead d) (meta_leads d)) with (n := META_DEPTH) (L := meta_within d).
    - intros k q E d' y L. assert (E2 : meta_lead d k = Some (d', y)) by (apply meta_lead_leads; auto). congruence.
    - exact (guarded_mem _ _ _ _ _ (mf_guarded d (meta_facts_all d Hd)) H).
  Qed.
  Definition none (x : option value) : bool := match x with None => true | Some _ => false end.
  Definition meta_object (m : list (string * value)) : bool :=
    (mem (d, VMap m) (meta_within d) && none (assoc "$ref" m) && forallb (fun k => none (assoc k m)) unused)%bool.
  Lemma object_clauses m v : meta_object m = true -> (M (VMap m) v <-> conj_all (present m (clauses (pat env) (fmt env) same meant d m v))).
  Proof.
    unfold meta_object. rewrite !andb_true_iff. intros ((H1 & H2) & H3). rewrite (in_meta_rules _ _ H1). cbn [schema_sem].
    destruct (assoc "$ref" m); [discriminate|]. apply keywords_present. intros k Hk. rewrite forallb_forall in H3. specialize (H3 k Hk). destruct (assoc k m); [discriminate|auto].
  Qed.
  Lemma ref_followed m k x v : in_meta (VMap m) -> assoc "$ref" m = Some (VStr k) -> meta_lead d k = Some (d, x) -> (M (VMap m) v <-> M x v).
  Proof.
    intros H E L. rewrite (in_meta_rules _ _ H). cbn [schema_sem]. rewrite E. split.
    - intros (d' & y & Hl & K). assert (E2 : meta_lead d k = Some (d', y)) by (apply meta_lead_leads; auto). congruence.
    - intros K. exists d, x. split; auto. apply (meta_lead_leads d k (d, x) Hd). auto.
  Qed.
End Meta.

(** The clauses on their own. *)
Lemma type_one v t : c_type v (VStr t) <-> has_type t v.
Proof. unfold c_type. split; [intros [H _]; auto|intros H; split; [intros t' [= <-]; auto|discriminate]]. Qed.
Lemma type_two v t u : c_type v (VArr [VStr t; VStr u]) <-> has_type t v \/ has_type u v.
Proof.
  unfold c_type. split.
  - intros [_ H]. destruct (H _ eq_refl) as (x & Hx & K). destruct Hx as [[= <-]|[[= <-]|[]]]; auto.
  - intros H. split; [discriminate|]. intros ts [= <-]. destruct H; eexists; (split; [|eassumption]); simpl; auto.
Qed.
Ltac kinds := unfold has_type; split; [intros H; decompose [or and] H; try discriminate; auto|intros H; tauto].
Lemma type_string v : has_type "string" v <-> is_string v.
Proof. kinds. Qed.
Lemma type_boolean v : has_type "boolean" v <-> is_boolean v.
Proof. kinds. Qed.
Lemma type_number v : has_type "number" v <-> is_number v.
Proof. kinds. Qed.
Lemma type_integer v : has_type "integer" v <-> exists n, is_int v n.
Proof. kinds. Qed.
Lemma type_array v : has_type "array" v <-> is_array v.
Proof. kinds. Qed.
Lemma type_object v : has_type "object" v <-> is_object v.
Proof. kinds. Qed.
Lemma format_one fmt v f : c_format fmt v (VStr f) <-> fmt f v.
Proof. unfold c_format. split; [intros H; auto|intros H f' [= <-]; auto]. Qed.
Lemma denotes_zero : denotes "0" 0.
Proof. eapply denotes_ext; [apply (rat_of_denotes 10); [reflexivity|vm_compute; reflexivity]|reflexivity]. Qed.
Lemma denotes_one : denotes "1" (inject_Z 1).
Proof. eapply denotes_ext; [apply (rat_of_denotes 10); [reflexivity|vm_compute; reflexivity]|reflexivity]. Qed.
Lemma zero_is b : is_num (VNum "0") b <-> (b == 0)%Q.
Proof.
  split.
  - intros (s & [= <-] & D). exact (denotes_unique _ _ _ D denotes_zero).
  - intros E. exists "0". split; auto. eapply denotes_ext; [exact denotes_zero|symmetry; auto].
Qed.
Lemma one_int n : is_int (VNum "1") n <-> n = 1%Z.
Proof.
  split.
  - intros (s & [= <-] & D). pose proof (denotes_unique _ _ _ D denotes_one) as E. apply (inject_Z_injective n 1). exact E.
  - intros ->. exists "1". split; auto. exact denotes_one.
Qed.
Lemma min_one v : c_minItems v (VNum "1") <-> forall l, v = VArr l -> l <> [].
Proof.
  unfold c_minItems. split.
  - intros H l -> ->. specialize (H 1%Z [] (proj2 (one_int _) eq_refl) eq_refl). simpl in H. lia.
  - intros H n l E ->. apply one_int in E. subst. specialize (H l eq_refl). destruct l; [congruence|]. simpl length. lia.
Qed.
Lemma items_object V d v m : c_items V d v (VMap m) <-> forall l, v = VArr l -> forall e, In e l -> V d (VMap m) e.
Proof. unfold c_items. split; [intros H l E e; apply (H l E); discriminate|]. intros H l E. split; [discriminate|]. intros _ e He. exact (H l E e He). Qed.
Lemma items_true V d v : c_items V d v (VBool true) <-> forall l, v = VArr l -> forall e, In e l -> V d (VBool true) e.
Proof. unfold c_items. split; [intros H l E e; apply (H l E); discriminate|]. intros H l E. split; [discriminate|]. intros _ e He. exact (H l E e He). Qed.
Lemma unique_true same v : c_uniqueItems same v (VBool true) <-> forall l, v = VArr l -> distinct same l.
Proof. unfold c_uniqueItems, distinct. split; [intros H l E; apply H; auto|intros H l _ E; apply H; auto]. Qed.
Lemma any_list V d v l : c_anyOf V d v (VArr l) <-> exists s, In s l /\ V d s v.
Proof. unfold c_anyOf. split; [intros H; exact (H l eq_refl)|intros H l' [= <-]; exact H]. Qed.
Lemma all_list V d v l : c_allOf V d v (VArr l) <-> forall s, In s l -> V d s v.
Proof. unfold c_allOf. split; [intros H; exact (H l eq_refl)|intros H l' [= <-]; exact H]. Qed.
Lemma additional_any pat V d m v a : assoc "properties" m = None -> assoc "patternProperties" m = None ->
  (c_additionalProperties pat V d m v (VMap a) <-> forall o, v = VMap o -> forall k e, In (k, e) o -> V d (VMap a) e).
Proof.
  intros E1 E2. unfold c_additionalProperties. split.
  - intros H o E k e He. apply (H o E k e He); [|discriminate]. split; intros x Ex; congruence.
  - intros H o E k e He _. split; [discriminate|]. intros _. eapply H; eauto.
Qed.
Lemma same_text a b : same (VStr a) (VStr b) <-> a = b.
Proof.
  split; [|intros ->; constructor]. intros H. inversion H as [| |s|x y Hxy| |]; subst; auto.
  destruct Hxy as (f & [(s & E & _)|[E _]] & _); discriminate.
Qed.
Lemma distinct_texts l : distinct same (map VStr l) <-> NoDup l.
Proof.
  unfold distinct. split.
  - induction l as [|a l IH]; intros H; [constructor|]. constructor.
    + intros Hi. apply In_nth_error in Hi. destruct Hi as [j Ej]. apply (H 0 (S j) (VStr a) (VStr a)); [lia|reflexivity|cbn; rewrite nth_error_map, Ej; auto|constructor].
    + apply IH. intros i j x y L E1 E2. apply (H (S i) (S j)); auto. lia.
  - intros N i j x y L E1 E2 S. rewrite nth_error_map in E1, E2. destruct (nth_error l i) as [a|] eqn:Ei; [|discriminate]. destruct (nth_error l j) as [b|] eqn:Ej; [|discriminate].
    injection E1 as <-. injection E2 as <-. apply same_text in S. subst. rewrite NoDup_nth_error in N. assert (i = j); [|lia]. apply N; [apply nth_error_Some; congruence|congruence].
Qed.
Lemma all_texts l : (forall e, In e l -> is_string e) -> exists ss, l = map VStr ss.
Proof.
  induction l as [|a l IH]; intros H; [exists []; auto|]. destruct IH as [ss ->]; [intros e He; apply H; right; auto|]. destruct (H a (or_introl eq_refl)) as [s ->]. exists (s :: ss). auto.
Qed.
Lemma same_str v t : same v (VStr t) <-> v = VStr t.
Proof.
  split; [|intros ->; constructor]. intros H. inversion H as [| |s|x y Hxy| |]; subst; auto.
  destruct Hxy as (f & _ & [(s & E & _)|[E _]]); discriminate.
Qed.
Lemma enum_texts v l : c_enum same v (VArr (map VStr l)) <-> exists t, v = VStr t /\ In t l.
Proof.
  unfold c_enum. split.
  - intros H. destruct (H _ eq_refl) as (e & He & S). apply in_map_iff in He. destruct He as (t & <- & Ht). apply same_str in S. eauto.
  - intros (t & -> & Ht) l' [= <-]. exists (VStr t). split; [apply in_map; auto|constructor].
Qed.

(** ** The keywords, from the texts *)
Section Rows.
  Variable env : goenv.
  Notation meant d := (meaning (pat env) (fmt env) same (meta_leads d)).
  Notation has := (fun f s => fmt env f (VStr s)).

  Definition of_schemas (R : value -> Prop) (x : value) : Prop := exists ms, x = VMap ms /\ forall n y, In (n, y) ms -> R y.
  Definition of_patterns (R : value -> Prop) (x : value) : Prop := exists ms, x = VMap ms /\ (forall n y, In (n, y) ms -> R y) /\ (forall n, In n (map fst ms) -> has "regex" n).
  Definition schema_array (R : value -> Prop) (x : value) : Prop := exists l, x = VArr l /\ l <> [] /\ forall y, In y l -> R y.
  Definition needs (d : draft) (R : value -> Prop) (x : value) : Prop := exists ms, x = VMap ms /\ forall n y, In (n, y) ms -> R y \/ string_array d y.
  Definition anything (x : value) : Prop := True.
  Definition positive (x : value) : Prop := exists q, is_num x q /\ (0 < q)%Q.
  Definition expression (x : value) : Prop := exists s, x = VStr s /\ has "regex" s.
  Definition choices (x : value) : Prop := exists l, x = VArr l /\ l <> [] /\ distinct same l.

  Definition rows4 (R : value -> Prop) : list (string * (value -> Prop)) :=
    [("id", is_string); ("$schema", is_string); ("title", is_string); ("description", is_string); ("default", anything); ("multipleOf", positive);
     ("maximum", is_number); ("exclusiveMaximum", is_boolean); ("minimum", is_number); ("exclusiveMinimum", is_boolean); ("maxLength", non_negative_integer); ("minLength", non_negative_integer);
     ("pattern", expression); ("additionalItems", fun x => is_boolean x \/ R x); ("items", fun x => R x \/ schema_array R x); ("maxItems", non_negative_integer); ("minItems", non_negative_integer);
     ("uniqueItems", is_boolean); ("maxProperties", non_negative_integer); ("minProperties", non_negative_integer); ("required", string_array Draft4); ("additionalProperties", fun x => is_boolean x \/ R x);
     ("definitions", of_schemas R); ("properties", of_schemas R); ("patternProperties", of_schemas R); ("dependencies", needs Draft4 R); ("enum", choices); ("type", a_type); ("format", is_string);
     ("allOf", schema_array R); ("anyOf", schema_array R); ("oneOf", schema_array R); ("not", R)].
  Definition reference (d : draft) (f : string) (x : value) : Prop := exists s, x = VStr s /\ has f s.
  Definition rows6 (R : value -> Prop) : list (string * (value -> Prop)) :=
    [("$id", reference Draft6 "uri-reference"); ("$schema", reference Draft6 "uri"); ("$ref", reference Draft6 "uri-reference"); ("title", is_string); ("description", is_string); ("default", anything); ("examples", is_array); ("multipleOf", positive);
     ("maximum", is_number); ("exclusiveMaximum", is_number); ("minimum", is_number); ("exclusiveMinimum", is_number); ("maxLength", non_negative_integer); ("minLength", non_negative_integer);
     ("pattern", expression); ("additionalItems", R); ("items", fun x => R x \/ schema_array R x); ("maxItems", non_negative_integer); ("minItems", non_negative_integer);
     ("uniqueItems", is_boolean); ("contains", R); ("maxProperties", non_negative_integer); ("minProperties", non_negative_integer); ("required", string_array Draft6); ("additionalProperties", R);
     ("definitions", of_schemas R); ("properties", of_schemas R); ("patternProperties", of_schemas R); ("dependencies", needs Draft6 R); ("propertyNames", R); ("const", anything); ("enum", choices); ("type", a_type); ("format", is_string);
     ("allOf", schema_array R); ("anyOf", schema_array R); ("oneOf", schema_array R); ("not", R)].
  Definition rows7 (R : value -> Prop) : list (string * (value -> Prop)) :=
    [("$id", reference Draft7 "uri-reference"); ("$schema", reference Draft7 "uri"); ("$ref", reference Draft7 "uri-reference"); ("$comment", is_string); ("title", is_string); ("description", is_string); ("default", anything);
     ("readOnly", is_boolean); ("examples", is_array); ("multipleOf", positive);
     ("maximum", is_number); ("exclusiveMaximum", is_number); ("minimum", is_number); ("exclusiveMinimum", is_number); ("maxLength", non_negative_integer); ("minLength", non_negative_integer);
     ("pattern", expression); ("additionalItems", R); ("items", fun x => R x \/ schema_array R x); ("maxItems", non_negative_integer); ("minItems", non_negative_integer);
     ("uniqueItems", is_boolean); ("contains", R); ("maxProperties", non_negative_integer); ("minProperties", non_negative_integer); ("required", string_array Draft7); ("additionalProperties", R);
     ("definitions", of_schemas R); ("properties", of_schemas R); ("patternProperties", of_patterns R); ("dependencies", needs Draft7 R); ("propertyNames", R); ("const", anything); ("enum", choices); ("type", a_type); ("format", is_string);
     ("contentMediaType", is_string); ("contentEncoding", is_string); ("if", R); ("then", R); ("else", R);
     ("allOf", schema_array R); ("anyOf", schema_array R); ("oneOf", schema_array R); ("not", R)].
  Definition rows (d : draft) : (value -> Prop) -> list (string * (value -> Prop)) := match d with Draft4 => rows4 | Draft6 => rows6 | Draft7 => rows7 | Hybrid => fun _ => [] end.
  Definition meta_properties (d : draft) : list (string * value) :=
    match meta_doc d with VMap m => match assoc "properties" m with Some (VMap ps) => ps | _ => [] end | _ => [] end.


  (** The shapes the rows are written in. *)
  Lemma shape_string_format v f : is_string v /\ fmt env f v <-> exists s, v = VStr s /\ has f s.
  Proof. split; [intros [[s ->] H]; eauto|intros (s & -> & H); split; [eexists|]; eauto]. Qed.
  Lemma shape_non_negative d m v : assoc "exclusiveMinimum" m = None ->
    (exists n, is_int v n) /\ c_minimum d m v (VNum "0") <-> non_negative_integer v.
  Proof.
    intros N. unfold c_minimum, non_negative_integer. split.
    - intros [[n Hn] H]. exists n. split; auto. destruct (H _ _ Hn (proj2 (zero_is 0%Q) (Qeq_refl _))) as [L _]. unfold Qle in L. simpl in L. lia.
    - intros (n & Hn & L). split; eauto. intros q b Hq Hb. apply zero_is in Hb. destruct Hq as (s & -> & Dq), Hn as (s' & [= <-] & Dn).
      pose proof (denotes_unique _ _ _ Dq Dn) as E. split; [rewrite Hb, E; unfold Qle; simpl; lia|]. unfold SpecSchema.strict. rewrite N. intros [_ K]. discriminate.
  Qed.
  Lemma shape_positive6 d v : since6 d -> is_number v /\ c_exclusiveMinimum d v (VNum "0") <-> positive v.
  Proof.
    intros H6. unfold c_exclusiveMinimum, positive. split.
    - intros [[q Hq] H]. exists q. split; auto. apply (H H6 _ _ Hq). apply zero_is. reflexivity.
    - intros (q & Hq & L). split; [eexists; eauto|]. intros _ q' b Hq' Hb. apply zero_is in Hb. destruct Hq as (s & -> & D), Hq' as (s' & [= <-] & D').
      rewrite Hb, <- (denotes_unique _ _ _ D D'). auto.
  Qed.
  Lemma shape_positive4 m v : assoc "exclusiveMinimum" m = Some (VBool true) -> is_number v /\ c_minimum Draft4 m v (VNum "0") <-> positive v.
  Proof.
    intros N. unfold c_minimum, positive. split.
    - intros [[q Hq] H]. exists q. split; auto. apply (H _ _ Hq); [apply zero_is; reflexivity|]. split; [left; reflexivity|exact N].
    - intros (q & Hq & L). split; [eexists; eauto|]. intros q' b Hq' Hb. apply zero_is in Hb. destruct Hq as (s & -> & D), Hq' as (s' & [= <-] & D').
      rewrite Hb, <- (denotes_unique _ _ _ D D'). split; [apply Qlt_le_weak|]; auto.
  Qed.
  Lemma shape_array (P : value -> Prop) v : (is_array v /\ (forall l, v = VArr l -> forall e, In e l -> P e)) <-> exists l, v = VArr l /\ forall e, In e l -> P e.
  Proof. split; [intros [[l ->] H]; eexists; split; eauto|intros (l & -> & H); split; [eexists; eauto|intros l' [= <-]; auto]]. Qed.
  Lemma shape_schema_array (P : value -> Prop) v :
    (is_array v /\ (forall l, v = VArr l -> forall e, In e l -> P e) /\ (forall l, v = VArr l -> l <> [])) <-> schema_array P v.
  Proof.
    unfold schema_array. split; [intros ([l ->] & H & N); exists l; split; [reflexivity|]; split; [exact (N _ eq_refl) || exact (H _ eq_refl)|exact (N _ eq_refl) || exact (H _ eq_refl)]|]. intros (l & -> & N & H). split; [eexists; eauto|]. split; intros l' [= <-]; auto.
  Qed.
  Lemma shape_choices v : (is_array v /\ (forall l, v = VArr l -> l <> []) /\ (forall l, v = VArr l -> distinct same l)) <-> choices v.
  Proof.
    unfold choices. split; [intros ([l ->] & H & N); exists l; split; [reflexivity|]; split; [exact (N _ eq_refl) || exact (H _ eq_refl)|exact (N _ eq_refl) || exact (H _ eq_refl)]|]. intros (l & -> & N & H). split; [eexists; eauto|]. split; intros l' [= <-]; auto.
  Qed.
  Lemma shape_strings v (N : Prop) : (is_array v /\ (forall l, v = VArr l -> forall e, In e l -> is_string e) /\ N /\ (forall l, v = VArr l -> distinct same l)) <->
    exists l, texts v l /\ NoDup l /\ N.
  Proof.
    split.
    - intros ([l ->] & H & K & D). destruct (all_texts l) as [ss ->]; [intros e; exact (H l eq_refl e)|]. exists ss. split; [reflexivity|]. split; auto. apply distinct_texts. auto.
    - intros (l & E & D & K). unfold texts in E. subst v. split; [eexists; eauto|]. split; [|split; auto].
      + intros l' [= <-] e He. apply in_map_iff in He. destruct He as (s & <- & _). eexists; eauto.
      + intros l' [= <-]. apply distinct_texts. auto.
  Qed.
  Lemma shape_types v : (is_array v /\ (forall l, v = VArr l -> forall e, In e l -> exists t, e = VStr t /\ In t type_names) /\ (forall l, v = VArr l -> l <> []) /\ (forall l, v = VArr l -> distinct same l)) <->
    exists l, texts v l /\ l <> [] /\ NoDup l /\ incl l type_names.
  Proof.
    split.
    - intros ([l ->] & H & K & D). destruct (all_texts l) as [ss ->]; [intros e He; destruct (H l eq_refl e He) as (t & -> & _); eexists; eauto|]. exists ss. split; [reflexivity|].
      split; [intros ->; apply (K [] eq_refl eq_refl)|]. split; [apply distinct_texts; auto|]. intros t Ht. destruct (H _ eq_refl (VStr t)) as (u & [= <-] & Hu); auto. apply in_map; auto.
    - intros (l & E & N & D & K). unfold texts in E. subst v. split; [eexists; eauto|]. split; [|split].
      + intros l' [= <-] e He. apply in_map_iff in He. destruct He as (s & <- & Hs). exists s. auto.
      + intros l' [= <-] E. apply map_eq_nil in E. congruence.
      + intros l' [= <-]. apply distinct_texts. auto.
  Qed.
  Lemma shape_object (P : value -> Prop) v : (is_object v /\ (forall o, v = VMap o -> forall (k : string) e, In (k, e) o -> P e)) <-> of_schemas P v.
  Proof. unfold of_schemas. split; [intros [[o ->] H]; exists o; split; eauto|intros (o & -> & H); split; [eexists; eauto|intros o' [= <-]; auto]]. Qed.
  Lemma the_types t : In t ["array"; "boolean"; "integer"; "null"; "number"; "object"; "string"] <-> In t type_names.
  Proof. unfold type_names. simpl. tauto. Qed.

  (** One row: the schema of the keyword k means P. *)
  Definition row_ok (d : draft) (e : string * value) (r : string * (value -> Prop)) : Prop := fst e = fst r /\ forall v, meant d d (snd e) v <-> snd r v.
End Rows.


Section Iff.
  Variable V : draft -> value -> value -> Prop.
  Variable d : draft.
  Variables P Q : value -> Prop.
  Lemma items_iff v m : (forall e, V d (VMap m) e <-> P e) -> (c_items V d v (VMap m) <-> forall l, v = VArr l -> forall e, In e l -> P e).
  Proof. intros H. rewrite items_object. split; intros K l E e He; apply H, (K l E e He). Qed.
  Lemma items_any v : (forall e, V d (VBool true) e) -> (c_items V d v (VBool true) <-> True).
  Proof. intros H. rewrite items_true. split; auto. Qed.
  Lemma items_empty v : (forall e, V d (VMap []) e) -> (c_items V d v (VMap []) <-> True).
  Proof. intros H. rewrite items_object. split; auto. Qed.
  Lemma additional_iff pat m v a : assoc "properties" m = None -> assoc "patternProperties" m = None -> (forall e, V d (VMap a) e <-> P e) ->
    (c_additionalProperties pat V d m v (VMap a) <-> forall o, v = VMap o -> forall k e, In (k, e) o -> P e).
  Proof. intros E1 E2 H. rewrite additional_any by auto. split; intros K o E k e He; apply H, (K o E k e He). Qed.
  Lemma any_two v a b : (forall e, V d a e <-> P e) -> (forall e, V d b e <-> Q e) -> (c_anyOf V d v (VArr [a; b]) <-> P v \/ Q v).
  Proof.
    intros H1 H2. rewrite any_list. split.
    - intros (s & [<-|[<-|[]]] & K); [left; apply H1|right; apply H2]; auto.
    - intros [K|K]; [exists a|exists b]; (split; [simpl; auto|]); [apply H1|apply H2]; auto.
  Qed.
  Lemma all_two v a b : (forall e, V d a e <-> P e) -> (forall e, V d b e) -> (c_allOf V d v (VArr [a; b]) <-> P v).
  Proof.
    intros H1 H2. rewrite all_list. split.
    - intros K. apply H1, K. left; auto.
    - intros K s [<-|[<-|[]]]; [apply H1|]; auto.
  Qed.
End Iff.
Lemma names_regex V env d v : since6 d -> (forall e, V d (VMap [("format", VStr "regex")]) e <-> fmt env "regex" e) ->
  (c_propertyNames V d v (VMap [("format", VStr "regex")]) <-> forall o, v = VMap o -> forall k, In k (map fst o) -> fmt env "regex" (VStr k)).
Proof. intros H6 H. unfold c_propertyNames. split; [intros K o E k Hk; apply H, (K H6 o E k Hk)|intros K _ o E k Hk; apply H, (K o E k Hk)]. Qed.
Lemma shape_patterns env (R : value -> Prop) v : (is_object v /\ (forall o, v = VMap o -> forall (k : string) e, In (k, e) o -> R e) /\ (forall o, v = VMap o -> forall k, In k (map fst o) -> fmt env "regex" (VStr k))) <->
  of_patterns env R v.
Proof.
  unfold of_patterns. split; [intros ([o ->] & H & K); exists o; split; [reflexivity|split; [exact (H _ eq_refl)|exact (K _ eq_refl)]]|].
  intros (o & -> & H & K). split; [eexists; eauto|split; intros o' [= <-]; auto].
Qed.
Lemma strings4 v : (exists l, texts v l /\ NoDup l /\ (forall l', v = VArr l' -> l' <> [])) <-> string_array Draft4 v.
Proof.
  unfold string_array, texts. split; intros (l & -> & N & H); exists l; (split; [reflexivity|split; [exact N|]]).
  - intros _ ->. exact (H [] eq_refl eq_refl).
  - intros l' [= <-] E. apply map_eq_nil in E. exact (H eq_refl E).
Qed.
Lemma strings6 d v : since6 d -> (exists l, texts v l /\ NoDup l /\ True) <-> string_array d v.
Proof.
  unfold string_array, texts. intros H6. split; intros (l & E & N & H); exists l; (split; [exact E|split; [exact N|]]); [intros K; destruct (H6 K)|exact I].
Qed.

Ltac spell Hd := rewrite (object_clauses _ _ Hd) by (vm_compute; reflexivity); cbv [present clauses flat_map app assoc fst snd conj_all String.eqb Ascii.eqb Bool.eqb].
Ltac plain := rewrite ?type_one, ?type_string, ?type_boolean, ?type_number, ?type_integer, ?type_array, ?type_object, ?format_one, ?min_one, ?unique_true.
Ltac step_ref env Hd k := rewrite (ref_followed env _ Hd [("$ref", VStr k)] k _ _ ltac:(vm_compute; reflexivity) eq_refl ltac:(vm_compute; reflexivity)).

Section Table.
  Variable env : goenv.
  Notation meant d := (meaning (pat env) (fmt env) same (meta_leads d)).
  Notation has := (fun f s => fmt env f (VStr s)).
  Notation ref k := (VMap [("$ref", VStr k)]).

  Lemma root_ref d v : d <> Hybrid -> meant d d (ref (meta_at d)) v <-> meant d d (meta_doc d) v.
  Proof.
    intros Hd. apply (ref_followed env d Hd _ (meta_at d)); [destruct d; try congruence; vm_compute; reflexivity|reflexivity|]. unfold meta_lead, meta_lib. cbn [assoc]. rewrite String.eqb_refl. auto.
  Qed.
  Variable R : value -> Prop.
  Lemma table4 : (forall v, meant Draft4 Draft4 (ref (meta_at Draft4)) v <-> R v) -> Forall2 (row_ok env Draft4) (meta_properties Draft4) (rows env Draft4 R).
  Proof.
    assert (Hd : Draft4 <> Hybrid) by discriminate. cbv [meta_at]. intros HR.
    assert (Ms : forall v, meant Draft4 Draft4 (VMap [("type", VStr "string")]) v <-> is_string v) by (intros v; spell Hd; plain; try reflexivity).
    assert (Mb : forall v, meant Draft4 Draft4 (VMap [("type", VStr "boolean")]) v <-> is_boolean v) by (intros v; spell Hd; plain; try reflexivity).
    assert (Me : forall v, meant Draft4 Draft4 (VMap []) v) by (intros v; spell Hd; exact I).
    assert (Mz : forall v, meant Draft4 Draft4 (VMap [("default", VNum "0")]) v) by (intros v; spell Hd; exact I).
    assert (Mp : forall v, meant Draft4 Draft4 (ref "http://json-schema.org/draft-04/schema#/definitions/positiveInteger") v <-> non_negative_integer v).
    { intros v. erewrite (ref_followed env _ Hd) by (vm_compute; reflexivity). spell Hd. plain. apply shape_non_negative. reflexivity. }
    assert (Mq : forall v, meant Draft4 Draft4 (ref "http://json-schema.org/draft-04/schema#/definitions/positiveIntegerDefault0") v <-> non_negative_integer v).
    { intros v. erewrite (ref_followed env _ Hd) by (vm_compute; reflexivity). spell Hd. apply all_two; auto. }
    assert (Mt : forall v, meant Draft4 Draft4 (ref "http://json-schema.org/draft-04/schema#/definitions/simpleTypes") v <-> exists t, v = VStr t /\ In t type_names).
    { intros v. erewrite (ref_followed env _ Hd) by (vm_compute; reflexivity). spell Hd.
      rewrite (enum_texts v ["array"; "boolean"; "integer"; "null"; "number"; "object"; "string"]). split; intros (t & E & K); exists t; (split; [exact E|]); apply the_types; exact K. }
    assert (Ma : forall v, meant Draft4 Draft4 (ref "http://json-schema.org/draft-04/schema#/definitions/schemaArray") v <-> schema_array R v).
    { intros v. erewrite (ref_followed env _ Hd) by (vm_compute; reflexivity). spell Hd. rewrite (items_iff _ _ R v _ HR). plain. apply shape_schema_array. }
    assert (Mx : forall v, meant Draft4 Draft4 (ref "http://json-schema.org/draft-04/schema#/definitions/stringArray") v <-> string_array Draft4 v).
    { intros v. erewrite (ref_followed env _ Hd) by (vm_compute; reflexivity). spell Hd. rewrite (items_iff _ _ is_string v _ Ms). plain. rewrite shape_strings. apply strings4. }
    assert (Mn : forall v, meant Draft4 Draft4 (VMap [("anyOf", VArr [ref "http://json-schema.org/draft-04/schema"; ref "http://json-schema.org/draft-04/schema#/definitions/stringArray"])]) v <-> R v \/ string_array Draft4 v).
    { intros v. spell Hd. apply any_two; auto. }
    assert (Ml : forall v, meant Draft4 Draft4 (VMap [("type", VStr "array"); ("items", ref "http://json-schema.org/draft-04/schema#/definitions/simpleTypes"); ("minItems", VNum "1"); ("uniqueItems", VBool true)]) v <->
      exists l, texts v l /\ l <> [] /\ NoDup l /\ incl l type_names).
    { intros v. spell Hd. rewrite (items_iff _ _ _ v _ Mt). plain. apply shape_types. }
    unfold rows, rows4. cbv [meta_properties meta_doc schema4 assoc String.eqb Ascii.eqb Bool.eqb].
    repeat (constructor; [split; [reflexivity|cbn [snd]; intros v]|]); [..|constructor].
    all: try (exact (Ms v) || exact (HR v) || exact (Mp v) || exact (Mq v) || exact (Ma v) || exact (Mx v)).
    all: try (split; [intros; exact I|intros _; exact (Me v)]).
    all: spell Hd; plain; try reflexivity.
    all: try apply shape_string_format.
    all: try (rewrite <- (shape_positive4 [("type", VStr "number"); ("minimum", VNum "0"); ("exclusiveMinimum", VBool true)]) by reflexivity; split; [intros (K1 & K2 & _); split; [exact K1|exact K2]|intros (K1 & K2); split; [exact K1|split; [exact K2|intros K3; destruct (K3 eq_refl)]]]).
    all: try (apply any_two; auto; fail).
    all: try (rewrite (additional_iff _ _ R) by (reflexivity || exact HR); apply shape_object).
    all: try (rewrite (additional_iff _ _ (fun x => R x \/ string_array Draft4 x)) by (reflexivity || exact Mn); apply (shape_object (fun x => R x \/ string_array Draft4 x))).
    all: try exact (any_two _ _ _ _ v _ _ Mt Ml).
    all: try apply shape_choices.
  Qed.
  Lemma table6 : (forall v, meant Draft6 Draft6 (ref (meta_at Draft6)) v <-> R v) -> Forall2 (row_ok env Draft6) (meta_properties Draft6) (rows env Draft6 R).
  Proof.
    assert (Hd : Draft6 <> Hybrid) by discriminate. cbv [meta_at]. intros HR.
    assert (Ms : forall v, meant Draft6 Draft6 (VMap [("type", VStr "string")]) v <-> is_string v) by (intros v; spell Hd; plain; try reflexivity).
    assert (Me : forall v, meant Draft6 Draft6 (VMap []) v) by (intros v; spell Hd; exact I).
    assert (Mz : forall v, meant Draft6 Draft6 (VMap [("default", VNum "0")]) v) by (intros v; spell Hd; exact I).
    assert (Mp : forall v, meant Draft6 Draft6 (ref "http://json-schema.org/draft-06/schema#/definitions/nonNegativeInteger") v <-> non_negative_integer v).
    { intros v. erewrite (ref_followed env _ Hd) by (vm_compute; reflexivity). spell Hd. plain. apply shape_non_negative. reflexivity. }
    assert (Mq : forall v, meant Draft6 Draft6 (ref "http://json-schema.org/draft-06/schema#/definitions/nonNegativeIntegerDefault0") v <-> non_negative_integer v).
    { intros v. erewrite (ref_followed env _ Hd) by (vm_compute; reflexivity). spell Hd. apply all_two; auto. }
    assert (Mt : forall v, meant Draft6 Draft6 (ref "http://json-schema.org/draft-06/schema#/definitions/simpleTypes") v <-> exists t, v = VStr t /\ In t type_names).
    { intros v. erewrite (ref_followed env _ Hd) by (vm_compute; reflexivity). spell Hd.
      rewrite (enum_texts v ["array"; "boolean"; "integer"; "null"; "number"; "object"; "string"]). split; intros (t & E & K); exists t; (split; [exact E|]); apply the_types; exact K. }
    assert (Ma : forall v, meant Draft6 Draft6 (ref "http://json-schema.org/draft-06/schema#/definitions/schemaArray") v <-> schema_array R v).
    { intros v. erewrite (ref_followed env _ Hd) by (vm_compute; reflexivity). spell Hd. rewrite (items_iff _ _ R v _ HR). plain. apply shape_schema_array. }
    assert (Mx : forall v, meant Draft6 Draft6 (ref "http://json-schema.org/draft-06/schema#/definitions/stringArray") v <-> string_array Draft6 v).
    { intros v. erewrite (ref_followed env _ Hd) by (vm_compute; reflexivity). spell Hd. rewrite (items_iff _ _ is_string v _ Ms). plain. rewrite <- (strings6 Draft6) by discriminate. rewrite <- shape_strings. split; [intros (K1 & K2 & K3); auto|intros (K1 & K2 & _ & K3); auto]. }
    assert (Mn : forall v, meant Draft6 Draft6 (VMap [("anyOf", VArr [ref "http://json-schema.org/draft-06/schema"; ref "http://json-schema.org/draft-06/schema#/definitions/stringArray"])]) v <-> R v \/ string_array Draft6 v).
    { intros v. spell Hd. apply any_two; auto. }
    assert (Ml : forall v, meant Draft6 Draft6 (VMap [("type", VStr "array"); ("items", ref "http://json-schema.org/draft-06/schema#/definitions/simpleTypes"); ("minItems", VNum "1"); ("uniqueItems", VBool true)]) v <->
      exists l, texts v l /\ l <> [] /\ NoDup l /\ incl l type_names).
    { intros v. spell Hd. rewrite (items_iff _ _ _ v _ Mt). plain. apply shape_types. }
    unfold rows, rows6. cbv [meta_properties meta_doc schema6 assoc String.eqb Ascii.eqb Bool.eqb].
    repeat (constructor; [split; [reflexivity|cbn [snd]; intros v]|]); [..|constructor].
    all: try (exact (Ms v) || exact (HR v) || exact (Mp v) || exact (Mq v) || exact (Ma v) || exact (Mx v)).
    all: try (split; [intros; exact I|intros _; exact (Me v)]).
    all: spell Hd; plain; try reflexivity.
    all: try apply shape_string_format.
    all: try (apply shape_positive6; discriminate).
    all: try (apply any_two; auto; fail).
    all: try (rewrite (additional_iff _ _ R) by (reflexivity || exact HR); apply shape_object).
    all: try (rewrite (additional_iff _ _ (fun x => R x \/ string_array Draft6 x)) by (reflexivity || exact Mn); apply (shape_object (fun x => R x \/ string_array Draft6 x))).
    all: try exact (any_two _ _ _ _ v _ _ Mt Ml).
    all: try apply shape_choices.
    all: try (rewrite items_empty by (exact Me)).
    all: try (split; [intros [K _]; exact K|intros K; split; [exact K|exact I]]).
    all: try (rewrite <- shape_choices; split; [intros (K1 & _ & K2); split; [exact K1|exact K2]|intros (K1 & K2); split; [exact K1|split; [exact I|exact K2]]]).
  Qed.
  Lemma table7 : (forall v, meant Draft7 Draft7 (ref (meta_at Draft7)) v <-> R v) -> Forall2 (row_ok env Draft7) (meta_properties Draft7) (rows env Draft7 R).
  Proof.
    assert (Hd : Draft7 <> Hybrid) by discriminate. cbv [meta_at]. intros HR.
    assert (Ms : forall v, meant Draft7 Draft7 (VMap [("type", VStr "string")]) v <-> is_string v) by (intros v; spell Hd; plain; try reflexivity).
    assert (Me : forall v, meant Draft7 Draft7 (VBool true) v) by (intros v; apply (proj2 (in_meta_rules env Draft7 Hd (VBool true) v ltac:(vm_compute; reflexivity))); reflexivity).
    assert (Mz : forall v, meant Draft7 Draft7 (VMap [("default", VNum "0")]) v) by (intros v; spell Hd; exact I).
    assert (Mp : forall v, meant Draft7 Draft7 (ref "http://json-schema.org/draft-07/schema#/definitions/nonNegativeInteger") v <-> non_negative_integer v).
    { intros v. erewrite (ref_followed env _ Hd) by (vm_compute; reflexivity). spell Hd. plain. apply shape_non_negative. reflexivity. }
    assert (Mq : forall v, meant Draft7 Draft7 (ref "http://json-schema.org/draft-07/schema#/definitions/nonNegativeIntegerDefault0") v <-> non_negative_integer v).
    { intros v. erewrite (ref_followed env _ Hd) by (vm_compute; reflexivity). spell Hd. apply all_two; auto. }
    assert (Mt : forall v, meant Draft7 Draft7 (ref "http://json-schema.org/draft-07/schema#/definitions/simpleTypes") v <-> exists t, v = VStr t /\ In t type_names).
    { intros v. erewrite (ref_followed env _ Hd) by (vm_compute; reflexivity). spell Hd.
      rewrite (enum_texts v ["array"; "boolean"; "integer"; "null"; "number"; "object"; "string"]). split; intros (t & E & K); exists t; (split; [exact E|]); apply the_types; exact K. }
    assert (Ma : forall v, meant Draft7 Draft7 (ref "http://json-schema.org/draft-07/schema#/definitions/schemaArray") v <-> schema_array R v).
    { intros v. erewrite (ref_followed env _ Hd) by (vm_compute; reflexivity). spell Hd. rewrite (items_iff _ _ R v _ HR). plain. apply shape_schema_array. }
    assert (Mx : forall v, meant Draft7 Draft7 (ref "http://json-schema.org/draft-07/schema#/definitions/stringArray") v <-> string_array Draft7 v).
    { intros v. erewrite (ref_followed env _ Hd) by (vm_compute; reflexivity). spell Hd. rewrite (items_iff _ _ is_string v _ Ms). plain. rewrite <- (strings6 Draft7) by discriminate. rewrite <- shape_strings. split; [intros (K1 & K2 & K3); auto|intros (K1 & K2 & _ & K3); auto]. }
    assert (Mn : forall v, meant Draft7 Draft7 (VMap [("anyOf", VArr [ref "http://json-schema.org/draft-07/schema"; ref "http://json-schema.org/draft-07/schema#/definitions/stringArray"])]) v <-> R v \/ string_array Draft7 v).
    { intros v. spell Hd. apply any_two; auto. }
    assert (Ml : forall v, meant Draft7 Draft7 (VMap [("type", VStr "array"); ("items", ref "http://json-schema.org/draft-07/schema#/definitions/simpleTypes"); ("minItems", VNum "1"); ("uniqueItems", VBool true)]) v <->
      exists l, texts v l /\ l <> [] /\ NoDup l /\ incl l type_names).
    { intros v. spell Hd. rewrite (items_iff _ _ _ v _ Mt). plain. apply shape_types. }
    assert (Mf : forall v, meant Draft7 Draft7 (VMap [("format", VStr "regex")]) v <-> fmt env "regex" v) by (intros v; spell Hd; plain; try reflexivity).
    unfold rows, rows7. cbv [meta_properties meta_doc schema7 assoc String.eqb Ascii.eqb Bool.eqb].
    repeat (constructor; [split; [reflexivity|cbn [snd]; intros v]|]); [..|constructor].
    all: try (exact (Ms v) || exact (HR v) || exact (Mp v) || exact (Mq v) || exact (Ma v) || exact (Mx v)).
    all: try (split; [intros; exact I|intros _; exact (Me v)]).
    all: spell Hd; plain; try reflexivity.
    all: try apply shape_string_format.
    all: try (apply shape_positive6; discriminate).
    all: try (apply any_two; auto; fail).
    all: try (rewrite (additional_iff _ _ R) by (reflexivity || exact HR); apply shape_object).
    all: try (rewrite (additional_iff _ _ (fun x => R x \/ string_array Draft7 x)) by (reflexivity || exact Mn); apply (shape_object (fun x => R x \/ string_array Draft7 x))).
    all: try exact (any_two _ _ _ _ v _ _ Mt Ml).
    all: try apply shape_choices.
    all: try (rewrite items_any by (exact Me)).
    all: try (split; [intros [K _]; exact K|intros K; split; [exact K|exact I]]).
    all: try (rewrite <- shape_choices; split; [intros (K1 & _ & K2); split; [exact K1|exact K2]|intros (K1 & K2); split; [exact K1|split; [exact I|exact K2]]]).
    all: try (rewrite (additional_iff _ _ R) by (reflexivity || exact HR); rewrite (names_regex _ env) by (discriminate || exact Mf); apply shape_patterns).
  Qed.
End Table.

(** ** The rows and the drafts *)
Section Lawful.
  Variable env : goenv.
  Notation has := (fun f s => fmt env f (VStr s)).
  Variable R : value -> Prop.
  Variable o : list (string * value).
  Definition kept (rs : list (string * (value -> Prop))) : Prop := Forall (fun r => kw o (fst r) (snd r)) rs.
  Definition with_bounds : Prop :=
    (assoc "exclusiveMaximum" o <> None -> assoc "maximum" o <> None) /\ (assoc "exclusiveMinimum" o <> None -> assoc "minimum" o <> None).
  Lemma array_or x : is_array x \/ ~ is_array x.
  Proof. destruct x; try (right; intros [? K]; discriminate K). left. eexists; eauto. Qed.
  Lemma boolean_or x : is_boolean x \/ ~ is_boolean x.
  Proof. destruct x; try (right; intros [? K]; discriminate K). left. eexists; eauto. Qed.
  Lemma forall_cons {A} (P : A -> Prop) a l : Forall P (a :: l) <-> P a /\ Forall P l.
  Proof. split; [intros H; inversion H; auto|intros [? ?]; constructor; auto]. Qed.
  Lemma kw_mono k (P Q : value -> Prop) : (forall x, P x -> Q x) -> kw o k P -> kw o k Q.
  Proof. intros H K x E. apply H, (K x E). Qed.

  Section Each.
    Variable d : draft.
    Hypothesis HR : forall x, R x -> is_object x \/ since6 d /\ is_boolean x.
    Lemma not_array x : R x -> ~ is_array x.
    Proof. intros H [l ->]. destruct (HR _ H) as [[? K]|[_ [? K]]]; discriminate K. Qed.
    Lemma i_address4 f x : is_string x -> address has Draft4 f x.
    Proof. intros [s ->]. exists s. split; auto. intros C. destruct (C eq_refl). Qed.
    Lemma i_address6 d' f x : reference env d' f x -> address has d f x.
    Proof. intros (s & -> & H). exists s. auto. Qed.
    Lemma i_array x : schema_array R x -> non_empty_array x.
    Proof. intros (l & -> & N & _). exists l. auto. Qed.
    Lemma i_items x : R x \/ schema_array R x -> forall l, x = VArr l -> l <> [].
    Proof. intros [H|(l & -> & N & _)] l' E; [subst x; destruct (not_array _ H); eexists; eauto|congruence]. Qed.
    Lemma i_object x : of_schemas R x -> is_object x.
    Proof. intros (ms & -> & _). eexists; eauto. Qed.
    Lemma i_patterns6 x : ~ since7 d -> of_schemas R x -> exists ps, x = VMap ps /\ (since7 d -> forall p (y : value), In (p, y) ps -> fmt env "regex" (VStr p)).
    Proof. intros C (ms & -> & _). exists ms. split; auto. intros K. destruct (C K). Qed.
    Lemma i_patterns7 x : of_patterns env R x -> exists ps, x = VMap ps /\ (since7 d -> forall p (y : value), In (p, y) ps -> fmt env "regex" (VStr p)).
    Proof. intros (ms & -> & _ & H). exists ms. split; auto. intros _ p y Hp. apply H. apply (in_map fst) in Hp. exact Hp. Qed.
    Lemma i_needs x : needs d R x -> exists ds, x = VMap ds /\ (forall (n : string) y, In (n, y) ds -> is_array y -> string_array d y).
    Proof. intros (ms & -> & H). exists ms. split; auto. intros n y Hy A. destruct (H n y Hy) as [K|K]; auto. destruct (not_array _ K A). Qed.
    Lemma i_exclusive4 key k : (assoc key o <> None -> assoc k o <> None) -> kw o key is_boolean -> kw o key (exclusive Draft4 o k).
    Proof. intros B K x E. left. split; auto. split; [exact (K x E)|]. apply B. congruence. Qed.
    Lemma i_exclusive6 key k : since6 d -> kw o key is_number -> kw o key (exclusive d o k).
    Proof. intros C K x E. right. split; auto. Qed.
    (* backwards *)
    Hypothesis S : forall x, schema_in d o x -> R x.
    Lemma b_schemas k x : In k ["definitions"; "properties"; "patternProperties"] -> assoc k o = Some x -> is_object x -> of_schemas R x.
    Proof. intros Hk E [ms ->]. exists ms. split; auto. intros n y Hy. apply S. eapply in_member; eauto. Qed.
    Lemma b_patterns6 x : assoc "patternProperties" o = Some x -> (exists ps, x = VMap ps /\ (since7 d -> forall p (y : value), In (p, y) ps -> fmt env "regex" (VStr p))) -> of_schemas R x.
    Proof. intros E (ms & -> & _). exists ms. split; auto. intros n y Hy. apply S. eapply in_member; eauto. simpl; auto. Qed.
    Lemma b_patterns7 x : since7 d -> assoc "patternProperties" o = Some x -> (exists ps, x = VMap ps /\ (since7 d -> forall p (y : value), In (p, y) ps -> fmt env "regex" (VStr p))) -> of_patterns env R x.
    Proof.
      intros C E (ms & -> & H). exists ms. split; auto. split; [intros n y Hy; apply S; eapply in_member; eauto; simpl; auto|].
      intros n Hn. apply in_map_iff in Hn. destruct Hn as ([n' y] & <- & Hy). exact (H C _ _ Hy).
    Qed.
    Lemma b_array k x : In k ["items"; "allOf"; "anyOf"; "oneOf"] -> assoc k o = Some x -> non_empty_array x -> schema_array R x.
    Proof. intros Hk E (l & -> & N). exists l. split; auto. split; auto. intros y Hy. apply S. eapply in_element; eauto. Qed.
    Lemma b_items x : assoc "items" o = Some x -> (forall l, x = VArr l -> l <> []) -> R x \/ schema_array R x.
    Proof.
      intros E H. destruct (array_or x) as [[l ->]|N]; [right|left; apply S; eapply in_items; eauto].
      eapply (b_array "items"); simpl; auto. exists l. split; auto.
    Qed.
    Lemma b_additional4 k x : In k ["additionalItems"; "additionalProperties"] -> assoc k o = Some x -> is_boolean x \/ R x.
    Proof. intros Hk E. destruct (boolean_or x) as [B|N]; [left; auto|right; apply S; refine (in_additional d o k x Hk E _); intros [_ K]; exact (N K)]. Qed.
    Lemma b_additional6 k x : since6 d -> In k ["additionalItems"; "additionalProperties"] -> assoc k o = Some x -> R x.
    Proof. intros C Hk E. apply S. refine (in_additional d o k x Hk E _). intros [K _]; exact (C K). Qed.
    Lemma b_needs x : assoc "dependencies" o = Some x -> (exists ds, x = VMap ds /\ (forall (n : string) y, In (n, y) ds -> is_array y -> string_array d y)) -> needs d R x.
    Proof.
      intros E (ms & -> & H). exists ms. split; auto. intros n y Hy. destruct (array_or y) as [A|N]; [right; eauto|left; apply S; eapply in_dependency; eauto].
    Qed.
    Lemma b_address d' f x : since6 d -> address has d f x -> reference env d' f x.
    Proof. intros C (s & -> & H). exists s. auto. Qed.
    Lemma b_address4 f x : address has d f x -> is_string x.
    Proof. intros (s & -> & H). exists s. auto. Qed.
    Lemma b_exclusive4 k x : exclusive Draft4 o k x -> is_boolean x.
    Proof. intros [(_ & H & _)|[C _]]; auto. destruct (C eq_refl). Qed.
    Lemma b_exclusive6 k x : since6 d -> exclusive d o k x -> is_number x.
    Proof. intros C [(E & _)|[_ H]]; auto. destruct (C E). Qed.
    Lemma b_bounds key k : kw o key (exclusive Draft4 o k) -> assoc key o <> None -> assoc k o <> None.
    Proof. intros K N. destruct (assoc key o) as [x|] eqn:E; [|congruence]. destruct (K x E) as [(_ & _ & H)|[C _]]; [exact H|destruct (C eq_refl)]. Qed.
  End Each.
  Lemma rows_lawful4 : (forall x, R x -> is_object x \/ since6 Draft4 /\ is_boolean x) ->
    (kept (rows4 env R) /\ with_bounds <-> lawful_keywords has same Draft4 o /\ forall x, schema_in Draft4 o x -> R x).
  Proof.
    intros HR. split.
    - intros [H [B1 B2]]. unfold kept, rows4 in H. repeat (apply forall_cons in H; let K := fresh "K" in destruct H as [K H]; cbn [fst snd] in K). split.
      + unfold lawful_keywords, identified, annotated, bounded, listed, holding. repeat match goal with |- _ /\ _ => split end.
        all: try (intros C; destruct (C eq_refl)); try (intros [C|C]; discriminate C); try (intros C; discriminate C); try (intros _).
        all: repeat match goal with |- _ /\ _ => split end.
        all: try assumption.
        all: match goal with
          | |- kw o ?k (exclusive _ _ _) => apply i_exclusive4; [assumption|assumption]
          | K : kw o ?k ?P |- kw o ?k ?Q => refine (kw_mono k P Q _ K); intros x Hx
          end.
        all: first [exact (i_address4 _ x Hx)|exact (i_address6 Draft4 _ _ x Hx)|exact (i_array x Hx)|exact (i_items Draft4 HR x Hx)|exact (i_object x Hx)|refine (i_patterns6 Draft4 x _ Hx); (intros [K99|K99]; discriminate K99)|exact (i_needs Draft4 HR x Hx)].
      + intros x X. destruct X as [k ms y x Hk E Hy|ds y x E Hy N|k x Hk E N|x E N|k l x Hk E Hx|x E|k x C Hk E|k x C Hk E].
        * destruct Hk as [<-|[<-|[<-|[]]]]; match goal with K : kw o ?k ?P, E : assoc ?k o = _ |- _ => destruct (K _ E) as (ms' & E' & K'); injection E' as <- end; try exact (K' _ _ Hy). 
        * match goal with K : kw o ?k ?P, E : assoc ?k o = _ |- _ => destruct (K _ E) as (ms' & E' & K'); injection E' as <- end. destruct (K' _ _ Hy) as [K''|(l & E' & _)]; auto. destruct N. eexists; exact E'.
        * destruct Hk as [<-|[<-|[]]]; match goal with K : kw o ?k ?P, E : assoc ?k o = _ |- _ => pose proof (K _ E) as K' end; (destruct K' as [K'|K']; [destruct N; auto|exact K']).
        * match goal with K : kw o ?k ?P, E : assoc ?k o = _ |- _ => destruct (K _ E) as [K'|(l & E' & _)] end; auto. destruct N. eexists; exact E'.
        * destruct Hk as [<-|Hk].
          -- match goal with K : kw o ?k ?P, E : assoc ?k o = _ |- _ => destruct (K _ E) as [K'|(l' & E' & _ & K')] end; [destruct (not_array Draft4 HR _ K'); eexists; reflexivity|injection E' as <-; auto].
          -- destruct Hk as [<-|[<-|[<-|[]]]]; match goal with K : kw o ?k ?P, E : assoc ?k o = _ |- _ => destruct (K _ E) as (l' & E' & _ & K') end; injection E' as <-; auto.
        * match goal with K : kw o ?k ?P, E : assoc ?k o = _ |- _ => exact (K _ E) end.
        * destruct (C eq_refl).
        * destruct C as [C|C]; discriminate C.
    - intros [L S]. unfold lawful_keywords, identified, annotated, bounded, listed, holding in L.
      assert (C4 : Draft4 = Draft4) by reflexivity.
      
      decompose [and] L. clear L.
      repeat match goal with H : Draft4 = Draft4 -> _ |- _ => specialize (H C4)  end.
      split; [|split; (eapply b_bounds; eassumption)].
      unfold kept, rows4. repeat (constructor; [cbn [fst snd]|]); [..|constructor]; try assumption.
      all: intros x E; try exact I.
      all: try (match goal with K : kw o ?k ?P, E : assoc ?k o = _ |- _ => pose proof (K _ E) as Kx end).
      all: cbv beta.
      all: first [exact Kx|refine (b_schemas Draft4 S _ x _ E Kx); simpl; tauto|exact (b_patterns6 Draft4 S x E Kx)|refine (b_array Draft4 S _ x _ E Kx); simpl; tauto|exact (b_items Draft4 S x E Kx)|exact (b_needs Draft4 S x E Kx)
        |refine (b_additional4 Draft4 S _ x _ E); simpl; tauto|exact (b_address4 Draft4 _ x Kx)|exact (b_exclusive4 _ x Kx)
        |apply S; exact (in_not Draft4 o x E)].
  Qed.
  Lemma rows_lawful6 : (forall x, R x -> is_object x \/ since6 Draft6 /\ is_boolean x) ->
    (kept (rows6 env R) <-> lawful_keywords has same Draft6 o /\ forall x, schema_in Draft6 o x -> R x).
  Proof.
    intros HR. split.
    - intros H. unfold kept, rows6 in H. repeat (apply forall_cons in H; let K := fresh "K" in destruct H as [K H]; cbn [fst snd] in K). split.
      + unfold lawful_keywords, identified, annotated, bounded, listed, holding. repeat match goal with |- _ /\ _ => split end.
        all: try (intros C; destruct (C eq_refl)); try (intros [C|C]; discriminate C); try (intros C; discriminate C); try (intros _).
        all: repeat match goal with |- _ /\ _ => split end.
        all: try assumption.
        all: match goal with
          | |- kw o ?k (exclusive _ _ _) => apply i_exclusive6; [discriminate|assumption]
          | K : kw o ?k ?P |- kw o ?k ?Q => refine (kw_mono k P Q _ K); intros x Hx
          end.
        all: first [exact (i_address4 _ x Hx)|exact (i_address6 Draft6 _ _ x Hx)|exact (i_array x Hx)|exact (i_items Draft6 HR x Hx)|exact (i_object x Hx)|refine (i_patterns6 Draft6 x _ Hx); (intros [K99|K99]; discriminate K99)|exact (i_needs Draft6 HR x Hx)].
      + intros x X. destruct X as [k ms y x Hk E Hy|ds y x E Hy N|k x Hk E N|x E N|k l x Hk E Hx|x E|k x C Hk E|k x C Hk E].
        * destruct Hk as [<-|[<-|[<-|[]]]]; match goal with K : kw o ?k ?P, E : assoc ?k o = _ |- _ => destruct (K _ E) as (ms' & E' & K'); injection E' as <- end; try exact (K' _ _ Hy). 
        * match goal with K : kw o ?k ?P, E : assoc ?k o = _ |- _ => destruct (K _ E) as (ms' & E' & K'); injection E' as <- end. destruct (K' _ _ Hy) as [K''|(l & E' & _)]; auto. destruct N. eexists; exact E'.
        * destruct Hk as [<-|[<-|[]]]; match goal with K : kw o ?k ?P, E : assoc ?k o = _ |- _ => pose proof (K _ E) as K' end; exact K'.
        * match goal with K : kw o ?k ?P, E : assoc ?k o = _ |- _ => destruct (K _ E) as [K'|(l & E' & _)] end; auto. destruct N. eexists; exact E'.
        * destruct Hk as [<-|Hk].
          -- match goal with K : kw o ?k ?P, E : assoc ?k o = _ |- _ => destruct (K _ E) as [K'|(l' & E' & _ & K')] end; [destruct (not_array Draft6 HR _ K'); eexists; reflexivity|injection E' as <-; auto].
          -- destruct Hk as [<-|[<-|[<-|[]]]]; match goal with K : kw o ?k ?P, E : assoc ?k o = _ |- _ => destruct (K _ E) as (l' & E' & _ & K') end; injection E' as <-; auto.
        * match goal with K : kw o ?k ?P, E : assoc ?k o = _ |- _ => exact (K _ E) end.
        * destruct Hk as [<-|[<-|[]]]; match goal with K : kw o ?k ?P, E : assoc ?k o = _ |- _ => exact (K _ E) end.
        * destruct C as [C|C]; discriminate C.
    - intros [L S]. unfold lawful_keywords, identified, annotated, bounded, listed, holding in L.
      assert (C6 : since6 Draft6) by discriminate.
      
      decompose [and] L. clear L.
      repeat match goal with H : since6 _ -> _ |- _ => specialize (H C6)  end.
      
      unfold kept, rows6. repeat (constructor; [cbn [fst snd]|]); [..|constructor]; try assumption.
      all: intros x E; try exact I.
      all: try (match goal with K : kw o ?k ?P, E : assoc ?k o = _ |- _ => pose proof (K _ E) as Kx end).
      all: cbv beta.
      all: first [exact Kx|refine (b_schemas Draft6 S _ x _ E Kx); simpl; tauto|exact (b_patterns6 Draft6 S x E Kx)|refine (b_array Draft6 S _ x _ E Kx); simpl; tauto|exact (b_items Draft6 S x E Kx)|exact (b_needs Draft6 S x E Kx)
        |refine (b_additional6 Draft6 S _ x C6 _ E); simpl; tauto|exact (b_address Draft6 _ _ x C6 Kx)|exact (b_exclusive6 Draft6 _ x C6 Kx)
        |apply S; exact (in_not Draft6 o x E)|apply S; refine (in_since6 Draft6 o _ x C6 _ E); simpl; tauto].
  Qed.
  Lemma rows_lawful7 : (forall x, R x -> is_object x \/ since6 Draft7 /\ is_boolean x) ->
    (kept (rows7 env R) <-> lawful_keywords has same Draft7 o /\ forall x, schema_in Draft7 o x -> R x).
  Proof.
    intros HR. split.
    - intros H. unfold kept, rows7 in H. repeat (apply forall_cons in H; let K := fresh "K" in destruct H as [K H]; cbn [fst snd] in K). split.
      + unfold lawful_keywords, identified, annotated, bounded, listed, holding. repeat match goal with |- _ /\ _ => split end.
        all: try (intros C; destruct (C eq_refl)); try (intros [C|C]; discriminate C); try (intros C; discriminate C); try (intros _).
        all: repeat match goal with |- _ /\ _ => split end.
        all: try assumption.
        all: match goal with
          | |- kw o ?k (exclusive _ _ _) => apply i_exclusive6; [discriminate|assumption]
          | K : kw o ?k ?P |- kw o ?k ?Q => refine (kw_mono k P Q _ K); intros x Hx
          end.
        all: first [exact (i_address4 _ x Hx)|exact (i_address6 Draft7 _ _ x Hx)|exact (i_array x Hx)|exact (i_items Draft7 HR x Hx)|exact (i_object x Hx)|exact (i_patterns7 Draft7 x Hx)|exact (i_needs Draft7 HR x Hx)].
      + intros x X. destruct X as [k ms y x Hk E Hy|ds y x E Hy N|k x Hk E N|x E N|k l x Hk E Hx|x E|k x C Hk E|k x C Hk E].
        * destruct Hk as [<-|[<-|[<-|[]]]]; match goal with K : kw o ?k ?P, E : assoc ?k o = _ |- _ => destruct (K _ E) as (ms' & E' & K'); injection E' as <- end; try exact (K' _ _ Hy). exact (proj1 K' _ _ Hy).
        * match goal with K : kw o ?k ?P, E : assoc ?k o = _ |- _ => destruct (K _ E) as (ms' & E' & K'); injection E' as <- end. destruct (K' _ _ Hy) as [K''|(l & E' & _)]; auto. destruct N. eexists; exact E'.
        * destruct Hk as [<-|[<-|[]]]; match goal with K : kw o ?k ?P, E : assoc ?k o = _ |- _ => pose proof (K _ E) as K' end; exact K'.
        * match goal with K : kw o ?k ?P, E : assoc ?k o = _ |- _ => destruct (K _ E) as [K'|(l & E' & _)] end; auto. destruct N. eexists; exact E'.
        * destruct Hk as [<-|Hk].
          -- match goal with K : kw o ?k ?P, E : assoc ?k o = _ |- _ => destruct (K _ E) as [K'|(l' & E' & _ & K')] end; [destruct (not_array Draft7 HR _ K'); eexists; reflexivity|injection E' as <-; auto].
          -- destruct Hk as [<-|[<-|[<-|[]]]]; match goal with K : kw o ?k ?P, E : assoc ?k o = _ |- _ => destruct (K _ E) as (l' & E' & _ & K') end; injection E' as <-; auto.
        * match goal with K : kw o ?k ?P, E : assoc ?k o = _ |- _ => exact (K _ E) end.
        * destruct Hk as [<-|[<-|[]]]; match goal with K : kw o ?k ?P, E : assoc ?k o = _ |- _ => exact (K _ E) end.
        * destruct Hk as [<-|[<-|[<-|[]]]]; match goal with K : kw o ?k ?P, E : assoc ?k o = _ |- _ => exact (K _ E) end.
    - intros [L S]. unfold lawful_keywords, identified, annotated, bounded, listed, holding in L.
      assert (C6 : since6 Draft7) by discriminate.
      assert (C7 : since7 Draft7) by (left; reflexivity).
      decompose [and] L. clear L.
      repeat match goal with H : since6 _ -> _ |- _ => specialize (H C6) | H : since7 _ -> _ |- _ => specialize (H C7); decompose [and] H; clear H end.
      
      unfold kept, rows7. repeat (constructor; [cbn [fst snd]|]); [..|constructor]; try assumption.
      all: intros x E; try exact I.
      all: try (match goal with K : kw o ?k ?P, E : assoc ?k o = _ |- _ => pose proof (K _ E) as Kx end).
      all: cbv beta.
      all: first [exact Kx|refine (b_schemas Draft7 S _ x _ E Kx); simpl; tauto|exact (b_patterns7 Draft7 S x C7 E Kx)|refine (b_array Draft7 S _ x _ E Kx); simpl; tauto|exact (b_items Draft7 S x E Kx)|exact (b_needs Draft7 S x E Kx)
        |refine (b_additional6 Draft7 S _ x C6 _ E); simpl; tauto|exact (b_address Draft7 _ _ x C6 Kx)|exact (b_exclusive6 Draft7 _ x C6 Kx)
        |apply S; exact (in_not Draft7 o x E)|apply S; refine (in_since6 Draft7 o _ x C6 _ E); simpl; tauto|apply S; refine (in_since7 Draft7 o _ x C7 _ E); simpl; tauto].
  Qed.
End Lawful.

(** ** The whole *)
Section Whole.
  Variable env : goenv.
  Notation meant d := (meaning (pat env) (fmt env) same (meta_leads d)).
  Notation has := (fun f s => fmt env f (VStr s)).

  Lemma properties_rows d o ps rs : NoDup (map fst o) -> Forall2 (row_ok env d) ps rs ->
    (c_properties (meant d) d (VMap o) (VMap ps) <-> kept o rs).
  Proof.
    intros N T. unfold c_properties, kept. split.
    - intros H. induction T as [|[k s] [k' P] ps rs [E T1] T IH]; [constructor|]. cbn [fst snd] in E, T1. subst k'. constructor.
      + intros x Ex. apply T1. apply (H _ _ eq_refl eq_refl k); [left; auto|]. apply assoc_In in Ex. exact Ex.
      + apply IH. intros ps' o' [= <-] [= <-] k1 s1 e1 H1 H2. apply (H _ _ eq_refl eq_refl k1); [right; auto|auto].
    - intros K ps' o' [= <-] [= <-]. induction T as [|[k s] [k' P] ps rs [E T1] T IH]; intros k1 s1 e1 H1 H2; [destruct H1|]. cbn [fst snd] in E, T1. subst k'.
      inversion K as [|r rs' K1 K2]; subst. destruct H1 as [[= <- <-]|H1]; [|eapply IH; eauto]. apply T1. apply (K1 e1). cbn [fst]. apply assoc_NoDup; auto.
  Qed.
  Lemma present_or (o : list (string * value)) k : In k (map fst o) <-> assoc k o <> None.
  Proof.
    induction o as [|[k' x] o IH]; cbn [map fst In assoc]; [split; [intros []|congruence]|]. destruct (String.eqb_spec k k') as [->|N]; [split; [intros _ K; discriminate K|intros _; left; reflexivity]|].
    rewrite <- IH. split; [intros [K|K]; [congruence|auto]|auto].
  Qed.
  Lemma root4 v : meant Draft4 Draft4 (meta_doc Draft4) v <-> is_object v /\ c_properties (meant Draft4) Draft4 v (VMap (meta_properties Draft4)) /\
    c_dependencies (meant Draft4) Draft4 v (VMap [("exclusiveMaximum", VArr [VStr "maximum"]); ("exclusiveMinimum", VArr [VStr "minimum"])]).
  Proof. assert (Hd : Draft4 <> Hybrid) by discriminate. unfold meta_doc at 1, schema4 at 1. spell Hd. rewrite type_one, type_object. reflexivity. Qed.
  Lemma root6 v : meant Draft6 Draft6 (meta_doc Draft6) v <-> (is_object v \/ is_boolean v) /\ c_properties (meant Draft6) Draft6 v (VMap (meta_properties Draft6)).
  Proof. assert (Hd : Draft6 <> Hybrid) by discriminate. unfold meta_doc at 1, schema6 at 1. spell Hd. rewrite type_two, type_object, type_boolean. reflexivity. Qed.
  Lemma root7 v : meant Draft7 Draft7 (meta_doc Draft7) v <-> (is_object v \/ is_boolean v) /\ c_properties (meant Draft7) Draft7 v (VMap (meta_properties Draft7)).
  Proof. assert (Hd : Draft7 <> Hybrid) by discriminate. unfold meta_doc at 1, schema7 at 1. spell Hd. rewrite type_two, type_object, type_boolean. reflexivity. Qed.

  Lemma bounds4 o : c_dependencies (meant Draft4) Draft4 (VMap o) (VMap [("exclusiveMaximum", VArr [VStr "maximum"]); ("exclusiveMinimum", VArr [VStr "minimum"])]) <-> with_bounds o.
  Proof.
    unfold c_dependencies, with_bounds. split.
    - intros H. split; intros K; apply present_or; apply present_or in K;
        [apply (proj1 (H _ _ eq_refl eq_refl "exclusiveMaximum" _ (or_introl eq_refl) K) _ eq_refl); left; auto
        |apply (proj1 (H _ _ eq_refl eq_refl "exclusiveMinimum" _ (or_intror (or_introl eq_refl)) K) _ eq_refl); left; auto].
    - intros [B1 B2] ds o' [= <-] [= <-] k a Ha K. apply present_or in K. split.
      + intros ks E k' Hk. destruct Ha as [[= <- <-]|[[= <- <-]|[]]]; injection E as <-; destruct Hk as [[= <-]|[]]; apply present_or; auto.
      + intros N. destruct Ha as [[= <- <-]|[[= <- <-]|[]]]; destruct (N _ eq_refl).
  Qed.

  Lemma meta_kind d x : d <> Hybrid -> meant d d (meta_doc d) x -> is_object x \/ since6 d /\ is_boolean x.
  Proof.
    intros Hd H. destruct d; try congruence; [apply root4 in H|apply root6 in H|apply root7 in H]; destruct H as [H _]; auto; (destruct H as [H|H]; [auto|right; split; [discriminate|auto]]).
  Qed.
  Lemma properties_boolean V d b x : c_properties V d (VBool b) x.
  Proof. intros ps o _ K. discriminate K. Qed.
  Lemma meta_boolean d b : d <> Hybrid -> since6 d -> meant d d (meta_doc d) (VBool b).
  Proof.
    intros Hd H6. destruct d; try congruence; [apply root6|apply root7]; (split; [right; eexists; eauto|apply properties_boolean]).
  Qed.
  Lemma meta_one d o : d <> Hybrid -> NoDup (map fst o) ->
    (meant d d (meta_doc d) (VMap o) <-> lawful_keywords has same d o /\ forall x, schema_in d o x -> meant d d (meta_doc d) x).
  Proof.
    intros Hd N. pose proof (fun x => meta_kind d x Hd) as HK. destruct d; try congruence.
    - rewrite root4, bounds4. rewrite (properties_rows Draft4 o _ _ N (table4 env _ (fun v => root_ref env Draft4 v Hd))). cbn [rows].
      rewrite <- rows_lawful4 by exact HK. split; [intros (_ & H); auto|intros H; split; [eexists; eauto|auto]].
    - rewrite root6. rewrite (properties_rows Draft6 o _ _ N (table6 env _ (fun v => root_ref env Draft6 v Hd))). cbn [rows].
      rewrite <- rows_lawful6 by exact HK. split; [intros (_ & H); auto|intros H; split; [left; eexists; eauto|auto]].
    - rewrite root7. rewrite (properties_rows Draft7 o _ _ N (table7 env _ (fun v => root_ref env Draft7 v Hd))). cbn [rows].
      rewrite <- rows_lawful7 by exact HK. split; [intros (_ & H); auto|intros H; split; [left; eexists; eauto|auto]].
  Qed.
  Lemma schema_in_inside d o x : schema_in d o x -> vsize x < vsize (VMap o) /\ (doc_ok (VMap o) -> doc_ok x).
  Proof.
    assert (A : forall (k : string) y, assoc k o = Some y -> vsize y < vsize (VMap o) /\ (doc_ok (VMap o) -> doc_ok y)).
    { intros k y E. apply assoc_In in E. split; [apply (vsize_member _ _ _ E)|]. intros H. apply doc_ok_map in H. destruct H as [_ H]. rewrite Forall_forall in H. exact (H _ E). }
    assert (B : forall ms (n : string) y z, In (n, y) ms -> vsize (VMap ms) < z /\ (doc_ok (VMap o) -> doc_ok (VMap ms)) -> vsize y < z /\ (doc_ok (VMap o) -> doc_ok y)).
    { intros ms n y z Hy [L D]. split; [destruct (vsize_member _ _ _ Hy); lia|]. intros H. specialize (D H). apply doc_ok_map in D. destruct D as [_ D]. rewrite Forall_forall in D. exact (D _ Hy). }
    intros X. destruct X as [k ms n y Hk E Hy|ds n y E Hy N|k y Hk E N|y E N|k l y Hk E Hy|y E|k y C Hk E|k y C Hk E]; eauto.
    destruct (A _ _ E) as [L D]. split; [apply vsize_item in Hy; lia|]. intros H. specialize (D H). apply doc_ok_arr in D. rewrite Forall_forall in D. auto.
  Qed.
  Theorem conforms_lawful d doc : d <> Hybrid -> doc_ok doc -> (conforms env d doc <-> lawful has same d doc).
  Proof.
    intros Hd. unfold conforms. rewrite meta_doc_eq. remember (S (vsize doc)) as n eqn:En. assert (L : vsize doc < n) by lia. clear En. revert doc L.
    induction n as [|n IH]; intros doc L D; [lia|]. split.
    - intros H. destruct (meta_kind d doc Hd H) as [[o ->]|[H6 [b ->]]]; [|constructor; auto].
      apply meta_one in H; [|auto|apply (doc_ok_map _ D)]. destruct H as [H1 H2]. constructor; auto. intros x Hx. destruct (schema_in_inside _ _ _ Hx) as [Lx Dx]. apply IH; auto. lia.
    - intros H. destruct H as [b H6|o H1 H2]; [apply meta_boolean; auto|]. apply meta_one; [auto|apply (doc_ok_map _ D)|]. split; auto.
      intros x Hx. destruct (schema_in_inside _ _ _ Hx) as [Lx Dx]. apply IH; auto. lia.
  Qed.
End Whole.
